(** The clausal proof over a history of solves, with simplification of the clauses. *)
Require Import List Arith Bool NArith ZArith Permutation Lia.
From Coq Require Import ZifyBool ZifyNat ZifyN.
Require Import Verif.Base Verif.CNFModel Verif.CNFProofs Verif.Outcome Verif.TrailModel Verif.TrailSpec Verif.TrailProofs Verif.TrailLemmas Verif.DbModel Verif.PropModel Verif.PropProofs Verif.DbProofs
  Verif.PropSpec Verif.PropLemmas Verif.AnalyzeModel Verif.AnalyzeProofs Verif.AnalyzeLemmas Verif.SimpModel Verif.SubsProofs Verif.SimpProofs Verif.SimpSpec Verif.SimpLemmas
  Verif.VEProofs Verif.AsymmProofs Verif.AsymmLemmas Verif.ReduceModel Verif.SolverModel Verif.SolverBase Verif.SolverUnits Verif.SolverSimp Verif.SolverSearch Verif.SolverProofs
  Verif.SolverSpec Verif.SolverLemmas Verif.CertSpec Verif.CertProofs Verif.CertSolver Verif.CertSimp.
Import ListNotations.

Lemma KD_mstep n t d d' : DI n d -> mstep t d d' -> KD d -> KD d'.
Proof.
  intros HD HM HK c Hc Hl. apply (ms_cls _ _ _ HM) in Hc. unfold isDeleted. destruct Hc as [Hc|Hc].
  - assert (Hlt := cls_lt _ _ _ HD Hc). rewrite (ms_wt _ _ _ HM c Hlt). apply (HK c Hc). rewrite (Permutation_length (ms_lits _ _ _ HM c Hlt)). exact Hl.
  - destruct (ms_new _ _ _ HM c Hc) as (-> & _). reflexivity.
Qed.
Lemma GC_full F n d sel T : DI n d -> GC F d sel T -> (forall c, In c (cls d) -> sel c = true) -> DK F d.
Proof.
  intros HD [(Q & HQ & HC) HL HS HU] H. split.
  - apply (DV_sel F d sel alls); auto; [apply (di_clsnd _ _ HD)|exists Q; auto].
  - intros c Hc Hl. apply HS; auto.
Qed.

Section Solve.
Variables (F : formula) (C : cfg) (O : oracle).
Hypothesis HE : c_elim C = false.
Notation P := (holdsF F).

(** every clause of the database is in the proof, or no reduction has happened *)
Definition MC (s : solver) : Prop := exists sel, GC F (sv_d s) sel [] /\ ((forall c, In c (cls (sv_d s)) -> sel c = true) \/ sv_calls s = 0%N).
Lemma DK_MC s : DK F (sv_d s) -> MC s.
Proof. intros H. exists alls. split; [apply DK_GC; auto|]. left. reflexivity. Qed.

Lemma maintain_cert fuel s s' : BI P s -> BW' s -> lim (sv_t s) = [] -> tr (sv_t s) = [] -> TI (sv_t s) -> MC s -> maintain C O fuel s = Ok s' ->
  DK F (sv_d s') /\ (empt (sv_d s') = true \/ UC (sv_d s') (sv_t s')) /\ ev (sv_e s') = ev (sv_e s).
Proof.
  intros [B1 B2 B3 B4 B5] HW HL HR HT (sel & HG & HF) E. destruct (Z_start P _ _ _ B1 HT HL HR B3 HW) as (HZ & _). unfold maintain in E.
  unfold trigger_reduce in E. destruct (N.leb_spec (sv_calls s * sv_nb s) (sv_conf s)) as [Hc|Hc].
  2:{ injection E as <-. cbn [with_red sv_d sv_t sv_e]. split; [|split; auto; right; apply UC_nil; auto].
      apply (GC_full F (nv (sv_d s)) _ sel []); auto; [apply B1|]. destruct HF as [HF|HF]; auto. rewrite HF in Hc. lia. }
  destruct ((0 <? c_inproc C)%N && (sv_last s + c_inproc C <=? sv_calls s)%N) eqn:Ei.
  - destruct HF as [HF|HF]; [|exfalso; rewrite HF in Ei; lia].
    apply bind_ok in E. destruct E as (s1 & E1 & E). injection E as <-. cbn [core sv_d sv_t sv_e].
    assert (HS := process_spec P C O fuel (with_red (sv_calls s) (sv_nb s + c_inc C)%N (sv_calls s) s) HZ B5).
    assert (HG' : GC F (sv_d s) sel (tr (sv_t s))) by (rewrite HR; exact HG).
    destruct (process_GC F P C O HE fuel (with_red (sv_calls s) (sv_nb s + c_inc C)%N (sv_calls s) s) s1 sel HZ B5 (ws_I _ _ _ HW) HG' HF E1) as (sel' & G1).
    rewrite E1 in HS. cbn [safe] in HS. destruct HS as (Z1 & _ & _ & _ & X5).
    destruct (DK_reorganize F _ (sv_d s1) sel' _ (ci_D _ _ (z_C _ _ _ _ Z1)) G1) as (A & B). split; auto. split; [|apply (X5 HE)].
    destruct (empt (sv_d s1)) eqn:Em; [left; exact Em|right]. exact B.
  - destruct (reduce (c_persist C) (c_median C) (o_cands O (sv_clk s)) (sv_d s)) as (inc, d) eqn:Er. cbn [bind core sv_d] in E. injection E as <-.
    cbn [core sv_d sv_t with_red tick sv_e]. split; [|split; auto; right; apply UC_nil; auto].
    replace d with (snd (reduce (c_persist C) (c_median C) (o_cands O (sv_clk s)) (sv_d s))) by (rewrite Er; auto).
    apply (DK_reduce F (nv (sv_d s)) _ _ _ _ sel []); auto. apply B1.
Qed.
Lemma solve_iter_cert fuel s r cs s' : BI P s -> BW' s -> MC s -> solve_iter C O fuel s = Ok (r, cs, s') ->
  DK F (sv_d s') /\ (r = Some false -> cs = [] -> empt (sv_d s') = true \/ falsified (sv_d s') []) /\ ev (sv_e s') = ev (sv_e s).
Proof.
  intros [B1 B2 B3 B4 B5] HW HV E. unfold solve_iter in E. set (s0 := core (sv_d s) (sv_w s) (trail_reset (sv_t s)) s) in *.
  apply bind_ok in E. destruct E as (s1 & E1 & E).
  assert (B0 : BI P s0) by (constructor; auto; exact (TI_TL _ (TI_TLreset _ B2))).
  destruct (maintain_cert fuel s0 s1 B0 HW eq_refl eq_refl (TI_TLreset _ B2) HV E1) as ((V1 & KD1) & U1 & EV1).
  assert (M := maintain_spec P C O fuel s0 B0 HW eq_refl eq_refl (TI_TLreset _ B2)).
  rewrite E1 in M. cbn [safe] in M. destruct M as (Z1 & W1' & _ & R1 & K1).
  apply bind_ok in E. destruct E as (((d & w) & t) & E2 & E).
  assert (HT1 := pi_TI _ _ _ (z_P _ _ _ _ Z1)).
  assert (S1 : empt (sv_d s1) = false -> SInvQ (quiet C) (sv_d s1) (sv_w s1) (sv_t s1)).
  { intros Em. apply SInvQ_facts; auto; try apply Z1; auto.
    - rewrite (z_n _ _ _ _ Z1). apply Z1.
    - rewrite (z_n _ _ _ _ Z1). exact W1'.
    - intros HQ. apply (K1 HQ). }
  destruct (pmu_cert F P (quiet C) _ _ _ d w t Z1 S1 U1 V1 E2) as (V2 & U2).
  destruct (pmu_spec P (quiet C) _ _ _ Z1) as (d' & w' & t' & E2' & [A1 A2 A3 A4 A5 A6 A7 A8]). rewrite E2 in E2'. injection E2' as <- <- <-.
  assert (KD2 : KD d) by (apply (KD_mstep (nv (sv_d s1)) t (sv_d s1)); auto; apply Z1).
  destruct (empt d) eqn:Em.
  - injection E as <- <- <-. cbn [core sv_d sv_e]. split; [split; auto|]. split; auto.
  - assert (Em1 : empt (sv_d s1) = false) by (destruct (empt (sv_d s1)) eqn:Ex; auto; discriminate (A3 eq_refl)).
    assert (S2 := A8 eq_refl (S1 Em1)). assert (HT := pi_TI _ _ _ (z_P _ _ _ _ A1)).
    assert (N1 := ms_nv _ _ _ A2).
    assert (EN : nv d = nv (sv_d s)) by (rewrite N1; apply (r_nv _ _ _ R1)).
    assert (EA : assum t = assum (sv_t s)) by (rewrite A6; apply (r_assum _ _ _ R1)).
    assert (L0 : forall l, In l (tr t) -> level t (lvar l) = 0).
    { intros l Hl. apply In_nth_error in Hl. destruct Hl as (i & Hi). apply (dlevel0_level t i l HT); auto. unfold dlevel. rewrite (z_lim _ _ _ _ A1). reflexivity. }
    assert (VV : V P (quiet C) d w t).
    { split; auto. constructor; auto; try apply A1.
      - intros i l Hi _. left. apply L0. exact (nth_error_In _ _ Hi).
      - intros l a Hl _ Ha. exact (z_T _ _ _ _ A1 l a Hl Ha).
      - constructor; [intros l Hl _ H; rewrite (L0 l Hl) in H; lia|]. unfold dlevel. rewrite (z_lim _ _ _ _ A1). cbn. lia.
      - intros c l Hc Hl. assert (H := A7 eq_refl c l Hc Hl). auto.
      - rewrite (z_n _ _ _ _ A1), EN, EA. exact B4. }
    destruct (search_cert F P (quiet C) C O fuel (core d w t s1) r cs s' VV (UC_F0 _ _ (U2 eq_refl)) V2 KD2 E) as (X1 & X2 & X3).
    split; [split; auto|]. split; auto.
    assert (HS := search_spec P (quiet C) C O fuel (core d w t s1) VV). rewrite E in HS. cbn [safe] in HS. rewrite (so_e _ _ _ _ _ _ HS). exact EV1.
Qed.
Lemma solve_loop_cert n fuel : forall s r cs s', BI P s -> BW' s -> MC s -> solve_loop C O n fuel s = Ok (r, cs, s') ->
  (exists sel, GC F (sv_d s') sel []) /\ (DK F (sv_d s) -> DK F (sv_d s')) /\
  (r = Some false -> cs = [] -> empt (sv_d s') = true \/ falsified (sv_d s') []) /\ ev (sv_e s') = ev (sv_e s).
Proof.
  induction n as [|n IH]; intros s r cs s' HB HW HV E; cbn [solve_loop] in E; [discriminate|].
  destruct (o_term O (sv_clk s)).
  { injection E as <- <- <-. destruct HV as (sel & HV & _). split; [exists sel; exact HV|]. split; auto. split; [discriminate|reflexivity]. }
  apply bind_ok in E. destruct E as (((r1 & cs1) & s1) & E1 & E).
  assert (BT : BI P (tick s)) by (destruct HB; constructor; auto).
  destruct (solve_iter_cert fuel (tick s) r1 cs1 s1 BT HW HV E1) as (X1 & X2 & X3).
  assert (HI := solve_iter_spec P C O fuel (tick s) BT HW). rewrite E1 in HI. cbn [safe] in HI.
  destruct r1 as [b|].
  - injection E as <- <- <-. split; [exists alls; apply DK_GC; auto|]. split; auto.
  - destruct (IH s1 r cs s') as (Y1 & Y2 & Y3 & Y4); auto; [apply HI|apply HI; auto|apply DK_MC; auto|]. split; auto. split; auto. split; auto. rewrite Y4. exact X3.
Qed.

Lemma solve_finish_cert r cs s x s' : (r = Some false -> cs = [] -> empt (sv_d s) = true \/ falsified (sv_d s) []) -> solve_finish r cs s = Ok (x, s') ->
  ((exists sel, GC F (sv_d s) sel []) -> exists sel, GC F (sv_d s') sel []) /\ (DK F (sv_d s) -> DK F (sv_d s')) /\ ev (sv_e s') = ev (sv_e s).
Proof.
  intros P2 E. destruct r as [[|]|]; cbn [solve_finish] in E.
  - apply bind_ok in E. destruct E as (t & _ & E). injection E as <- <-. cbn [core sv_d sv_e]. auto.
  - injection E as <- <-. cbn [core sv_d sv_e]. destruct (Nat.eqb_spec (length cs) 0) as [H0|H0]; auto. destruct cs; [|discriminate].
    specialize (P2 eq_refl eq_refl). split; [|split; auto].
    + intros (sel & HG). exists sel. apply GC_fail; auto.
    + intros (D1 & D2). split; auto. apply DV_falsified_empty; auto.
  - injection E as <- <-. cbn [core sv_d sv_e]. auto.
Qed.

Lemma solve_start_cert fuel s s1 : BI P s -> ev (sv_e s) = [] -> DK F (sv_d s) -> c_pre C = false \/ sv_calls s = 0%N -> solve_start C O fuel s = Ok s1 ->
  MC s1 /\ ev (sv_e s1) = [] /\ (c_pre C = false -> DK F (sv_d s1)).
Proof.
  intros [B1 B2 B3 B4 B5] He HD HP E1. unfold solve_start in E1.
  destruct (ve_reset_spec P (nv (sv_d s)) (sv_e s) (trail_reset (sv_t s)) B5 B3 B4) as (cor & e1 & t1 & Ev & V1 & _ & _ & Hev).
  rewrite Ev in E1. cbn [bind] in E1. destruct (Hev He) as (-> & -> & He1). cbn [create_corr bind] in E1.
  set (s0 := with_e e1 (core (sv_d s) (prop_reset (sv_d s)) (trail_reset (sv_t s)) s)) in *.
  destruct (c_pre C) eqn:Hc.
  - destruct HP as [HP|HP]; [discriminate|]. apply bind_ok in E1. destruct E1 as (s2 & E2 & E1). injection E1 as <-. cbn [core sv_e]. 
    assert (W0 := WS_reset _ _ (ci_D _ _ B1)). assert (HT0 := TI_TLreset _ B2).
    destruct (Z_start P _ _ _ B1 HT0 eq_refl eq_refl B3 W0) as (Z1 & _).
    assert (HS := process_spec P C O fuel s0 Z1 V1).
    destruct (process_GC F P C O HE fuel s0 s2 alls Z1 V1 (ws_I _ _ _ W0) (DK_GC _ _ HD) (fun _ _ => eq_refl) E2) as (sel & G1).
    rewrite E2 in HS. cbn [safe] in HS. destruct HS as (_ & _ & _ & _ & X5).
    split; [|split; [rewrite (proj2 (X5 HE)); exact He1|discriminate]]. exists sel. cbn [core sv_d sv_calls]. split; [apply (GC_sub _ _ _ _ _ (fun x (H : In x []) => match H with end) G1)|].
    right. unfold processClauseDatabase in E2. apply bind_ok in E2. destruct E2 as (((((k & d) & w) & t) & e) & _ & E2). injection E2 as <-. exact HP.
  - injection E1 as <-. split; [apply DK_MC; auto|]. split; auto.
Qed.
Lemma solve_cert fuel s x s' : BI P s -> ev (sv_e s) = [] -> DK F (sv_d s) -> c_pre C = false \/ sv_calls s = 0%N -> solve C O fuel s = Ok (x, s') ->
  (exists sel, GC F (sv_d s') sel []) /\ (c_pre C = false -> DK F (sv_d s')) /\ ev (sv_e s') = [].
Proof.
  intros HB He HV HP E. unfold solve in E. apply bind_ok in E. destruct E as (s1 & E1 & E). apply bind_ok in E. destruct E as (((r & cs) & s2) & E2 & E).
  assert (HS := solve_start_spec P C O fuel s HB). rewrite E1 in HS. cbn [safe] in HS. destruct HS as (X1 & X2 & X3 & _).
  destruct (solve_start_cert fuel s s1 HB He HV HP E1) as (M1 & M2 & M3).
  assert (HX : (exists sel, GC F (sv_d s2) sel []) /\ (DK F (sv_d s1) -> DK F (sv_d s2)) /\
    (r = Some false -> cs = [] -> empt (sv_d s2) = true \/ falsified (sv_d s2) []) /\ ev (sv_e s2) = ev (sv_e s1)).
  { destruct (empt (sv_d s1)) eqn:Em; [|apply (solve_loop_cert fuel fuel s1); auto]. injection E2 as <- <- <-.
    destruct M1 as (sel & M1 & _). split; [exists sel; auto|]. auto. }
  destruct HX as (Y1 & Y2 & Y3 & Y4). destruct (solve_finish_cert r cs s2 x s' Y3 E) as (W1 & W2 & W3). split; auto. split; auto. congruence.
Qed.
End Solve.

(** ** Histories *)
Lemma new_DK C : DK [] (sv_d (solver_new C)).
Proof. split; [|intros c []]. exists []. split; [apply d_nil|]. split; [intros c; cbn; auto|discriminate]. Qed.
Lemma create_all_KD n cs : forall d d', DI n d -> Forall (wfc n) cs -> create_all cs true d = Ok d' -> KD d -> KD d'.
Proof.
  induction cs as [|c cs IH]; intros d d' HD HF E HK; cbn [create_all] in E; [injection E as <-; auto|].
  apply bind_ok in E. destruct E as ((x & d1) & E1 & E2). inversion HF as [|? ? Hc HF']; subst.
  apply (IH d1); auto; [exact (createClause_DI _ _ _ _ _ _ _ HD Hc E1)|]. exact (KD_create _ _ _ _ _ _ _ HD E1 HK).
Qed.
Lemma init_DK C ok F s n cs s' : sreach C ok F s -> DK F (sv_d s) -> ev (sv_e s) = [] -> Forall (clause_ok (max n (nvars s))) cs ->
  solver_init n cs true s = Ok s' -> DK (F ++ cs) (sv_d s') /\ ev (sv_e s') = [] /\ sv_calls s' = sv_calls s.
Proof.
  intros HR (IH & HK) He Hc E. assert (HB := reach_BI _ _ _ _ HR).
  unfold solver_init in E. apply bind_ok in E. destruct E as (d1 & E1 & E). rewrite (init_undo_none _ _ _ _ He) in E. cbn [bind] in E.
  injection E as <-. cbn [with_e core sv_d sv_e sv_calls]. split; [|auto]. destruct IH as (Q & IH). unfold db_init in E1.
  assert (HD : DI (nv (db_grow n (sv_d s))) (db_grow n (sv_d s))).
  { apply (ci_D (holdsF F)). apply CI_grow. apply HB. }
  assert (HN := grow_nv n (sv_d s)). rewrite HN in HD. destruct (db_grow_cls n (sv_d s)) as (G1 & G2 & G3).
  assert (IH' : DVQ F (db_grow n (sv_d s)) alls Q).
  { destruct IH as (I1 & I2 & I3). split; [|split].
    - unfold db_grow. destruct (_ <? _); exact I1.
    - intros c. rewrite (csel_same c (sv_d s)); auto. intros y _. unfold clits, cobj_at. rewrite G2. apply same_refl.
    - rewrite G3. exact I3. }
  destruct (DVQ_load F _ cs _ _ Q HD Hc E1 IH') as (Q' & X & ->). split; [exists (Q ++ cs); exact X|].
  apply (create_all_KD _ cs (db_grow n (sv_d s)) d1 HD Hc E1). apply (KD_same (sv_d s)); auto. intros c _. unfold clits, cwt, cobj_at. rewrite G2. auto.
Qed.
Lemma reach_DK C F s : c_elim C = false -> c_pre C = false -> sreach C problem_op F s -> DK F (sv_d s) /\ ev (sv_e s) = [].
Proof.
  intros HE Hp HR. induction HR as [|F s n cs lemma s' HR IH Ho Hc E|F s ls HR IH Ho Hl|F s cb HR IH Ho|F s O fuel x s' HR IH Ho E].
  - split; [apply new_DK|reflexivity].
  - cbn in Ho. subst lemma. destruct IH as (I1 & I2). destruct (init_DK C problem_op F s n cs s' HR I1 I2 Hc E) as (A & B & _). auto.
  - exact IH.
  - exact IH.
  - destruct IH as (I1 & I2). destruct (solve_cert F C O HE fuel s x s' (reach_BI _ _ _ _ HR) I2 I1 (or_introl Hp) E) as (_ & A & B). auto.
Qed.
Lemma load_DK C F s : sreach C loading_op F s -> DK F (sv_d s) /\ ev (sv_e s) = [] /\ sv_calls s = 0%N.
Proof.
  intros HR. induction HR as [|F s n cs lemma s' HR IH Ho Hc E|F s ls HR IH Ho Hl|F s cb HR IH Ho|F s O fuel x s' HR IH Ho E].
  - split; [apply new_DK|split; reflexivity].
  - cbn in Ho. subst lemma. destruct IH as (I1 & I2 & I3). destruct (init_DK C loading_op F s n cs s' HR I1 I2 Hc E) as (A & B & D). split; auto. split; congruence.
  - exact IH.
  - exact IH.
  - destruct Ho.
Qed.
Lemma history_cert C F s : c_pre C = false -> c_inproc C = 0%N \/ c_elim C = false -> sreach C problem_op F s -> exists Q, derivation F (rev (cert (sv_d s))) Q.
Proof.
  intros H2 [H1|H1] HR.
  - apply no_elim_reach in HR; auto. destruct (reach_DK (no_elim C) F s eq_refl H2 HR) as (((Q & HQ & _) & _) & _). exists Q. exact HQ.
  - destruct (reach_DK C F s H1 H2 HR) as (((Q & HQ & _) & _) & _). exists Q. exact HQ.
Qed.
Lemma first_cert C F s O fuel x s' : c_elim C = false -> sreach C loading_op F s -> solve C O fuel s = Ok (x, s') ->
  exists Q, derivation F (rev (cert (sv_d s'))) Q.
Proof.
  intros H1 HR E. destruct (load_DK C F s HR) as (D1 & D2 & D3).
  destruct (solve_cert F C O H1 fuel s x s' (reach_BI _ _ _ _ HR) D2 D1 (or_intror D3) E) as ((sel & [(Q & (HQ & _) & _) _ _ _]) & _). exists Q. exact HQ.
Qed.
