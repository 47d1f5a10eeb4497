(** The clauses a first solve writes into the proof are never false by unit clauses alone. *)
Require Import List Arith Bool NArith ZArith Permutation Lia.
From Coq Require Import ZifyBool ZifyNat ZifyN.
Require Import Verif.Base Verif.CNFModel Verif.CNFProofs Verif.Outcome Verif.TrailModel Verif.TrailSpec Verif.TrailProofs Verif.TrailLemmas Verif.DbModel Verif.PropModel Verif.PropProofs Verif.DbProofs
  Verif.PropSpec Verif.PropLemmas Verif.AnalyzeModel Verif.AnalyzeProofs Verif.AnalyzeLemmas Verif.SimpModel Verif.SubsProofs Verif.SimpProofs Verif.SimpSpec Verif.SimpLemmas
  Verif.VEProofs Verif.AsymmProofs Verif.AsymmLemmas Verif.ReduceModel Verif.SolverModel Verif.SolverBase Verif.SolverUnits Verif.SolverSimp Verif.SolverSearch Verif.SolverProofs
  Verif.SolverSpec Verif.SolverLemmas Verif.CertSpec Verif.CertProofs Verif.CertSolver Verif.CertSimp Verif.CertHistory Verif.DRATSpec.
Import ListNotations.

(** the lines are given with the newest first *)
Fixpoint opn (F : formula) (ls : list cline) : Prop :=
  match ls with
  | [] => True
  | CDel _ :: r => opn F r
  | CAdd c :: r => opn F r /\ (length c < 2 \/ exists l, In l c /\ ~ In [lneg l] (F ++ lemmas r))
  end.
Lemma lemmas_app a b : lemmas (a ++ b) = lemmas a ++ lemmas b.
Proof. induction a as [|[c|c] r IH]; cbn [app lemmas]; [reflexivity|rewrite IH; reflexivity|exact IH]. Qed.
Lemma lemmas_rev c ls : In c (lemmas (rev ls)) <-> In c (lemmas ls).
Proof.
  induction ls as [|[e|e] r IH]; cbn [rev]; [tauto| |]; rewrite lemmas_app, in_app_iff, IH; cbn [lemmas In]; tauto.
Qed.
Lemma opn_at F c r1 : forall r2, opn F (r2 ++ CAdd c :: r1) -> 2 <= length c -> exists l, In l c /\ ~ In [lneg l] (F ++ lemmas r1).
Proof.
  induction r2 as [|[e|e] r2 IH]; cbn [app opn]; intros H Hc.
  - destruct H as (_ & [H|H]); [lia|exact H].
  - apply IH; [apply H|auto].
  - apply IH; auto.
Qed.
Lemma opn_lines F ls : opn F ls -> forall l1 c l2, rev ls = l1 ++ CAdd c :: l2 -> 2 <= length c -> exists l, In l c /\ ~ In [lneg l] (F ++ lemmas l1).
Proof.
  intros H l1 c l2 E Hc. assert (E' : ls = rev l2 ++ CAdd c :: rev l1).
  { rewrite <- (rev_involutive ls), E, rev_app_distr. cbn [rev]. rewrite <- app_assoc. reflexivity. }
  rewrite E' in H. destruct (opn_at F c (rev l1) (rev l2) H Hc) as (l & L1 & L2). exists l. split; auto.
  rewrite in_app_iff in *. rewrite lemmas_rev in L2. exact L2.
Qed.

Section Open.
Variables (F : formula) (n : nat).
Definition HU (d : db) : Prop := forall l, In [l] (F ++ lemmas (cert d)) -> exists c, In c (cls d) /\ clits d c = [l].
Definition LP (ls : list cline) : Prop := (forall c, In (CAdd c) ls -> proper n c) /\ (forall c, In (CDel c) ls -> wfc n c).
Definition OC (d : db) : Prop := opn F (cert d) /\ HU d /\ LP (cert d).

Lemma OC_keep d d' : cert d' = cert d -> (forall c l, In c (cls d) -> clits d c = [l] -> In c (cls d') /\ clits d' c = [l]) -> OC d -> OC d'.
Proof. intros E H (A & B & L). split; [rewrite E; exact A|]. split; [|rewrite E; exact L]. intros l Hl. rewrite E in Hl. destruct (B l Hl) as (c & C1 & C2). exists c. auto. Qed.
Lemma OC_aperm d a : aperm (arena d) a -> OC d -> OC (with_arena d a).
Proof. intros HA. apply OC_keep; [reflexivity|]. intros c l Hc E. split; auto. apply Permutation_length_1_inv. rewrite <- E. apply HA. Qed.
Lemma OC_empty d : OC d -> OC (emptyClause d).
Proof.
  intros (A & B & L1 & L2). split; [cbn [emptyClause cert opn]; split; [exact A|left; cbn; lia]|].
  split; [|split; [intros c [Hc|Hc]; [injection Hc as <-; split; [constructor|split; [intros l []|reflexivity]]|auto]|intros c [Hc|Hc]; [discriminate|auto]]]. intros l Hl. apply B. cbn [emptyClause cert lemmas] in Hl.
  rewrite in_app_iff in *. destruct Hl as [Hl|[Hl|Hl]]; auto. discriminate.
Qed.
Lemma OC_remove c d : DI n d -> OC d -> OC (removeClause c d).
Proof.
  intros HD (A & B & L1 & L2). split; [exact A|].
  split; [|split; [intros e [He|He]; [discriminate|auto]|intros e [He|He]; [injection He as <-; exact (di_WFA _ _ HD c)|auto]]]. intros l Hl. destruct (B l Hl) as (x & X1 & X2). exists x. rewrite clits_remove. auto.
Qed.
Lemma OC_fold cs : forall d, DI n d -> OC d -> OC (fold_left (fun d c => removeClause c d) cs d).
Proof. induction cs as [|c cs IH]; intros d HD H; cbn [fold_left]; auto. apply IH; [apply removeClause_DI; auto|apply OC_remove; auto]. Qed.
Lemma OC_create ls lbd d c d' : DI n d -> wfc n ls -> createClause ls lbd false d = Ok (c, d') ->
  (length ls < 2 \/ exists l, In l ls /\ ~ In [lneg l] (F ++ lemmas (cert d))) -> OC d -> OC d'.
Proof.
  intros HD HW E H (A & B & L1 & L2). assert (HK := createClause_created _ _ _ _ _ _ E).
  assert (Ec : cert d' = CAdd ls :: cert d) by (unfold createClause in E; destruct (65536 <=? _)%N; [discriminate|]; injection E as <- <-; reflexivity).
  assert (El : cls d' = cls d ++ [c]) by apply HK. split; [rewrite Ec; cbn [opn]; auto|].
  split; [|rewrite Ec; split; [intros e [He|He]; [injection He as <-|auto]|intros e [He|He]; [discriminate|auto]]].
  2:{ destruct HW as (W1 & W2). split; [exact W1|split; [exact W2|]]. unfold createClause in E. destruct (N.leb_spec 65536 (N.of_nat (length ls))); [discriminate|assumption]. }
  intros l Hl. rewrite Ec in Hl. cbn [lemmas] in Hl. assert (Hl' : ls = [l] \/ In [l] (F ++ lemmas (cert d))) by (rewrite in_app_iff in *; cbn [In] in Hl; tauto).
  destruct Hl' as [Hl'|Hl'].
  - exists c. rewrite El. split; [apply in_or_app; cbn; auto|]. rewrite (clits_new _ _ _ _ HK). exact Hl'.
  - destruct (B l Hl') as (x & X1 & X2). exists x. rewrite El. split; [apply in_or_app; auto|]. rewrite (clits_old _ _ _ _ x HK); auto.
    exact (cls_lt _ _ _ HD X1).
Qed.
Lemma OC_reestimate t cs d : OC d -> OC (reestimate t cs d).
Proof.
  destruct (reestimate_fields t cs d) as (A1 & A2 & A3 & A4 & A5 & A6 & A7 & A8 & A9 & A10). apply OC_keep.
  - exact A7.
  - intros c l Hc E. rewrite A3. split; auto. rewrite clits_alits, A9. exact E.
Qed.
Lemma OC_reduce persist median cand d : DI n d -> KD d -> OC d -> OC (reorganize (snd (reduce persist median cand d))).
Proof.
  intros HD HK H. cbn [reduce snd]. set (vs := red_victims persist median cand d). assert (H1 := OC_fold vs d HD H).
  revert H1. apply OC_keep; [reflexivity|]. set (d1 := fold_left _ vs d). intros c l Hc E.
  destruct (fold_remove vs d) as (B1 & B2 & B3). fold d1 in B1, B2, B3. rewrite B1 in E. rewrite B3 in Hc.
  assert (HD1 : DI n d1) by (apply fold_remove_DI; auto).
  split; [|destruct (reorganize_fields d1) as (R1 & _); rewrite clits_alits, R1, <- clits_alits, B1; exact E].
  apply reorganize_cls. split; [apply (di_cls _ _ HD1); rewrite B3; exact Hc|].
  assert (Hd := HK c Hc). rewrite E in Hd. specialize (Hd (le_S _ _ (le_n _))).
  assert (Hv : ~ In c vs).
  { intros Hx. apply victims_incl in Hx. apply filter_In in Hx. destruct Hx as (X1 & X2). unfold reducible in X2.
    destruct (di_small _ _ HD c (di_cls _ _ HD c X1)) as [H'|H']; [rewrite E; cbn; lia| |].
    + rewrite H' in X2. destruct persist; discriminate.
    + unfold isDeleted in X2. rewrite H' in X2. cbn in X2. rewrite andb_false_r in X2. discriminate. }
  assert (HV : forall x, In x vs -> x < length (arena d)).
  { intros x Hx. apply victims_incl in Hx. apply filter_In in Hx. exact (cls_lt _ _ _ HD (proj1 Hx)). }
  assert (HF : forall cs d0, (forall c, In c cs -> c < length (arena d0)) -> forall c, ~ In c cs -> cwt (fold_left (fun d c => removeClause c d) cs d0) c = cwt d0 c).
  { clear. induction cs as [|x cs IH]; intros d0 Hlt c Hc; cbn [fold_left]; auto. cbn [In] in Hc.
    rewrite IH; [|intros y Hy; rewrite arena_len_remove; apply Hlt; cbn; auto|tauto].
    rewrite cwt_remove by (apply Hlt; cbn; auto). destruct (Nat.eqb_spec c x); [subst; tauto|auto]. }
  unfold isDeleted in *. unfold d1. rewrite HF; auto.
Qed.

(** ** Unit clauses *)
Lemma pmu_facts_OC cs : forall d t d1 t1, OC d -> pmu_facts cs d t = Ok (d1, t1) -> OC d1.
Proof.
  induction cs as [|c cs IH]; intros d t d1 t1 H E; cbn [pmu_facts] in E; [injection E as <- <-; auto|].
  apply bind_ok in E. destruct E as ((b & t2) & _ & E). revert E. apply IH. destruct b; auto. apply OC_empty; auto.
Qed.
Lemma pmu_units_OC ls : forall d t d' t', DI n d -> (forall l, In l ls -> lvar l < n) -> OC d -> pmu_units ls d t = Ok (d', t') -> OC d'.
Proof.
  induction ls as [|l ls IH]; intros d t d' t' HD Hls H E; cbn [pmu_units] in E; [injection E as <- <-; auto|].
  apply bind_ok in E. destruct E as ((c & d1) & E1 & E). apply bind_ok in E. destruct E as ((b & t1) & _ & E).
  assert (Hw : wfc n [l]) by (split; [repeat constructor; intros []|intros m [<-|[]]; apply Hls; cbn; auto]).
  assert (HD1 := createClause_DI _ _ _ _ _ _ _ HD Hw E1).
  apply (IH d1 t1 d' t' HD1 (fun m Hm => Hls m (or_intror Hm))); auto. apply (OC_create [l] 0%N d c d1); auto.
Qed.
Lemma pmu_OC P d w t d' w' t' : nv d = n -> Z P d w t -> OC d -> pmu d w t = Ok (d', w', t') -> OC d'.
Proof.
  intros Hn HZ H E. unfold pmu in E.
  destruct (pmu_facts_spec P False w (getUnitClauses d) d t HZ) as (d1 & t1 & E1 & E2 & E3 & _).
  { intros c Hc. apply getUnit_in in Hc. apply Hc. }
  rewrite E1 in E. cbn [bind] in E. assert (H1 := pmu_facts_OC _ _ _ _ _ H E1).
  destruct (empt d1) eqn:Ee; [injection E as <- <- <-; auto|].
  destruct E2 as [HC1 HP1 HL1 HN1 HT1 HR1].
  destruct (propagate_spec d1 w t1 HP1) as (k & d2 & w2 & t2 & G1 & G2). rewrite G1 in E. cbn [bind] in E.
  destruct G2 as (A1 & A2 & A3 & A4 & A5 & A6 & A7 & A8 & A9 & A10 & A11).
  assert (H2 : OC d2) by (rewrite A5; apply OC_aperm; auto).
  destruct k as [c|]; [injection E as <- <- <-; apply OC_empty; auto|].
  apply bind_ok in E. destruct E as ((d3 & t3) & K1 & K2). injection K2 as <- <- <-.
  assert (Hn1 : nv d1 = n) by (destruct E3 as [->|(_ & E3)]; [exact Hn|rewrite (ms_nv _ _ _ E3); exact Hn]).
  rewrite Hn1 in HN1. assert (HD2 : DI n d2) by (rewrite A5; apply aperm_DI; auto; rewrite <- Hn1; apply HC1).
  apply (pmu_units_OC (skipn (length (tr t1)) (tr t2)) d2 t2 d3 t3 HD2); auto.
  intros l Hl. assert (Hl2 : In l (tr t2)) by (rewrite <- (firstn_skipn (length (tr t1)) (tr t2)); apply in_or_app; auto).
  assert (X := ti_range _ (pi_TI _ _ _ A1) _ Hl2). rewrite (tx_nvt _ _ A2) in X. cbn [with_qh nvt] in X. rewrite HN1 in X. exact X.
Qed.

(** ** Search *)
Variables (P : assignment -> Prop) (Q : Prop) (C : cfg) (O : oracle).
Lemma search_OC fuel : forall s r cs s', nv (sv_d s) = n -> V P Q (sv_d s) (sv_w s) (sv_t s) -> KD (sv_d s) -> OC (sv_d s) ->
  search C O fuel s = Ok (r, cs, s') -> OC (sv_d s').
Proof.
  induction fuel as [|f IH]; intros s r cs s' Hn HV HKD HO E; cbn [search] in E; [discriminate|].
  destruct (V_propagate P Q _ _ _ HV) as (k & d & w & t & E1 & HST & HB & Ea & Ed & En & HK & Edl & Hqh). rewrite E1 in E. cbn [bind] in E.
  destruct (SInv_propagate _ _ _ (proj1 HV)) as (k' & d' & w' & t' & E1' & HR & _). rewrite E1 in E1'. injection E1' as <- <- <- <-.
  destruct HR as (A1 & A2 & A3 & A4 & A5 & A6 & A7 & A8 & A9 & A10 & A11).
  rewrite Hn in En. assert (O1 : OC d) by (rewrite A5; apply OC_aperm; auto).
  assert (KD1 : KD d) by (rewrite A5; apply KD_aperm; auto).
  assert (HT := pi_TI _ _ _ A1). assert (HDI := ci_D _ _ (vb_C _ _ _ HB)).
  destruct k as [c|].
  - cbn [SStateQ] in HST. assert (SB := sc_B _ _ _ _ HST). destruct (Nat.eqb_spec (dlevel t) 0) as [H0|H0].
    { injection E as <- <- <-. exact O1. }
    destruct (V_learn P Q C d w t c HST HB) as (an & d0 & E2 & Hent & Hwf & HS); [lia|]. rewrite E2 in E. cbn [bind] in E.
    destruct (SConf_analysis d w t c HST (vb_D _ _ _ HB)) as (an' & E2' & LO & Hinv & Hlev & Htl & Hnil & Hy & Hlbd & HH); [lia|].
    rewrite E2 in E2'. injection E2' as <- ->.
    apply bind_ok in E. destruct E as ((c' & d2) & E3 & E). cbv zeta in HS. rewrite E3 in HS. cbn [safe] in HS.
    destruct HS as (N2 & K2 & t2 & T1 & T2 & T3 & HV2). rewrite T1 in E. cbn [bind] in E.
    set (d1 := if c_recalc C then reestimate t (an_involved an) d else d) in *.
    assert (HDI1 : DI (nv d) d1).
    { unfold d1. destruct (c_recalc C); auto. apply reestimate_DI; auto. intros x Hx. destruct (Hinv x Hx) as [->|(q & Q1 & Q2)].
      - destruct (sc_use _ _ _ _ HST) as (U1 & [U2|U2]); auto.
      - destruct (sb_RD _ _ _ SB q x Q1 Q2) as (U1 & [U2|U2]); auto. }
    assert (KD2 : KD d2).
    { apply (KD_create _ _ _ _ _ _ _ HDI1 E3). unfold d1. destruct (c_recalc C); auto. apply (KD_reestimate (nv d)); auto. }
    assert (O2 : OC d1) by (unfold d1; destruct (c_recalc C); auto; apply OC_reestimate; auto).
    assert (Ec1 : cert d1 = cert d). { unfold d1. destruct (c_recalc C); auto. apply (reestimate_fields t (an_involved an) d). }
    assert (O3 : OC d2).
    { rewrite En in HDI1, Hwf. apply (OC_create _ _ d1 c' d2 HDI1 Hwf E3); auto. right. destruct LO as (x & q & EL & _ & _ & Lx & _). exists x. split; [rewrite EL; left; auto|].
      rewrite Ec1. intros Hu. destruct (proj1 (proj2 O1) _ Hu) as (y & Y1 & Y2).
      destruct (vb_U _ _ _ HB y (lneg x)) as (_ & L0); auto.
      - split; auto. apply KD1; auto. rewrite Y2. cbn. lia.
      - rewrite lvar_neg in L0. lia. }
    set (w2 := if 2 <? length (an_learnt an) then attachClause d2 c' w else w) in *.
    set (s1 := with_log (sv_conf s + 1) (sv_log s) (core d2 w2 t2 s)) in *.
    assert (HC : sv_d (ipasir_callback (an_learnt an) s1) = d2 /\ sv_w (ipasir_callback (an_learnt an) s1) = w2 /\
                 sv_t (ipasir_callback (an_learnt an) s1) = t2).
    { unfold ipasir_callback. destruct (sv_cb s1); [destruct (_ <=? _)%Z|]; auto. }
    destruct HC as (C1 & C2 & C3). apply (IH (ipasir_callback (an_learnt an) s1) r cs s'); rewrite ?C1, ?C2, ?C3; auto. congruence.
  - cbn [SStateQ] in HST. specialize (Hqh eq_refl). destruct (o_restart O (sv_clk s)).
    { injection E as <- <- <-. exact O1. }
    destruct (assume_loop (S (length (assum t))) d t) as (ar, t1) eqn:EA.
    destruct (assume_loop_V P Q (S (length (assum t))) d w t ar t1 (conj HST HB) Hqh) as (V1 & Q1 & B1 & B2 & HR); [lia|exact EA|].
    assert (HB1 := proj2 V1).
    assert (Hnext : forall p, value t1 p = None -> lvar p < nvt t1 -> (dlevel t1 < length (assum t1) -> p = nth (dlevel t1) (assum t1) 0) ->
      (t2 <- decide p (newDecisionLevel t1);; search C O f (core d w t2 (core d w t1 (tick (core d w t s))))) = Ok (r, cs, s') -> OC (sv_d s')).
    { intros p Hp1 Hp2 Hp3 E4. destruct (V_decide P Q d w t1 p V1 Q1 Hp1 Hp2 Hp3) as (t2 & E5 & V2 & _). rewrite E5 in E4. cbn [bind] in E4.
      apply IH in E4; auto. }
    destruct ar as [cs'|p|].
    + injection E as <- <- <-. exact O1.
    + destruct HR as (R1 & R2 & R3). apply (Hnext p); auto. apply (vb_as _ _ _ HB1). subst p. apply nth_In. auto.
    + destruct (pick (o_pick O (sv_clk s)) t1) as [p|] eqn:EP.
      * destruct (pick_some _ _ _ EP) as (P1 & P2). apply (Hnext p); auto. lia.
      * injection E as <- <- <-. exact O1.
Qed.
End Open.

Section SolveOpen.
Variables (F : formula) (n : nat) (C : cfg) (O : oracle).
Hypothesis HE : c_elim C = false.
Hypothesis HI : c_inproc C = 0%N.
Hypothesis HPre : c_pre C = false.
Notation P := (holdsF F).
Notation OCs s := (OC F n (sv_d s)).

Lemma maintain_OC fuel s s' : nv (sv_d s) = n -> BI P s -> DK F (sv_d s) -> OCs s -> maintain C O fuel s = Ok s' -> OCs s'.
Proof.
  intros Hn [B1 B2 B3 B4 B5] (_ & HK) H E. unfold maintain in E.
  unfold trigger_reduce in E. destruct (N.leb_spec (sv_calls s * sv_nb s) (sv_conf s)) as [Hc|Hc]; [|injection E as <-; exact H].
  rewrite HI in E. cbn [N.ltb N.compare andb] in E.
  destruct (reduce (c_persist C) (c_median C) (o_cands O (sv_clk s)) (sv_d s)) as (inc, d) eqn:Er. cbn [bind core sv_d] in E. injection E as <-.
  cbn [core sv_d sv_t with_red tick sv_e].
  replace d with (snd (reduce (c_persist C) (c_median C) (o_cands O (sv_clk s)) (sv_d s))) by (rewrite Er; auto).
  apply (OC_reduce F n); auto. rewrite <- Hn. apply B1.
Qed.
Lemma solve_iter_OC fuel s r cs s' : nv (sv_d s) = n -> BI P s -> BW' s -> DK F (sv_d s) -> OCs s -> solve_iter C O fuel s = Ok (r, cs, s') -> OCs s'.
Proof.
  intros Hn [B1 B2 B3 B4 B5] HW HDK HV E. unfold solve_iter in E. set (s0 := core (sv_d s) (sv_w s) (trail_reset (sv_t s)) s) in *.
  apply bind_ok in E. destruct E as (s1 & E1 & E).
  assert (B0 : BI P s0) by (constructor; auto; exact (TI_TL _ (TI_TLreset _ B2))).
  assert (O1 := maintain_OC fuel s0 s1 Hn B0 HDK HV E1).
  destruct (maintain_cert F C O HE fuel s0 s1 B0 HW eq_refl eq_refl (TI_TLreset _ B2) (DK_MC F s0 HDK) E1) as ((V1 & KD1) & U1 & EV1).
  assert (M := maintain_spec P C O fuel s0 B0 HW eq_refl eq_refl (TI_TLreset _ B2)).
  rewrite E1 in M. cbn [safe] in M. destruct M as (Z1 & W1' & _ & R1 & K1).
  apply bind_ok in E. destruct E as (((d & w) & t) & E2 & E).
  assert (HT1 := pi_TI _ _ _ (z_P _ _ _ _ Z1)).
  assert (S1 : empt (sv_d s1) = false -> SInvQ (quiet C) (sv_d s1) (sv_w s1) (sv_t s1)).
  { intros Em. apply SInvQ_facts; auto; try apply Z1; auto.
    - rewrite (z_n _ _ _ _ Z1). apply Z1.
    - rewrite (z_n _ _ _ _ Z1). exact W1'.
    - intros HQ. apply (K1 HQ). }
  assert (Hn1 : nv (sv_d s1) = n) by (rewrite (r_nv _ _ _ R1); exact Hn).
  assert (O2 := pmu_OC F n P _ _ _ d w t Hn1 Z1 O1 E2).
  destruct (pmu_spec P (quiet C) _ _ _ Z1) as (d' & w' & t' & E2' & [A1 A2 A3 A4 A5 A6 A7 A8]). rewrite E2 in E2'. injection E2' as <- <- <-.
  assert (KD2 : KD d) by (apply (KD_mstep (nv (sv_d s1)) t (sv_d s1)); auto; apply Z1).
  destruct (empt d) eqn:Em; [injection E as <- <- <-; exact O2|].
  assert (Em1 : empt (sv_d s1) = false) by (destruct (empt (sv_d s1)) eqn:Ex; auto; discriminate (A3 eq_refl)).
  assert (S2 := A8 eq_refl (S1 Em1)). assert (HT := pi_TI _ _ _ (z_P _ _ _ _ A1)).
  assert (N1 := ms_nv _ _ _ A2).
  assert (EN : nv d = nv (sv_d s)) by (rewrite N1; apply (r_nv _ _ _ R1)).
  assert (EA : assum t = assum (sv_t s)) by (rewrite A6; apply (r_assum _ _ _ R1)).
  assert (L0 : forall l, In l (tr t) -> level t (lvar l) = 0).
  { intros l Hl. apply In_nth_error in Hl. destruct Hl as (i & Hi). apply (dlevel0_level t i l HT); auto. unfold dlevel. rewrite (z_lim _ _ _ _ A1). reflexivity. }
  assert (VV : V P (quiet C) d w t).
  { split; auto. constructor; auto; try apply A1.
    - intros i l Hi _. left. apply L0. exact (nth_error_In _ _ Hi).
    - intros l a Hl _ Ha. exact (z_T _ _ _ _ A1 l a Hl Ha).
    - constructor; [intros l Hl _ H; rewrite (L0 l Hl) in H; lia|]. unfold dlevel. rewrite (z_lim _ _ _ _ A1). cbn. lia.
    - intros c l Hc Hl. assert (H := A7 eq_refl c l Hc Hl). auto.
    - rewrite (z_n _ _ _ _ A1), EN, EA. exact B4. }
  apply (search_OC F n P (quiet C) C O fuel (core d w t s1) r cs s'); auto. cbn [core sv_d]. congruence.
Qed.
Lemma solve_loop_OC k fuel : forall s r cs s', nv (sv_d s) = n -> BI P s -> BW' s -> DK F (sv_d s) -> OCs s -> solve_loop C O k fuel s = Ok (r, cs, s') -> OCs s'.
Proof.
  induction k as [|k IH]; intros s r cs s' Hn HB HW HV HO E; cbn [solve_loop] in E; [discriminate|].
  destruct (o_term O (sv_clk s)); [injection E as <- <- <-; exact HO|].
  apply bind_ok in E. destruct E as (((r1 & cs1) & s1) & E1 & E).
  assert (BT : BI P (tick s)) by (destruct HB; constructor; auto).
  destruct (solve_iter_cert F C O HE fuel (tick s) r1 cs1 s1 BT HW (DK_MC F (tick s) HV) E1) as (X1 & _).
  assert (O1 := solve_iter_OC fuel (tick s) r1 cs1 s1 Hn BT HW HV HO E1).
  assert (HS := solve_iter_spec P C O fuel (tick s) BT HW). rewrite E1 in HS. cbn [safe] in HS.
  destruct r1 as [b|]; [injection E as <- <- <-; exact O1|].
  apply (IH s1 r cs s'); auto; [assert (HX := ip_R _ _ _ _ _ _ HS); rewrite (r_nv _ _ _ HX); exact Hn|apply HS|apply HS; auto].
Qed.
Lemma solve_OC fuel s x s' : nv (sv_d s) = n -> BI P s -> ev (sv_e s) = [] -> DK F (sv_d s) -> OCs s -> solve C O fuel s = Ok (x, s') -> OCs s'.
Proof.
  intros Hn HB He HV HO E. unfold solve in E. apply bind_ok in E. destruct E as (s1 & E1 & E). apply bind_ok in E. destruct E as (((r & cs) & s2) & E2 & E).
  assert (HS := solve_start_spec P C O fuel s HB). rewrite E1 in HS. cbn [safe] in HS. destruct HS as (X1 & X2 & X3 & _).
  destruct (solve_start_cert F C O HE fuel s s1 HB He HV (or_introl HPre) E1) as (_ & M2 & M3). specialize (M3 HPre).
  assert (O1 : OCs s1).
  { unfold solve_start in E1. destruct HB as [B1 B2 B3 B4 B5].
    destruct (ve_reset_spec P (nv (sv_d s)) (sv_e s) (trail_reset (sv_t s)) B5 B3 B4) as (cor & e1 & t1 & Ev & V1 & _ & _ & Hev).
    rewrite Ev in E1. cbn [bind] in E1. destruct (Hev He) as (-> & -> & He1). cbn [create_corr bind] in E1. rewrite HPre in E1. injection E1 as <-. exact HO. }
  assert (O2 : OCs s2).
  { destruct (empt (sv_d s1)) eqn:Em; [injection E2 as <- <- <-; exact O1|]. apply (solve_loop_OC fuel fuel s1 r cs s2); auto. rewrite (r_nv _ _ _ X3). exact Hn. }
  destruct r as [[|]|]; cbn [solve_finish] in E.
  - apply bind_ok in E. destruct E as (t & _ & E). injection E as <- <-. exact O2.
  - injection E as <- <-. cbn [core sv_d]. destruct (_ =? 0); [apply OC_empty|]; exact O2.
  - injection E as <- <-. exact O2.
Qed.
End SolveOpen.

(** ** The loaded problem *)
Lemma create_all_units n cs : forall d d', DI n d -> Forall (wfc n) cs -> create_all cs true d = Ok d' ->
  nv d' = nv d /\ cert d' = cert d /\ (forall x, In x (cls d) -> In x (cls d') /\ clits d' x = clits d x) /\
  (forall c, In c cs -> proper n c /\ exists x, In x (cls d') /\ clits d' x = c).
Proof.
  induction cs as [|c cs IH]; intros d d' HD HW E; cbn [create_all] in E; [injection E as <-; split; auto; split; auto; split; auto; intros c []|].
  apply bind_ok in E. destruct E as ((x & d1) & E1 & E). inversion HW as [|? ? Hc HW']; subst.
  assert (HD1 := createClause_DI _ _ _ _ _ _ _ HD Hc E1). assert (HK := createClause_created _ _ _ _ _ _ E1).
  destruct (IH d1 d' HD1 HW' E) as (A0 & A1 & A2 & A3). assert (El : cls d1 = cls d ++ [x]) by apply HK.
  split; [rewrite A0; apply HK|]. split.
  - rewrite A1. unfold createClause in E1. destruct (65536 <=? _)%N; [discriminate|]. injection E1 as _ <-. reflexivity.
  - split.
    + intros y Hy. destruct (A2 y) as (B1 & B2); [rewrite El; apply in_or_app; auto|]. split; auto. rewrite B2. apply (clits_old _ _ _ _ y HK). exact (cls_lt _ _ _ HD Hy).
    + intros e [<-|He]; auto. split.
      { destruct Hc as (W1 & W2). split; [exact W1|split; [exact W2|]]. unfold createClause in E1. destruct (N.leb_spec 65536 (N.of_nat (length c))); [discriminate|assumption]. }
      destruct (A2 x) as (B1 & B2); [rewrite El; apply in_or_app; cbn; auto|]. exists x. split; auto. rewrite B2. exact (clits_new _ _ _ _ HK).
Qed.
Lemma proper_le n m c : n <= m -> proper n c -> proper m c.
Proof. intros H (A & B & D). split; [exact A|split; [|exact D]]. intros l Hl. specialize (B l Hl). lia. Qed.
Lemma load_OC C F s : sreach C loading_op F s -> cert (sv_d s) = [] /\
  forall c, In c F -> proper (nvars s) c /\ exists x, In x (cls (sv_d s)) /\ clits (sv_d s) x = c.
Proof.
  intros HR. induction HR as [|F s n cs lemma s' HR IH Ho Hc E|F s ls HR IH Ho Hl|F s cb HR IH Ho|F s O fuel x s' HR IH Ho E].
  - split; [reflexivity|intros c []].
  - cbn in Ho. subst lemma. destruct (load_DK C F s HR) as (D1 & D2 & D3). destruct IH as (I1 & I2).
    assert (HB := reach_BI _ _ _ _ HR). unfold solver_init in E. apply bind_ok in E. destruct E as (d1 & E1 & E). rewrite (init_undo_none _ _ _ _ D2) in E. cbn [bind] in E.
    injection E as <-. unfold nvars. cbn [with_e core sv_d]. unfold db_init in E1.
    assert (HD : DI (nv (db_grow n (sv_d s))) (db_grow n (sv_d s))).
    { apply (ci_D (holdsF F)). apply CI_grow. apply HB. }
    assert (HN := grow_nv n (sv_d s)). rewrite HN in HD. destruct (db_grow_cls n (sv_d s)) as (G1 & G2 & G3).
    destruct (create_all_units _ cs _ d1 HD Hc E1) as (A0 & A1 & A2 & A3). rewrite A0, HN. split.
    + rewrite A1. rewrite <- I1. unfold db_grow. destruct (_ <? _); reflexivity.
    + intros c Hin. apply in_app_or in Hin. destruct Hin as [Hin|Hin]; auto. destruct (I2 c Hin) as (I3 & x & X1 & X2). split; [apply (proper_le (nvars s)); [unfold nvars; lia|exact I3]|].
      destruct (A2 x) as (B1 & B2); [rewrite G1; exact X1|]. exists x. split; auto. rewrite B2. unfold clits, cobj_at in *. rewrite G2. exact X2.
  - exact IH.
  - exact IH.
  - destruct Ho.
Qed.
Lemma first_OC C F s O fuel x s' : c_pre C = false -> c_inproc C = 0%N -> sreach C loading_op F s -> solve C O fuel s = Ok (x, s') -> OC F (nvars s) (sv_d s').
Proof.
  intros H1 H2 HR E. apply (no_elim_reach C loading_op F s H2 H1) in HR. rewrite (no_elim_solve C O fuel s H2 H1) in E.
  destruct (load_DK _ F s HR) as (D1 & D2 & D3). destruct (load_OC _ F s HR) as (L1 & L2).
  apply (solve_OC F (nvars s) (no_elim C) O eq_refl H2 H1 fuel s x s'); auto; [exact (reach_BI _ _ _ _ HR)|].
  split; [rewrite L1; exact I|]. split; [|rewrite L1; split; intros c []]. intros l Hl. rewrite L1, app_nil_r in Hl. apply (L2 [l] Hl).
Qed.
