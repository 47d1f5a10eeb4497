(** The clausal proof written by the solver. *)
Require Import List Arith Bool NArith ZArith Permutation Lia.
From Coq Require Import ZifyBool ZifyNat ZifyN.
Require Import Verif.Base Verif.CNFModel Verif.CNFProofs Verif.Outcome Verif.TrailModel Verif.TrailSpec Verif.TrailProofs Verif.TrailLemmas Verif.DbModel Verif.PropModel Verif.PropProofs Verif.DbProofs
  Verif.PropSpec Verif.PropLemmas Verif.AnalyzeModel Verif.AnalyzeProofs Verif.AnalyzeLemmas Verif.SimpModel Verif.SubsProofs Verif.SimpProofs Verif.SimpSpec Verif.SimpLemmas
  Verif.VEProofs Verif.AsymmProofs Verif.AsymmLemmas Verif.ReduceModel Verif.SolverModel Verif.SolverBase Verif.SolverUnits Verif.SolverSimp Verif.SolverSearch Verif.SolverProofs
  Verif.SolverSpec Verif.SolverLemmas Verif.CertSpec Verif.CertProofs.
Import ListNotations.

(** every literal of the trail is a unit clause *)
Definition UC (d : db) (t : trail_t) : Prop := forall l, In l (tr t) -> exists c, In c (cls d) /\ clits d c = [l].
Lemma UC_nil d t : tr t = [] -> UC d t.
Proof. intros E l. rewrite E. intros []. Qed.
Lemma UPclosed_unit d H c l : UPclosed d H -> In c (cls d) -> clits d c = [l] -> H l.
Proof.
  intros HU Hc E. apply (HU c l Hc); rewrite E; [cbn; auto|]. intros m [<-|[]] Hn. contradiction.
Qed.
Lemma UC_H d t H l : UC d t -> UPclosed d H -> In l (tr t) -> H l.
Proof. intros HC HU Hl. destruct (HC l Hl) as (c & C1 & C2). exact (UPclosed_unit d H c l HU C1 C2). Qed.
Lemma UC_F0 d t : UC d t -> F0 d t.
Proof. intros H l Hl _ _. auto. Qed.

(** literals of level 0 follow by unit propagation *)
Lemma T0H d w t H : SBase d w t -> F0 d t -> UPclosed d H -> forall q, In q (tr t) -> level t (lvar q) = 0 -> H q.
Proof.
  intros [HP HD HW HC HR] HF HU q Hq. assert (HT := pi_TI _ _ _ HP). apply In_nth_error in Hq. destruct Hq as (i & Hi). revert q Hi.
  induction i as [i IH] using lt_wf_ind. intros q Hi H0. assert (Hq := nth_error_In _ _ Hi).
  destruct (reason t (lvar q)) as [c|] eqn:Er.
  - destruct (pi_TRe _ _ _ HP i q c Hi Er) as [R1 R2]. destruct (HR q c Hq Er) as [Hc _]. apply (HU c q Hc R1).
    intros m M1 Hn. destruct (R2 m M1 Hn) as (j & Hj & Ej).
    assert (Hle := level_mono t j i _ _ HT Ej Hi ltac:(lia)). exact (IH j Hj _ Ej ltac:(lia)).
  - destruct (HF q Hq H0 Er) as (c & C1 & C2). exact (UPclosed_unit d H c q HU C1 C2).
Qed.

Lemma DVQ_rup_empt F d sel Q c : DVQ F d sel Q -> empt d = true -> rup Q c.
Proof. intros (_ & _ & H) He. exists []. split; auto. intros m []. Qed.
Lemma DV_falsified_empty F d : DV F d alls -> empt d = true \/ falsified d [] -> DV F (emptyClause d) alls.
Proof.
  intros (Q & HQ) H. exists ([] :: Q). apply DVQ_empty; auto. destruct H as [H|H]; [exact (DVQ_rup_empt _ _ _ _ _ HQ H)|].
  exact (rup_of d Q [] (DVQ_covered _ _ _ HQ) H).
Qed.

(** small clauses of the database are not deleted *)
Definition KD (d : db) : Prop := forall c, In c (cls d) -> length (clits d c) < 3 -> isDeleted d c = false.
Lemma KD_same d d' : cls d' = cls d -> (forall c, In c (cls d) -> length (clits d' c) = length (clits d c) /\ cwt d' c = cwt d c) -> KD d -> KD d'.
Proof. intros E H HK c Hc Hl. rewrite E in Hc. destruct (H c Hc) as (A & B). unfold isDeleted. rewrite B. apply (HK c Hc). lia. Qed.
Lemma KD_aperm d a : aperm (arena d) a -> KD d -> KD (with_arena d a).
Proof. intros HA. apply KD_same; auto. intros c _. split; [symmetry; apply (aperm_len _ _ c HA)|apply HA]. Qed.
Lemma KD_reestimate n t cs d : DI n d -> KD d -> KD (reestimate t cs d).
Proof.
  intros HD HK c Hc Hl. destruct (reestimate_fields t cs d) as (A1 & A2 & A3 & A4 & A5 & A6 & A7 & A8 & A9 & A10).
  rewrite A3 in Hc. rewrite clits_alits, A9 in Hl. unfold isDeleted. rewrite A10; [reflexivity|].
  destruct (di_small _ _ HD c (di_cls _ _ HD c Hc) Hl) as [H|H]; auto. assert (X := HK c Hc Hl). unfold isDeleted in X. rewrite H in X. discriminate.
Qed.
Lemma KD_create ls lbd lem n d c d' : DI n d -> createClause ls lbd lem d = Ok (c, d') -> KD d -> KD d'.
Proof.
  intros HD E HK x Hx Hl. assert (HKc := createClause_created _ _ _ _ _ _ E). assert (Ec : cls d' = cls d ++ [c]) by apply HKc. rewrite Ec in Hx.
  apply in_app_or in Hx. destruct Hx as [Hx|[<-|[]]].
  - assert (Hlt := cls_lt _ _ _ HD Hx). unfold isDeleted. rewrite (cwt_old _ _ _ _ x HKc Hlt). apply (HK x Hx). rewrite (clits_old _ _ _ _ x HKc Hlt) in Hl. exact Hl.
  - rewrite (clits_new _ _ _ _ HKc) in Hl. unfold createClause in E. destruct (65536 <=? _)%N; [discriminate|]. injection E as <- <-.
    unfold isDeleted. rewrite cwt_awt. cbn [arena]. rewrite awt_new. cbn [wt]. destruct (Nat.ltb_spec (length ls) 3); [reflexivity|lia].
Qed.

Section Cert.
Variables (F : formula) (P : assignment -> Prop) (Q : Prop).

(** ** Unit clauses *)
Lemma pmu_facts_cert n cs : forall d t d1 t1, DI n d -> TI t -> dlevel t = 0 -> nvt t = n -> (forall c, In c cs -> In c (cls d) /\ exists l, clits d c = [l]) ->
  empt d = true \/ UC d t -> DV F d alls -> pmu_facts cs d t = Ok (d1, t1) -> DV F d1 alls /\ (empt d = true -> empt d1 = true) /\ (empt d1 = true \/ UC d1 t1).
Proof.
  induction cs as [|c cs IH]; intros d t d1 t1 HD HT H0 HN Hcs HU HV E; cbn [pmu_facts] in E; [injection E as <- <-; auto|].
  apply bind_ok in E. destruct E as ((b & t2) & E1 & E2). destruct (Hcs c (or_introl eq_refl)) as (C1 & l & C2). rewrite C2 in E1. cbn [hd] in E1.
  assert (Hlv : lvar l < nvt t). { rewrite HN. apply (proj2 (di_WFA _ _ HD c)). change (In l (clits d c)). rewrite C2. left; auto. }
  assert (Hcs' : forall y, In y cs -> In y (cls d) /\ exists l, clits d y = [l]) by (intros y Hy; apply Hcs; cbn; auto).
  destruct (fact_cases l t HT Hlv H0) as [(Ev & Ef)|[(Ev & Ef)|(Ev & Ef)]]; rewrite Ef in E1; injection E1 as <- <-.
  - apply (IH d (tpush l None t)); auto; [apply TI_push; auto|]. destruct HU as [HU|HU]; [left; exact HU|right]. intros m Hm. cbn [tpush tr] in Hm. apply in_app_or in Hm. destruct Hm as [Hm|[<-|[]]]; auto.
    exists c. auto.
  - apply (IH d (set_vd (lvar l) (None, 0) t)); auto. apply TI_set_vd_fact; auto.
  - destruct (IH (emptyClause d) t d1 t1) as (I1 & I2 & I3); auto; [apply emptyClause_DI; auto|]. apply DV_falsified_empty; auto.
    destruct HU as [HU|HU]; [left; exact HU|right]. exists c. split; auto.
    intros H HC _ m. rewrite C2. intros [<-|[]]. apply (UC_H d t H); auto. apply (ti_val_false t l HT). auto.
Qed.

Lemma pmu_units_cert n ls : forall d t d' t' Q0, DI n d -> (forall l, In l ls -> lvar l < n) -> DVQ F d alls Q0 -> (forall l, In l ls -> rup Q0 [l]) ->
  pmu_units ls d t = Ok (d', t') -> DV F d' alls /\
  (forall c, In c (cls d) -> In c (cls d') /\ clits d' c = clits d c) /\ (forall l, In l ls -> exists c, In c (cls d') /\ clits d' c = [l]).
Proof.
  induction ls as [|l ls IH]; intros d t d' t' Q0 HD Hls HV HR E; cbn [pmu_units] in E.
  { injection E as <- <-. split; [exists Q0; auto|]. split; auto. intros l []. }
  apply bind_ok in E. destruct E as ((c & d1) & E1 & E). apply bind_ok in E. destruct E as ((b & t1) & _ & E).
  assert (Hw : wfc n [l]) by (split; [repeat constructor; intros []|intros m [<-|[]]; apply Hls; cbn; auto]).
  assert (HD1 := createClause_DI _ _ _ _ _ _ _ HD Hw E1). assert (HK := createClause_created _ _ _ _ _ _ E1).
  assert (HV1 : DVQ F d1 alls ([l] :: Q0)).
  { apply (DVQ_create F n d [l] 0 c d1 alls alls Q0); auto. apply HR. cbn. auto. }
  destruct (IH d1 t1 d' t' ([l] :: Q0) HD1 (fun m Hm => Hls m (or_intror Hm)) HV1) as (X1 & X2 & X3); auto.
  { intros m Hm. apply (rup_mono Q0); [intros z; cbn; auto|]. apply HR. cbn. auto. }
  assert (Ec : cls d1 = cls d ++ [c]) by apply HK.
  split; auto. split.
  - intros x Hx. destruct (X2 x) as (Y1 & Y2); [rewrite Ec; apply in_or_app; auto|]. split; auto. rewrite Y2. apply (clits_old _ _ _ _ x HK).
    exact (cls_lt _ _ _ HD Hx).
  - intros m [<-|Hm]; auto. destruct (X2 c) as (Y1 & Y2); [rewrite Ec; apply in_or_app; cbn; auto|]. exists c. split; auto. rewrite Y2. exact (clits_new _ _ _ _ HK).
Qed.

Lemma pmu_units_tr ls : forall d t d' t', TI t -> dlevel t = 0 -> incl ls (tr t) -> pmu_units ls d t = Ok (d', t') -> tr t' = tr t.
Proof.
  induction ls as [|l ls IH]; intros d t d' t' HT H0 HI E; cbn [pmu_units] in E; [injection E as <- <-; auto|].
  apply bind_ok in E. destruct E as ((c & d1) & _ & E). apply bind_ok in E. destruct E as ((b & t1) & E1 & E).
  assert (Hl : In l (tr t)) by (apply HI; left; auto). assert (Ev : value t l = Some true) by (apply (ti_val _ HT); auto).
  rewrite (fact_true l t Ev) in E1. injection E1 as <- <-. apply IH in E; auto; [apply TI_set_vd_fact; auto; apply (ti_range _ HT _ Hl)|].
  intros m Hm. apply HI. right. auto.
Qed.
Lemma UPclosed_perm d a H : aperm (arena d) a -> UPclosed (with_arena d a) H -> UPclosed d H.
Proof.
  intros HA HU c q Hc Hq Hm. assert (HP : Permutation (clits d c) (clits (with_arena d a) c)) by apply HA.
  apply (HU c q); auto; [exact (Permutation_in _ HP Hq)|]. intros m M1 M2. apply Hm; auto. exact (Permutation_in _ (Permutation_sym HP) M1).
Qed.

Lemma pmu_cert d w t d' w' t' : Z P d w t -> (empt d = false -> SInvQ Q d w t) -> empt d = true \/ UC d t -> DV F d alls -> pmu d w t = Ok (d', w', t') ->
  DV F d' alls /\ (empt d' = false -> UC d' t').
Proof.
  intros HZ HS HU HV E. unfold pmu in E.
  destruct (pmu_facts_spec P Q w (getUnitClauses d) d t HZ) as (d1 & t1 & E1 & E2 & E3 & E4 & (new & E5) & E6 & E7 & E8 & E9 & E10).
  { intros c Hc. apply getUnit_in in Hc. apply Hc. }
  assert (HC := z_C _ _ _ _ HZ). assert (HD := ci_D _ _ HC). assert (HT := pi_TI _ _ _ (z_P _ _ _ _ HZ)).
  assert (H0 : dlevel t = 0) by (unfold dlevel; rewrite (z_lim _ _ _ _ HZ); auto).
  destruct (pmu_facts_cert (nv d) (getUnitClauses d) d t d1 t1 HD HT H0 (z_n _ _ _ _ HZ)) as (V1 & _ & U1'); auto.
  { intros c Hc. apply getUnit_in in Hc. destruct Hc as (C1 & C2). assert (C3 : In c (mem d ++ facts d)) by (apply in_or_app; auto).
    split; [exact (di_live _ _ HD c C3 C2)|]. apply (di_fact _ _ HD c C3) in C1. destruct (clits d c) as [|l [|]]; try discriminate. eauto. }
  rewrite E1 in E. cbn [bind] in E. destruct (empt d1) eqn:Ee; [injection E as <- <- <-; split; auto; intros; congruence|].
  destruct U1' as [U1|U1]; [congruence|].
  destruct E3 as [->|(E3 & _)]; [|congruence].
  specialize (E9 eq_refl (HS Ee)). destruct E2 as [HC1 HP1 HL1 HN1 HT1 HR1].
  destruct (propagate_spec d w t1 HP1) as (k & d2 & w2 & t2 & G1 & G2). rewrite G1 in E. cbn [bind] in E.
  assert (S2 := SBase_propagate _ _ _ _ _ _ _ (si_B _ _ _ E9) G2). destruct G2 as (A1 & A2 & A3 & A4 & A5 & A6 & A7 & A8 & A9 & A10 & A11).
  assert (V2 : DV F d2 alls) by (rewrite A5; apply DV_aperm; auto).
  assert (U2 : forall l, In l (tr t1) -> exists c, In c (cls d2) /\ clits d2 c = [l]).
  { intros l Hl. destruct (U1 l Hl) as (c & C1 & C2). exists c. rewrite A5. split; auto. apply Permutation_length_1_inv. rewrite <- C2. apply A4. }
  assert (HT2 := pi_TI _ _ _ A1). assert (L2 : lim t2 = []) by (rewrite (tx_lim _ _ A2); exact HL1).
  assert (D2 : dlevel t2 = 0) by (unfold dlevel; rewrite L2; auto).
  assert (F2 : F0 d2 t2).
  { intros l Hl _ Hr. destruct (in_text _ _ _ _ A2 Hl) as [Hi|(i & _ & _ & Hn)]; [auto|contradiction]. }
  assert (HH : forall H, UPclosed d2 H -> forall l, In l (tr t2) -> H l).
  { intros H HUP l Hl. apply (T0H d2 w2 t2 H S2 F2 HUP l Hl). apply In_nth_error in Hl. destruct Hl as (i & Hi). exact (dlevel0_level t2 i l HT2 D2 Hi). }
  assert (HD2 : DI (nv d) d2) by (rewrite A5; apply aperm_DI; auto).
  destruct k as [c|].
  - injection E as <- <- <-. split; [|discriminate]. apply DV_falsified_empty; auto. right. destruct (A10 c eq_refl) as (B1 & B2 & _).
    assert (Hc : In c (cls d2)).
    { rewrite A5. destruct (si_B _ _ _ E9) as [S1 S3 HW S4 S5]. apply (listed_usable d w (nv d) c); auto. apply S1. }
    exists c. split; auto. intros H HUP _ m Hm. apply HH; auto. apply (ti_val_false t2 m HT2). auto.
  - apply bind_ok in E. destruct E as ((d3 & t3) & K1 & K2). injection K2 as <- <- <-.
    destruct V2 as (Q2 & V2). assert (Hls : forall l, In l (skipn (length (tr t1)) (tr t2)) -> In l (tr t2)).
    { intros l Hl. rewrite <- (firstn_skipn (length (tr t1)) (tr t2)). apply in_or_app. auto. }
    destruct (pmu_units_cert (nv d) (skipn (length (tr t1)) (tr t2)) d2 t2 d3 t3 Q2 HD2) as (X1 & X2 & X3); auto.
    { intros l Hl. assert (X := ti_range _ HT2 _ (Hls l Hl)). rewrite (tx_nvt _ _ A2) in X. cbn [with_qh nvt] in X. rewrite HN1 in X. exact X. }
    { intros l Hl. apply (rup_of d2 Q2 [l] (DVQ_covered _ _ _ V2)).
      assert (Hl2 := Hls l Hl). destruct (reason t2 (lvar l)) as [c|] eqn:Er.
      - apply In_nth_error in Hl2. destruct Hl2 as (i & Hi). destruct (pi_TRe _ _ _ A1 i l c Hi Er) as [R1 R2].
        destruct (sb_RD _ _ _ S2 l c (nth_error_In _ _ Hi) Er) as [Hc _]. exists c. split; auto. intros H HUP Hn m M1.
        destruct (Nat.eq_dec m l) as [->|M2]; [apply Hn; cbn; auto|]. destruct (R2 m M1 M2) as (j & _ & Ej). apply HH; auto. exact (nth_error_In _ _ Ej).
      - destruct (F2 l Hl2) as (c & C1 & C2); auto; [apply In_nth_error in Hl2; destruct Hl2 as (i & Hi); exact (dlevel0_level t2 i l HT2 D2 Hi)|].
        exists c. split; auto. intros H HUP Hn m. rewrite C2. intros [<-|[]]. apply Hn. cbn. auto. }
    split; auto. intros _ l Hl. rewrite (pmu_units_tr _ _ _ _ _ HT2 D2 Hls K1) in Hl. destruct (tx_tr _ _ A2) as (nw & T1 & _). cbn [with_qh tr] in T1.
    rewrite T1 in Hl. apply in_app_or in Hl. destruct Hl as [Hl|Hl].
    + destruct (U2 l Hl) as (c & C1 & C2). destruct (X2 c C1) as (Y1 & Y2). exists c. split; auto. congruence.
    + apply X3. rewrite T1, skipn_app, skipn_all, Nat.sub_diag. exact Hl.
Qed.

(** ** Search *)
Lemma F0_text d a t t' q : aperm (arena d) a -> text (with_qh q t) t' -> F0 d t -> F0 (with_arena d a) t'.
Proof.
  intros HA HX HF l Hl H0 Hr. destruct (in_text _ _ _ _ HX Hl) as [Hi|(i & _ & _ & Hn)]; [|contradiction].
  destruct (text_in _ _ _ _ HX Hi) as (_ & B1 & B2). rewrite B1 in H0. rewrite B2 in Hr. destruct (HF l Hi H0 Hr) as (c & C1 & C2).
  exists c. split; auto. apply Permutation_length_1_inv. rewrite <- C2. apply HA.
Qed.
Lemma F0_backtrack d t n : TI t -> n < dlevel t -> F0 d t -> F0 d (backtrack n t).
Proof. intros HT Hn HF l Hl H0 Hr. destruct (backtrack_in t n l HT Hn Hl) as (A & B & C). rewrite B in Hr. rewrite C in H0. auto. Qed.
Lemma assume_loop_F0 d0 k : forall d t r t1, assume_loop k d t = (r, t1) -> F0 d0 t -> F0 d0 t1.
Proof.
  induction k as [|k IH]; intros d t r t1 E H; cbn [assume_loop] in E; [injection E as <- <-; auto|].
  destruct (hasAssumptionsNotSet t); [|injection E as <- <-; auto]. destruct (value t (nextAssumption t)) as [[|]|]; try (injection E as <- <-; auto).
  apply (IH _ _ _ _ E). apply F0_newlevel. auto.
Qed.
Lemma F0_decide d t p t' : TI t -> decide p (newDecisionLevel t) = Ok t' -> value t p = None -> lvar p < nvt t -> F0 d t -> F0 d t'.
Proof.
  intros HT E Hv Hl HF. assert (HT0 : TI (newDecisionLevel t)) by (apply TI_newlevel; auto).
  rewrite decide_push in E by (exact (TI_room _ p HT0 Hv Hl)). injection E as <-. apply F0_push; auto. intros _ H0. exfalso.
  unfold dlevel, newDecisionLevel in H0. cbn [lim] in H0. rewrite app_length in H0. cbn in H0. lia.
Qed.

Variables (C : cfg) (O : oracle).
Lemma search_cert fuel : forall s r cs s', V P Q (sv_d s) (sv_w s) (sv_t s) -> F0 (sv_d s) (sv_t s) -> DV F (sv_d s) alls -> KD (sv_d s) ->
  search C O fuel s = Ok (r, cs, s') -> DV F (sv_d s') alls /\ KD (sv_d s') /\ (r = Some false -> cs = [] -> falsified (sv_d s') []).
Proof.
  induction fuel as [|f IH]; intros s r cs s' HV HF HD HKD E; cbn [search] in E; [discriminate|].
  destruct (V_propagate P Q _ _ _ HV) as (k & d & w & t & E1 & HST & HB & Ea & Ed & En & HK & Edl & Hqh). rewrite E1 in E. cbn [bind] in E.
  destruct (SInv_propagate _ _ _ (proj1 HV)) as (k' & d' & w' & t' & E1' & HR & _). rewrite E1 in E1'. injection E1' as <- <- <- <-.
  destruct HR as (A1 & A2 & A3 & A4 & A5 & A6 & A7 & A8 & A9 & A10 & A11).
  assert (D1 : DV F d alls) by (rewrite A5; apply DV_aperm; auto).
  assert (KD1 : KD d) by (rewrite A5; apply KD_aperm; auto).
  assert (F1 : F0 d t) by (rewrite A5; apply (F0_text _ _ (sv_t s) t (qh t)); auto).
  assert (HT := pi_TI _ _ _ A1). assert (HDI := ci_D _ _ (vb_C _ _ _ HB)).
  destruct k as [c|].
  - cbn [SStateQ] in HST. assert (SB := sc_B _ _ _ _ HST). destruct (Nat.eqb_spec (dlevel t) 0) as [H0|H0].
    { injection E as <- <- <-. cbn [core sv_d]. split; auto. split; auto. intros _ _. exists c. split; [apply (sc_use _ _ _ _ HST)|]. intros H HU _ m Hm.
      assert (Hm2 := sc_false _ _ _ _ HST m Hm). apply (ti_val_false t m HT) in Hm2. apply (T0H d w t H SB F1 HU _ Hm2).
      apply In_nth_error in Hm2. destruct Hm2 as (i & Hi). exact (dlevel0_level t i _ HT H0 Hi). }
    destruct (V_learn P Q C d w t c HST HB) as (an & d0 & E2 & Hent & Hwf & HS); [lia|]. rewrite E2 in E. cbn [bind] in E.
    destruct (SConf_analysis d w t c HST (vb_D _ _ _ HB)) as (an' & E2' & LO & Hinv & Hlev & Htl & Hnil & Hy & Hlbd & HH); [lia|].
    rewrite E2 in E2'. injection E2' as <- ->.
    apply bind_ok in E. destruct E as ((c' & d2) & E3 & E). cbv zeta in HS. rewrite E3 in HS. cbn [safe] in HS.
    destruct HS as (N2 & K2 & t2 & T1 & T2 & T3 & HV2). rewrite T1 in E. cbn [bind] in E.
    set (d1 := if c_recalc C then reestimate t (an_involved an) d else d) in *.
    assert (HE : cls d1 = cls d /\ forall x, clits d1 x = clits d x).
    { unfold d1. destruct (c_recalc C); auto. destruct (reestimate_fields t (an_involved an) d) as (_ & _ & X3 & _ & _ & _ & _ & _ & X9 & _). split; auto. }
    destruct HE as (HE1 & HE2).
    assert (D2 : DV F d1 alls) by (unfold d1; destruct (c_recalc C); auto; apply DV_reestimate; auto).
    assert (HDI1 : DI (nv d) d1).
    { unfold d1. destruct (c_recalc C); auto. apply reestimate_DI; auto. intros x Hx. destruct (Hinv x Hx) as [->|(q & Q1 & Q2)].
      - destruct (sc_use _ _ _ _ HST) as (U1 & [U2|U2]); auto.
      - destruct (sb_RD _ _ _ SB q x Q1 Q2) as (U1 & [U2|U2]); auto. }
    assert (KD2 : KD d2).
    { apply (KD_create _ _ _ _ _ _ _ HDI1 E3). unfold d1. destruct (c_recalc C); auto. apply (KD_reestimate (nv d)); auto. }
    destruct D2 as (Q1 & D2).
    assert (HF1 : falsified d1 (an_learnt an)).
    { exists c. rewrite HE1, HE2. split; [apply (sc_use _ _ _ _ HST)|]. intros H HU Hn.
      assert (HU1 : UPclosed d H). { intros x q Hx Hq Hm. apply (HU x q); rewrite ?HE1, ?HE2; auto. }
      apply (HH H HU1); auto. exact (T0H d w t H SB F1 HU1). }
    assert (D3 : DVQ F d2 alls (an_learnt an :: Q1)).
    { apply (DVQ_create F (nv d) d1 (an_learnt an) (N.of_nat (an_lbd an)) c' d2 alls alls Q1); auto. exact (rup_of d1 Q1 _ (DVQ_covered _ _ _ D2) HF1). }
    assert (F2 : F0 d2 t2).
    { destruct (learnt_backtrack t an HT LO Hlev Htl) as (V1 & V2 & V3). destruct LO as (x & q & EL & Hw & _). rewrite EL in V1, T1. cbn [hd] in V1, T1.
      assert (HTb : TI (backtrack (an_level an) t)) by (apply TI_backtrack; auto).
      assert (Hx : lvar x < nvt (backtrack (an_level an) t)).
      { destruct (backtrack_fields (an_level an) t Hlev) as (_ & _ & F3 & _). rewrite F3. apply Hw. rewrite EL. cbn. auto. }
      rewrite tpropagate_push in T1; [|apply (TI_room _ x); auto|congruence]. injection T1 as <-. apply F0_push; auto; [|discriminate].
      apply (F0_cls d); [|apply F0_backtrack; auto]. assert (HKc := createClause_created _ _ _ _ _ _ E3). intros y Hy'. split.
      - destruct HKc as (_ & _ & -> & _). rewrite HE1. apply in_or_app. auto.
      - rewrite (clits_old _ _ _ _ y HKc); auto. apply (cls_lt _ _ _ HDI1). rewrite HE1. auto. }
    set (w2 := if 2 <? length (an_learnt an) then attachClause d2 c' w else w) in *.
    set (s1 := with_log (sv_conf s + 1) (sv_log s) (core d2 w2 t2 s)) in *.
    assert (HC : sv_d (ipasir_callback (an_learnt an) s1) = d2 /\ sv_w (ipasir_callback (an_learnt an) s1) = w2 /\
                 sv_t (ipasir_callback (an_learnt an) s1) = t2).
    { unfold ipasir_callback. destruct (sv_cb s1); [destruct (_ <=? _)%Z|]; auto. }
    destruct HC as (C1 & C2 & C3). apply (IH (ipasir_callback (an_learnt an) s1)); rewrite ?C1, ?C2, ?C3; auto. exists (an_learnt an :: Q1). auto.
  - cbn [SStateQ] in HST. specialize (Hqh eq_refl). destruct (o_restart O (sv_clk s)).
    { injection E as <- <- <-. split; auto. split; auto. discriminate. }
    destruct (assume_loop (S (length (assum t))) d t) as (ar, t1) eqn:EA.
    destruct (assume_loop_V P Q (S (length (assum t))) d w t ar t1 (conj HST HB) Hqh) as (V1 & Q1 & B1 & B2 & HR); [lia|exact EA|].
    assert (F2 := assume_loop_F0 d _ _ _ _ _ EA F1). assert (HT1 := V_TI _ _ _ _ _ V1). assert (HB1 := proj2 V1).
    assert (Hnext : forall p, value t1 p = None -> lvar p < nvt t1 -> (dlevel t1 < length (assum t1) -> p = nth (dlevel t1) (assum t1) 0) ->
      (t2 <- decide p (newDecisionLevel t1);; search C O f (core d w t2 (core d w t1 (tick (core d w t s))))) = Ok (r, cs, s') ->
      DV F (sv_d s') alls /\ KD (sv_d s') /\ (r = Some false -> cs = [] -> falsified (sv_d s') [])).
    { intros p Hp1 Hp2 Hp3 E4. destruct (V_decide P Q d w t1 p V1 Q1 Hp1 Hp2 Hp3) as (t2 & E5 & V2 & _). rewrite E5 in E4. cbn [bind] in E4.
      apply IH in E4; auto. exact (F0_decide d t1 p t2 HT1 E5 Hp1 Hp2 F2). }
    destruct ar as [cs'|p|].
    + injection E as <- <- <-. destruct HR as (R1 & R2 & ->). destruct (V_final P Q d w t1 V1 R1 R2) as (X0 & _). split; auto. split; auto. intros _ X. contradiction.
    + destruct HR as (R1 & R2 & R3). apply (Hnext p); auto. apply (vb_as _ _ _ HB1). subst p. apply nth_In. auto.
    + destruct (pick (o_pick O (sv_clk s)) t1) as [p|] eqn:EP.
      * destruct (pick_some _ _ _ EP) as (P1 & P2). apply (Hnext p); auto. lia.
      * injection E as <- <- <-. split; auto. split; auto. discriminate.
Qed.
End Cert.

(** ** The empty clause *)
Lemma solve_empty C O fuel s x s' : solve C O fuel s = Ok (x, s') -> r_status x = Some false -> r_conflict x = [] -> In (CAdd []) (cert (sv_d s')).
Proof.
  intros E H1 H2. unfold solve in E. apply bind_ok in E. destruct E as (s1 & E1 & E). apply bind_ok in E. destruct E as (((r & cs) & s2) & E2 & E).
  destruct r as [[|]|]; cbn [solve_finish] in E.
  - apply bind_ok in E. destruct E as (t & _ & E). injection E as <- <-. discriminate.
  - injection E as <- <-. cbn [r_conflict] in H2. subst cs. cbn. auto.
  - injection E as <- <-. discriminate.
Qed.

(** a proof that contains the empty clause shows that the problem is unsatisfiable *)
Lemma up_sound P A x l : sat x P -> (forall m, In m A -> lit_holds x m) -> up P A l -> lit_holds x l.
Proof.
  intros HP HA H. induction H as [l Hl|c l Hc Hl Hm IH]; auto. destruct (HP c Hc) as (m & M1 & M2).
  destruct (Nat.eq_dec m l) as [->|Hn]; auto. specialize (IH m M1 Hn). apply lit_holds_neg in IH. contradiction.
Qed.
Lemma rup_sound P c x : sat x P -> rup P c -> sat_clause x c.
Proof.
  intros HP (d & D1 & D2). destruct (all_false_or x c) as [H|H]; auto. exfalso. destruct (HP d D1) as (m & M1 & M2).
  apply (lit_holds_neg x m); auto. apply (up_sound P (map lneg c) x); auto. intros k Hk. apply in_map_iff in Hk. destruct Hk as (l & <- & Hl). auto.
Qed.
Lemma derivation_sound P ls Q : derivation P ls Q -> forall c, In (CAdd c) ls -> entails P c.
Proof.
  induction 1 as [P|P c ls Q H1 H2 IH|P1 c' P2 c ls Q H1 H2 IH]; intros e He; [destruct He|..].
  - intros x Hx. assert (Hc := rup_sound P c x Hx H1). destruct He as [He|He]; [injection He as <-; auto|].
    apply (IH e He). intros y [<-|Hy]; auto.
  - destruct He as [He|He]; [discriminate|]. intros x Hx. apply (IH e He). intros y Hy. apply Hx. apply in_app_or in Hy. apply in_or_app. cbn. tauto.
Qed.

Lemma derivation_unsat F ls Q : derivation F ls Q -> In (CAdd []) ls -> unsat F.
Proof. intros H Hi x Hx. destruct (derivation_sound F ls Q H [] Hi x Hx) as (l & [] & _). Qed.
Lemma strengthen_cert c l d c' d' : c < length (arena d) -> strengthenClause c l d = Ok (c', d') ->
  exists ls, (forall m, In m ls <-> In m (clits d c) /\ m <> l) /\ cert d' = CDel (clits d c) :: CAdd ls :: cert d.
Proof.
  intros HL E. unfold strengthenClause in E. apply bind_ok in E. destruct E as ((c1 & d1) & E1 & E). injection E as <- <-.
  exists (filter (fun x => negb (x =? l)) (clits d c)). split.
  - intros m. rewrite filter_In, negb_true_iff, Nat.eqb_neq. tauto.
  - unfold createClause in E1. destruct (65536 <=? _)%N; [discriminate|]. injection E1 as <- <-. cbn [removeClause cert]. f_equal. f_equal.
    unfold clits, cobj_at. cbn [arena]. rewrite app_nth1; auto.
Qed.
