(** Propagation of unit clauses on level 0. *)
Require Import List Arith Bool NArith ZArith Permutation Lia.
From Coq Require Import ZifyBool ZifyNat ZifyN.
Require Import Verif.Base Verif.CNFModel Verif.CNFProofs Verif.Outcome Verif.TrailModel Verif.TrailSpec Verif.TrailProofs Verif.TrailLemmas Verif.DbModel Verif.PropModel Verif.PropProofs Verif.DbProofs
  Verif.PropSpec Verif.PropLemmas Verif.AnalyzeModel Verif.AnalyzeProofs Verif.AnalyzeLemmas Verif.SimpModel Verif.SubsProofs Verif.SimpProofs Verif.SimpSpec Verif.SimpLemmas
  Verif.VEProofs Verif.AsymmProofs Verif.AsymmLemmas Verif.ReduceModel Verif.SolverModel Verif.SolverBase.
Import ListNotations.

(** the solver on level 0 *)
Record Z (P : assignment -> Prop) (d : db) (w : watches) (t : trail_t) : Prop := {
  z_C : CI P d;
  z_P : PInv d w t;
  z_lim : lim t = [];
  z_n : nvt t = nv d;
  z_T : TE P t;
  z_R : empt d = false -> RN t }.

(** unit clauses are added and literals permuted *)
Record mstep (t : trail_t) (d d' : db) : Prop := {
  ms_len : length (arena d) <= length (arena d');
  ms_lits : forall c, c < length (arena d) -> Permutation (clits d c) (clits d' c);
  ms_cls : forall c, In c (cls d') <-> In c (cls d) \/ length (arena d) <= c < length (arena d');
  ms_wt : forall c, c < length (arena d) -> cwt d' c = cwt d c;
  ms_nv : nv d' = nv d;
  ms_new : forall c, length (arena d) <= c < length (arena d') -> cwt d' c = 0%N /\ exists l, clits d' c = [l] /\ In l (tr t) }.
Lemma mstep_refl t d : mstep t d d.
Proof. constructor; auto; try (intros c H; lia). intros c. split; auto. intros [H|H]; auto. lia. Qed.
Lemma mstep_trans t a b c : mstep t a b -> mstep t b c -> mstep t a c.
Proof.
  intros [A1 A2 A3 A4 A5 A6] [B1 B2 B3 B4 B5 B6]. constructor; try congruence; try lia.
  - intros x Hx. eapply Permutation_trans; [apply A2; auto|apply B2; lia].
  - intros x. rewrite B3, A3. split; [intros [[H|H]|H]; auto; right; lia|intros [H|H]; auto].
    destruct (Nat.lt_ge_cases x (length (arena b))); [left; right; lia|right; lia].
  - intros x Hx. rewrite B4 by lia. apply A4; lia.
  - intros x Hx. destruct (Nat.lt_ge_cases x (length (arena b))) as [Hl|Hl]; [|apply B6; lia].
    destruct (A6 x ltac:(lia)) as (E1 & l & E2 & E3). rewrite B4 by lia. split; auto. exists l. split; auto.
    apply Permutation_length_1_inv. rewrite <- E2. apply B2. lia.
Qed.
Lemma mstep_trail t t' d d' : incl (tr t) (tr t') -> mstep t d d' -> mstep t' d d'.
Proof.
  intros H [A1 A2 A3 A4 A5 A6]. constructor; auto. intros c Hc. destruct (A6 c Hc) as (B & l & D & E). split; auto. exists l. auto.
Qed.
Lemma aperm_mstep t d a : aperm (arena d) a -> mstep t d (with_arena d a).
Proof.
  intros [H1 H2]. constructor; cbn [with_arena arena cls nv empt]; auto; try lia.
  - intros c _. apply H2.
  - intros c. split; auto. intros [H|H]; auto. lia.
  - intros c _. apply H2.
Qed.
Lemma empty_mstep t d : mstep t d (emptyClause d).
Proof. destruct (mstep_refl t d). constructor; auto. Qed.

Lemma fact_cases l t : TI t -> lvar l < nvt t -> dlevel t = 0 ->
  (value t l = None /\ fact l t = Ok (true, tpush l None t)) \/
  (value t l = Some true /\ fact l t = Ok (true, set_vd (lvar l) (None, 0) t)) \/
  (value t l = Some false /\ fact l t = Ok (false, t)).
Proof.
  intros HT Hl H0. destruct (value t l) as [[]|] eqn:E.
  - right; left. split; auto. apply fact_true; auto.
  - right; right. split; auto. apply fact_false; auto.
  - left. split; auto. apply fact_push; auto.
Qed.
Lemma PInv_empty d w t : PInv d w t -> PInv (emptyClause d) w t.
Proof. intros [A B C D E F G]. constructor; auto. Qed.

Lemma pmu_facts_spec P Q w cs : forall d t, Z P d w t -> (forall c, In c cs -> In c (facts d)) ->
  exists d1 t1, pmu_facts cs d t = Ok (d1, t1) /\ Z P d1 w t1 /\
    (d1 = d \/ (empt d1 = true /\ mstep t1 d d1)) /\ (empt d = true -> empt d1 = true) /\
    (exists new, tr t1 = tr t ++ new) /\ dec t1 = dec t /\ assum t1 = assum t /\ qh t1 = qh t /\
    (empt d1 = false -> SInvQ Q d w t -> SInvQ Q d w t1) /\
    (empt d1 = false -> forall c, In c cs -> In (hd 0 (clits d c)) (tr t1)).
Proof.
  induction cs as [|c cs IH]; intros d t HZ Hf.
  { exists d, t. cbn [pmu_facts]. split; auto. split; auto. split; auto. split; auto. split; [exists []; rewrite app_nil_r; auto|].
    split; auto. split; auto. split; auto. split; auto. intros _ c []. }
  cbn [pmu_facts]. destruct HZ as [HC HP HL HN HT HR].
  assert (HD := ci_D _ _ HC). assert (Hmf : In c (mem d ++ facts d)) by (apply in_or_app; right; apply Hf; left; auto).
  assert (H1 : length (clits d c) = 1) by (apply (di_fact _ _ HD); auto; apply Hf; left; auto).
  destruct (clits d c) as [|l [|y r]] eqn:Ec; try discriminate. cbn [hd].
  assert (Hlv : lvar l < nvt t). { rewrite HN. apply (proj2 (di_WFA _ _ HD c)). change (In l (clits d c)). rewrite Ec. left; auto. }
  assert (Hent : forall a, P a -> lit_holds a l).
  { intros a Ha. apply sat_clause_unit. rewrite <- Ec. apply (ci_A _ _ HC); auto. exact (di_rng _ _ HD _ Hmf). }
  assert (H0 : dlevel t = 0) by (unfold dlevel; rewrite HL; auto).
  destruct (fact_cases l t (pi_TI _ _ _ HP) Hlv H0) as [(Ev & Ef)|[(Ev & Ef)|(Ev & Ef)]]; rewrite Ef; cbn [bind].
  - assert (HZ' : Z P d w (tpush l None t)).
    { constructor; auto.
      - apply PInv_push_none; auto.
      - intros m a Hm Ha. cbn [tpush tr] in Hm. apply in_app_or in Hm. destruct Hm as [Hm|[<-|[]]]; [apply HT; auto|auto].
      - intros He m Hm. rewrite reason_push by (rewrite (ti_vd _ (pi_TI _ _ _ HP)); auto). destruct (lvar m =? lvar l) eqn:Em; auto.
        cbn [tpush tr] in Hm. apply in_app_or in Hm. destruct Hm as [Hm|[<-|[]]]; [apply HR; auto|lia]. }
    destruct (IH d _ HZ' (fun x Hx => Hf x (or_intror Hx))) as (d1 & t1 & E1 & E2 & E3 & E4 & (new & E5) & E6 & E7 & E8 & E9 & E10).
    exists d1, t1. split; auto. split; auto. split; auto. split; auto. split; [exists (l :: new); rewrite E5; cbn [tpush tr]; rewrite <- app_assoc; auto|].
    split; auto. split; auto. split; auto. split.
    + intros Hd HI. apply E9; auto. apply SInv_push_none; auto.
    + intros He x [<-|Hx]; [|auto]. rewrite Ec. cbn [hd]. rewrite E5. cbn [tpush tr]. apply in_or_app. left. apply in_or_app. right. left. auto.
  - assert (HTI := TI_set_vd_fact l t (pi_TI _ _ _ HP) H0 Hlv).
    assert (Hvd := fact_vd l t (pi_TI _ _ _ HP) Hlv Ev).
    destruct (PInv_fact d w t l HP H0 Hlv) as (b' & t' & F1 & F2 & F3 & F4 & _). rewrite Ef in F1. injection F1 as <- <-.
    assert (HZ' : Z P d w (set_vd (lvar l) (None, 0) t)).
    { constructor; auto. intros He m Hm. rewrite (proj1 (Hvd (lvar m))). destruct (lvar m =? lvar l); auto. apply HR; auto. }
    destruct (IH d _ HZ' (fun x Hx => Hf x (or_intror Hx))) as (d1 & t1 & E1 & E2 & E3 & E4 & (new & E5) & E6 & E7 & E8 & E9 & E10).
    exists d1, t1. split; auto. split; auto. split; auto. split; auto. split; [exists new; rewrite E5; auto|].
    split; auto. split; auto. split; auto. split.
    + intros Hd HI. apply E9; auto. exact (SInv_fact d w t l _ _ HI H0 Hlv Ef).
    + intros He x [<-|Hx]; [|auto]. rewrite Ec. cbn [hd]. rewrite E5. apply in_or_app. left. apply (ti_val _ (pi_TI _ _ _ HP)) in Ev. auto.
  - assert (HU : forall a, ~ P a).
    { intros a Ha. apply (ti_val_false _ _ (pi_TI _ _ _ HP)) in Ev. apply (HT _ a) in Ev; auto. apply lit_holds_neg in Ev. apply Ev. auto. }
    assert (HZ' : Z P (emptyClause d) w t).
    { constructor; auto; [apply CI_empty; auto|apply PInv_empty; auto|discriminate]. }
    destruct (IH (emptyClause d) t HZ' (fun x Hx => Hf x (or_intror Hx))) as (d1 & t1 & E1 & E2 & E3 & E4 & (new & E5) & E6 & E7 & E8 & E9 & E10).
    assert (He : empt d1 = true) by (apply E4; auto).
    exists d1, t1. split; auto. split; auto. split; [right; split; auto; eapply mstep_trans; [apply empty_mstep|destruct E3 as [->|(_ & E3)]; auto; apply mstep_refl]|].
    split; auto. split; [exists new; auto|]. split; auto. split; auto. split; auto. split; rewrite He; discriminate.
Qed.

Lemma TE_text P (d' : db) w t t' : AE P d' -> PInv d' w t' -> TE P t -> text (with_qh (qh t') t) t' -> TE P t'.
Proof.
  intros HA HP HT HX l a Hl Ha. destruct (tx_tr _ _ HX) as (new & E & En). cbn [with_qh tr] in E.
  apply In_nth_error in Hl. destruct Hl as (i & Hi).
  apply (trail_entailed a d' t' (length (tr t)) (pi_TI _ _ _ HP) (pi_TRe _ _ _ HP)) with (i := i); auto.
  - intros j m Hj Hge. rewrite E in Hj. rewrite nth_error_app2 in Hj by auto. apply nth_error_In in Hj. assert (Hr := En m Hj).
    destruct (reason t' (lvar m)) as [c|] eqn:Er; [|contradiction]. exists c. split; auto. apply HA; auto.
    assert (Hm : In m (tr t')) by (rewrite E; apply in_or_app; auto). apply In_nth_error in Hm. destruct Hm as (k & Hk).
    destruct (pi_TRe _ _ _ HP k m c Hk Er) as (H1 & _). exact (alits_lt _ _ _ H1).
  - intros j m Hj Hlt. rewrite E in Hj. rewrite nth_error_app1 in Hj by auto. apply (HT m a); auto. exact (nth_error_In _ _ Hj).
Qed.

Lemma created_mstep t d l lbd lem c d' : createClause [l] lbd lem d = Ok (c, d') -> In l (tr t) -> mstep t d d'.
Proof.
  intros HC Hl. assert (HK := createClause_created _ _ _ _ _ _ HC). assert (HS := created_dstep _ _ _ _ HK ltac:(discriminate)).
  assert (Hc : c = length (arena d)) by apply HK.
  assert (Hlen : length (arena d') = S (length (arena d))).
  { destruct HK as (_ & _ & _ & (w & E) & _). rewrite E, app_length. cbn. lia. }
  constructor.
  - apply HS.
  - intros x Hx. rewrite (ds_lits _ _ HS); auto.
  - apply HS.
  - intros x Hx. exact (cwt_old _ _ _ _ _ HK Hx).
  - apply HS.
  - intros x Hx. assert (x = c) as -> by lia. split; [|exists l; split; auto; exact (clits_new _ _ _ _ HK)].
    rewrite cwt_awt, (createClause_wt _ _ _ _ _ _ HC), Hc, awt_new. reflexivity.
Qed.

Lemma pmu_units_spec P Q w ls : forall d t, CI P d -> PInv d w t -> lim t = [] -> nvt t = nv d -> TE P t -> incl ls (tr t) ->
  exists d' t', pmu_units ls d t = Ok (d', t') /\ CI P d' /\ PInv d' w t' /\ lim t' = [] /\ nvt t' = nv d' /\
    tr t' = tr t /\ dec t' = dec t /\ assum t' = assum t /\ qh t' = qh t /\ mstep t d d' /\ empt d' = empt d /\
    (forall l, In l ls -> reason t' (lvar l) = None) /\ (forall v, reason t v = None -> reason t' v = None) /\
    (SInvQ Q d w t -> SInvQ Q d' w t').
Proof.
  induction ls as [|l ls IH]; intros d t HC HP HL HN HT HI.
  { exists d, t. cbn [pmu_units]. split; auto. split; auto. split; auto. split; auto. split; auto. split; auto. split; auto. split; auto. split; auto.
    split; [apply mstep_refl|]. split; auto. split; [intros l []|]. split; auto. }
  cbn [pmu_units]. destruct (createClause_ok [l] 0 false d ltac:(cbn; lia)) as (d1 & HK). rewrite HK. cbn [bind].
  assert (Hl : In l (tr t)) by (apply HI; left; auto). assert (Hlv := ti_range _ (pi_TI _ _ _ HP) _ Hl).
  assert (Hw : wfc (nv d) [l]).
  { split; [repeat constructor; intros []|]. intros m [<-|[]]. rewrite <- HN. auto. }
  destruct (CI_create P d [l] 0 false (length (arena d)) d1 HC Hw) as (HC1 & HCr); auto.
  { intros a Ha. apply sat_clause_unit. apply (HT l a); auto. }
  assert (Hn1 : nv d1 = nv d) by apply HCr.
  assert (HP1 : PInv d1 w t).
  { apply (PInv_dstep d); auto; [rewrite HN, <- Hn1; apply HC1|]. apply (created_dstep _ _ _ _ HCr). discriminate. }
  assert (H0 : dlevel t = 0) by (unfold dlevel; rewrite HL; auto).
  assert (Ev : value t l = Some true) by (apply (ti_val _ (pi_TI _ _ _ HP)); auto).
  assert (Ef := fact_true l t Ev). rewrite Ef. cbn [bind].
  assert (Hvd := fact_vd l t (pi_TI _ _ _ HP) Hlv Ev).
  destruct (PInv_fact d1 w t l HP1 H0 Hlv) as (b' & t' & F1 & F2 & F3 & F4 & _). rewrite Ef in F1. injection F1 as <- <-.
  destruct (IH d1 (set_vd (lvar l) (None, 0) t) HC1 F2 HL) as (d' & t' & E1 & E2 & E3 & E4 & E5 & E6 & E7 & E8 & E9 & E10 & E11 & E12 & E13 & E14).
  { cbn [set_vd nvt]. congruence. } { exact HT. } { intros m Hm. apply HI. right; auto. }
  exists d', t'. split; auto. split; auto. split; auto. split; auto. split; auto. split; auto. split; auto. split; auto. split; auto.
  split; [eapply mstep_trans; [exact (created_mstep t _ _ _ _ _ _ HK Hl)|exact (mstep_trail (set_vd (lvar l) (None, 0) t) t _ _ (incl_refl (tr t)) E10)]|].
  split; [rewrite E11; apply (created_dstep _ _ _ _ HCr); discriminate|].
  split. { intros m [<-|Hm]; auto. apply E13. rewrite (proj1 (Hvd (lvar l))), Nat.eqb_refl. auto. }
  split. { intros v Hv. apply E13. rewrite (proj1 (Hvd v)). destruct (v =? lvar l); auto. }
  intros HS. apply E14. apply (SInv_fact d1 w t l true _); auto. exact (SInv_unit d w t l _ _ _ _ HS Hlv HK).
Qed.

(** all live unit clauses are on the trail *)
Definition UT (d : db) (t : trail_t) : Prop := forall c l, LV d c -> clits d c = [l] -> In l (tr t).

Record ppost (P : assignment -> Prop) (Q : Prop) (d : db) (w : watches) (t : trail_t) (d' : db) (w' : watches) (t' : trail_t) : Prop := {
  pp_Z : Z P d' w' t';
  pp_step : mstep t' d d';
  pp_empt : empt d = true -> empt d' = true;
  pp_tr : exists new, tr t' = tr t ++ new;
  pp_dec : dec t' = dec t;
  pp_assum : assum t' = assum t;
  pp_UT : empt d' = false -> UT d' t';
  pp_S : empt d' = false -> SInvQ Q d w t -> SInvQ Q d' w' t' }.

Lemma SInvQ_aperm (Q : Prop) d w t k d' w' t' : SInvQ Q d w t -> prop_result d w t k d' w' t' -> propagate d w t = Ok (k, d', w', t') -> k = None -> SInvQ Q d' w' t'.
Proof.
  intros HS HR HE ->. destruct (SInv_propagate d w t HS) as (k & d1 & w1 & t1 & E1 & _ & E2). rewrite HE in E1. injection E1 as <- <- <- <-. exact E2.
Qed.

Lemma pmu_spec P Q d w t : Z P d w t -> exists d' w' t', pmu d w t = Ok (d', w', t') /\ ppost P Q d w t d' w' t'.
Proof.
  intros HZ. unfold pmu.
  destruct (pmu_facts_spec P Q w (getUnitClauses d) d t HZ) as (d1 & t1 & E1 & E2 & E3 & E4 & (new & E5) & E6 & E7 & E8 & E9 & E10).
  { intros c Hc. apply getUnit_in in Hc. apply Hc. }
  rewrite E1. cbn [bind]. destruct (empt d1) eqn:Ee.
  { exists d1, w, t1. split; auto. constructor; auto; try (intros E; congruence). destruct E3 as [->|(_ & E3)]; [apply mstep_refl|exact E3]. exists new; auto. }
  destruct E3 as [->|(E3 & _)]; [|congruence].
  destruct E2 as [HC HP HL HN HT HR].
  destruct (propagate_spec d w t1 HP) as (k & d2 & w2 & t2 & F1 & F2). rewrite F1. cbn [bind].
  assert (F2' := F2). destruct F2 as (G1 & G2 & G3 & G4 & G5 & G6 & G7 & G8 & G9 & G10 & G11).
  assert (HC2 : CI P d2) by (rewrite G5; apply CI_aperm; auto).
  assert (Hn2 : nv d2 = nv d) by (rewrite G5; reflexivity).
  assert (He2 : empt d2 = empt d) by (rewrite G5; reflexivity).
  assert (HT2 : TE P t2) by (apply (TE_text P d2 w2 t1); auto; apply HC2).
  assert (Hms : forall T, mstep T d d2) by (intros T; rewrite G5; apply aperm_mstep; auto).
  assert (Hl2 : lim t2 = []) by (rewrite (tx_lim _ _ G2); exact HL).
  assert (Hv2 : nvt t2 = nv d2) by (rewrite (tx_nvt _ _ G2); cbn; congruence).
  destruct (tx_tr _ _ G2) as (nw & T1 & T2). cbn [with_qh tr] in T1.
  destruct k as [c|].
  - exists (emptyClause d2), w2, t2. split; auto.
    assert (HU : forall a, ~ P a).
    { intros a Ha. apply (conflict_refutes P d w t1 c d2 w2 t2 a); auto; [exact (AE_LE _ _ _ _ (ci_A _ _ HC) HP)|..]; intros l Hl; apply (HT l a); auto. }
    constructor; try discriminate; auto.
    + constructor; auto; [apply CI_empty; auto|apply PInv_empty; auto|discriminate].
    + eapply mstep_trans; [apply Hms|apply empty_mstep].
    + exists (new ++ nw). rewrite T1, E5, app_assoc. auto.
    + rewrite (tx_dec _ _ G2). exact E6.
    + rewrite (tx_assum _ _ G2). exact E7.
  - destruct (pmu_units_spec P Q w2 (skipn (length (tr t1)) (tr t2)) d2 t2 HC2 G1 Hl2 Hv2 HT2) as
      (d3 & t3 & K1 & K2 & K3 & K4 & K5 & K6 & K7 & K8 & K9 & K10 & K11 & K12 & K13 & K14).
    { rewrite T1, skipn_app, skipn_all, Nat.sub_diag. cbn [skipn app]. intros l Hl. apply in_or_app; auto. }
    rewrite K1. cbn [bind]. exists d3, w2, t3. split; auto.
    assert (Hm3 : mstep t3 d d3).
    { eapply mstep_trans; [apply Hms|]. apply (mstep_trail t2); auto. rewrite K6. apply incl_refl. }
    constructor; auto.
    + constructor; auto.
      * intros l a Hl Ha. rewrite K6 in Hl. apply HT2; auto.
      * intros _ l Hl. rewrite K6, T1 in Hl. apply in_app_or in Hl. destruct Hl as [Hl|Hl].
        -- apply K13. rewrite (proj2 (tx_vd _ _ G2 l Hl)). cbn. apply HR; auto.
        -- apply K12. rewrite T1, skipn_app, skipn_all, Nat.sub_diag. auto.
    + rewrite K11, He2. intros E; congruence.
    + exists (new ++ nw). rewrite K6, T1, E5, app_assoc. auto.
    + rewrite K7, (tx_dec _ _ G2). exact E6.
    + rewrite K8, (tx_assum _ _ G2). exact E7.
    + intros _ c l (Hc1 & Hc2) Hc3. apply (ms_cls _ _ _ Hm3) in Hc1. destruct Hc1 as [Hc1|Hc1].
      * assert (Hlt := cls_lt _ _ _ (ci_D _ _ HC) Hc1).
        assert (Hp := ms_lits _ _ _ Hm3 c Hlt). rewrite Hc3 in Hp. apply Permutation_sym, Permutation_length_1_inv in Hp.
        assert (Hi : In c (getUnitClauses d)).
        { apply getUnit_in. split; [apply (di_fact _ _ (ci_D _ _ HC)); [apply (di_cls _ _ (ci_D _ _ HC)); auto|rewrite Hp; auto]|].
          unfold isDeleted in *. rewrite (ms_wt _ _ _ Hm3) in Hc2; auto. }
        specialize (E10 eq_refl c Hi). rewrite Hp in E10. cbn [hd] in E10. rewrite K6, T1. apply in_or_app; auto.
      * destruct (ms_new _ _ _ Hm3 c Hc1) as (_ & l' & X1 & X2). rewrite X1 in Hc3. injection Hc3 as ->. auto.
    + intros _ HS. apply K14. apply (SInvQ_aperm Q d w t1 None _ _ _ (E9 eq_refl HS) F2' F1 eq_refl).
Qed.
