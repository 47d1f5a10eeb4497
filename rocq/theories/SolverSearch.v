(** The search loop of the solver. *)
Require Import List Arith Bool NArith ZArith Permutation Lia.
From Coq Require Import ZifyBool ZifyNat ZifyN.
Require Import Verif.Base Verif.CNFModel Verif.CNFProofs Verif.Outcome Verif.TrailModel Verif.TrailSpec Verif.TrailProofs Verif.TrailLemmas Verif.DbModel Verif.PropModel Verif.PropProofs Verif.DbProofs
  Verif.PropSpec Verif.PropLemmas Verif.AnalyzeModel Verif.AnalyzeProofs Verif.AnalyzeLemmas Verif.SimpModel Verif.SubsProofs Verif.SimpProofs Verif.SimpSpec Verif.SimpLemmas
  Verif.VEProofs Verif.AsymmProofs Verif.AsymmLemmas Verif.ReduceModel Verif.SolverModel Verif.SolverBase Verif.SolverUnits.
Import ListNotations.

(** The search loop of the solver. *)

(** ** Facts about the trail *)
Definition T0 (P : assignment -> Prop) (t : trail_t) : Prop := forall l a, In l (tr t) -> level t (lvar l) = 0 -> P a -> lit_holds a l.
Record AS (t : trail_t) : Prop := {
  as_dec : forall l, In l (tr t) -> reason t (lvar l) = None -> 0 < level t (lvar l) <= length (assum t) -> In l (assum t);
  as_set : forall k, k < dlevel t -> k < length (assum t) -> In (nth k (assum t) 0) (tr t) /\ level t (lvar (nth k (assum t) 0)) <= S k }.
Definition UT0 (d : db) (t : trail_t) : Prop := forall c l, LV d c -> clits d c = [l] -> In l (tr t) /\ level t (lvar l) = 0.

Lemma level_new t i l : TI t -> nth_error (tr t) i = Some l -> (forall k, In k (lim t) -> k <= i) -> level t (lvar l) = dlevel t.
Proof. intros HT Hi Hk. rewrite (ti_lev _ HT i l Hi). apply lev_at_all. auto. Qed.
Lemma in_text t t' q l : text (with_qh q t) t' -> In l (tr t') -> In l (tr t) \/ exists i, nth_error (tr t') i = Some l /\ length (tr t) <= i /\ reason t' (lvar l) <> None.
Proof.
  intros HX Hl. destruct (tx_tr _ _ HX) as (new & E & En). cbn [with_qh tr] in E. apply In_nth_error in Hl. destruct Hl as (i & Hi).
  destruct (Nat.lt_ge_cases i (length (tr t))) as [Hlt|Hge].
  - left. rewrite E, nth_error_app1 in Hi by auto. exact (nth_error_In _ _ Hi).
  - right. exists i. split; auto. split; auto. rewrite E, nth_error_app2 in Hi by auto. apply En. exact (nth_error_In _ _ Hi).
Qed.
Lemma text_in t t' q l : text (with_qh q t) t' -> In l (tr t) -> In l (tr t') /\ level t' (lvar l) = level t (lvar l) /\ reason t' (lvar l) = reason t (lvar l).
Proof.
  intros HX Hl. destruct (tx_tr _ _ HX) as (new & E & En). cbn [with_qh tr] in E. split; [rewrite E; apply in_or_app; auto|].
  exact (tx_vd _ _ HX l Hl).
Qed.
Lemma text_level t t' q i l : TI t -> TI t' -> text (with_qh q t) t' -> nth_error (tr t') i = Some l -> length (tr t) <= i -> level t' (lvar l) = dlevel t.
Proof.
  intros HT HT' HX Hi Hge. rewrite (level_new t' i l HT' Hi); [unfold dlevel; rewrite (tx_lim _ _ HX); reflexivity|].
  rewrite (tx_lim _ _ HX). intros k Hk. apply (ti_bound _ HT) in Hk. lia.
Qed.
Lemma DecI_text t t' q : TI t' -> text (with_qh q t) t' -> DecI t -> DecI t'.
Proof.
  intros HT' HX HD i l Hi Hr. destruct (tx_tr _ _ HX) as (new & E & En). cbn [with_qh tr] in E.
  destruct (Nat.lt_ge_cases i (length (tr t))) as [Hlt|Hge].
  - rewrite E, nth_error_app1 in Hi by auto. destruct (tx_vd _ _ HX l (nth_error_In _ _ Hi)) as (V1 & V2).
    rewrite V1. rewrite V2 in Hr. rewrite (tx_lim _ _ HX). exact (HD i l Hi Hr).
  - rewrite E, nth_error_app2 in Hi by auto. destruct (En l (nth_error_In _ _ Hi) Hr).
Qed.
Lemma AS_text t t' q : TI t -> TI t' -> text (with_qh q t) t' -> AS t -> AS t'.
Proof.
  intros HT HT' HX [A1 A2]. assert (EA : assum t' = assum t) by exact (tx_assum _ _ HX).
  constructor; rewrite EA.
  - intros l Hl Hr Hlev. destruct (in_text _ _ _ _ HX Hl) as [Hi|(i & Hi & Hge & Hn)]; [|contradiction].
    destruct (text_in _ _ _ _ HX Hi) as (_ & B1 & B2). rewrite B1 in Hlev. rewrite B2 in Hr. auto.
  - unfold dlevel. rewrite (tx_lim _ _ HX). intros k Hk Hk2. destruct (A2 k Hk Hk2) as (B1 & B2).
    destruct (text_in _ _ _ _ HX B1) as (C1 & C2 & _). split; auto. rewrite C2. auto.
Qed.
Lemma T0_text P d' w t t' : AE P d' -> PInv d' w t' -> TI t -> text (with_qh (qh t') t) t' -> T0 P t -> T0 P t'.
Proof.
  intros HA HP HT HX H0 l a Hl Hlev Ha. assert (HT' := pi_TI _ _ _ HP).
  destruct (in_text _ _ _ _ HX Hl) as [Hi|(i & Hi & Hge & Hn)].
  { destruct (text_in _ _ _ _ HX Hi) as (_ & B1 & B2). apply H0; auto. congruence. }
  rewrite (text_level _ _ _ _ _ HT HT' HX Hi Hge) in Hlev.
  apply (TE_text P d' w t t' HA HP); auto. intros m b Hm Hb. apply H0; auto.
  apply In_nth_error in Hm. destruct Hm as (j & Hj). exact (dlevel0_level t j m HT Hlev Hj).
Qed.
Lemma UT0_text d a t t' q : aperm (arena d) a -> text (with_qh q t) t' -> UT0 d t -> UT0 (with_arena d a) t'.
Proof.
  intros HA HX HU c l (L1 & L2) Hc. destruct (HU c l) as (B1 & B2).
  - apply (ap_LV d a HA). split; auto.
  - apply Permutation_length_1_inv. rewrite <- Hc. apply Permutation_sym. apply HA.
  - destruct (text_in _ _ _ _ HX B1) as (C1 & C2 & _). split; auto. congruence.
Qed.

Lemma backtrack_in t n l : TI t -> n < dlevel t -> In l (tr (backtrack n t)) ->
  In l (tr t) /\ reason (backtrack n t) (lvar l) = reason t (lvar l) /\ level (backtrack n t) (lvar l) = level t (lvar l).
Proof.
  intros HT Hn Hl. destruct (backtrack_vd n t l HT Hn Hl) as (A & B). split; auto.
  destruct (backtrack_fields n t Hn) as (E & _). rewrite E in Hl. apply in_firstn_iff in Hl; destruct Hl as (i & _ & Hl); exact (nth_error_In _ _ Hl).
Qed.
Lemma backtrack_stays t n l : TI t -> n < dlevel t -> In l (tr t) -> level t (lvar l) <= n ->
  In l (tr (backtrack n t)) /\ level (backtrack n t) (lvar l) = level t (lvar l).
Proof.
  intros HT Hn Hl Hlev. assert (H : In l (tr (backtrack n t))).
  { apply (ti_val _ (TI_backtrack n t HT)). apply backtrack_keep; auto. apply (ti_val _ HT). auto. }
  split; auto. apply backtrack_vd; auto.
Qed.
Lemma DecI_backtrack t n : TI t -> n < dlevel t -> DecI t -> DecI (backtrack n t).
Proof.
  intros HT Hn HD i l Hi Hr. assert (Hl := nth_error_In _ _ Hi). destruct (backtrack_in t n l HT Hn Hl) as (A & B & C).
  destruct (backtrack_fields n t Hn) as (E1 & E2 & _). rewrite C. rewrite B in Hr. rewrite E1 in Hi. apply nth_error_firstn_iff in Hi. destruct Hi as (Hlt & Hi).
  destruct (HD i l Hi Hr) as [H|(k & Hk)]; auto. right. exists k. rewrite E2. apply nth_error_firstn_iff. split; auto.
  destruct (Nat.lt_ge_cases k n) as [H|H]; auto. exfalso.
  assert (Hk' : k < length (lim t)) by (apply nth_error_Some; congruence).
  assert (HS := ti_sorted _ HT n k H Hk'). rewrite (nth_error_nth _ _ 0 Hk) in HS. lia.
Qed.
Lemma T0_backtrack P t n : TI t -> n < dlevel t -> T0 P t -> T0 P (backtrack n t).
Proof. intros HT Hn H l a Hl Hlev Ha. destruct (backtrack_in t n l HT Hn Hl) as (A & B & C). apply H; auto. congruence. Qed.
Lemma AS_backtrack t n : TI t -> n < dlevel t -> AS t -> AS (backtrack n t).
Proof.
  intros HT Hn [A1 A2]. destruct (backtrack_fields n t Hn) as (E1 & E2 & _ & _ & _ & EA & _). constructor; rewrite EA.
  - intros l Hl Hr Hlev. destruct (backtrack_in t n l HT Hn Hl) as (A & B & C). rewrite C in Hlev. rewrite B in Hr. auto.
  - unfold dlevel. rewrite E2, firstn_length. intros k Hk Hk2. unfold dlevel in *. destruct (A2 k) as (B1 & B2); [lia|auto|].
    destruct (backtrack_stays t n _ HT Hn B1) as (C1 & C2); [lia|]. split; auto. rewrite C2. auto.
Qed.
Lemma UT0_backtrack d t n : TI t -> n < dlevel t -> UT0 d t -> UT0 d (backtrack n t).
Proof.
  intros HT Hn H c l Hc Hcl. destruct (H c l Hc Hcl) as (A & B). destruct (backtrack_stays t n l HT Hn A) as (C1 & C2); [lia|].
  split; auto. congruence.
Qed.
Lemma push_in t l r m : TI t -> value t l = None -> lvar l < nvt t -> In m (tr (tpush l r t)) ->
  (m = l /\ level (tpush l r t) (lvar m) = dlevel t /\ reason (tpush l r t) (lvar m) = r) \/
  (In m (tr t) /\ level (tpush l r t) (lvar m) = level t (lvar m) /\ reason (tpush l r t) (lvar m) = reason t (lvar m)).
Proof.
  intros HT Hv Hl Hm. assert (Hvd : lvar l < length (vd t)) by (rewrite (ti_vd _ HT); auto).
  rewrite (level_push l r t (lvar m) Hvd), (reason_push l r t (lvar m) Hvd). cbn [tpush tr] in Hm. apply in_app_or in Hm.
  destruct Hm as [Hm|[<-|[]]].
  - right. split; auto. assert (E : lvar m =? lvar l = false); [|rewrite E; auto]. apply Nat.eqb_neq. intros E.
    apply (value_none_notin t l HT Hv). rewrite <- E. apply in_map. auto.
  - left. rewrite Nat.eqb_refl. auto.
Qed.
Lemma in_push t l r m : TI t -> value t l = None -> lvar l < nvt t -> In m (tr t) ->
  In m (tr (tpush l r t)) /\ level (tpush l r t) (lvar m) = level t (lvar m).
Proof.
  intros HT Hv Hl Hm. assert (H : In m (tr (tpush l r t))) by (cbn [tpush tr]; apply in_or_app; auto). split; auto.
  destruct (push_in t l r m HT Hv Hl H) as [(-> & _)|(_ & A & _)]; auto.
  destruct (value_none_notin t l HT Hv). apply in_map. auto.
Qed.
Lemma in_push_self t l r : TI t -> lvar l < nvt t -> In l (tr (tpush l r t)) /\ level (tpush l r t) (lvar l) = dlevel t.
Proof.
  intros HT Hl. split; [cbn [tpush tr]; apply in_or_app; cbn; auto|]. rewrite level_push by (rewrite (ti_vd _ HT); auto).
  rewrite Nat.eqb_refl. auto.
Qed.
Lemma T0_push (P : assignment -> Prop) t l r : TI t -> value t l = None -> lvar l < nvt t -> (dlevel t = 0 -> forall a, P a -> lit_holds a l) -> T0 P t -> T0 P (tpush l r t).
Proof.
  intros HT Hv Hl H H0 m a Hm Hlev Ha. destruct (push_in t l r m HT Hv Hl Hm) as [(-> & A & _)|(A & B & _)].
  - apply H; auto. congruence.
  - apply H0; auto. congruence.
Qed.
Lemma UT0_push d t l r : TI t -> value t l = None -> lvar l < nvt t -> UT0 d t -> UT0 d (tpush l r t).
Proof.
  intros HT Hv Hl H c m Hc Hm. destruct (H c m Hc Hm) as (A & B). destruct (in_push t l r m HT Hv Hl A) as (C1 & C2). split; auto. congruence.
Qed.
Lemma AS_push t l r : TI t -> value t l = None -> lvar l < nvt t -> (r = None -> 0 < dlevel t <= length (assum t) -> In l (assum t)) ->
  AS t -> AS (tpush l r t).
Proof.
  intros HT Hv Hl H [A1 A2]. constructor; cbn [tpush assum].
  - intros m Hm Hr Hlev. destruct (push_in t l r m HT Hv Hl Hm) as [(-> & B1 & B2)|(B0 & B1 & B2)].
    + apply H; [congruence|]. rewrite <- B1. auto.
    + apply A1; auto; [congruence|]. rewrite <- B1. auto.
  - intros k Hk Hk2. destruct (A2 k Hk Hk2) as (B1 & B2). destruct (in_push t l r _ HT Hv Hl B1) as (C1 & C2). split; auto. rewrite C2. auto.
Qed.
Lemma AS_level t : TI t -> AS t -> (dlevel t < length (assum t) -> value t (nth (dlevel t) (assum t) 0) = Some true) -> AS (newDecisionLevel t).
Proof.
  intros HT [A1 A2] H. constructor; [exact A1|]. unfold newDecisionLevel, dlevel. cbn [lim assum tr]. rewrite app_length. cbn [length].
  change (level (newDecisionLevel t)) with (level t). intros k Hk Hk2. destruct (Nat.eq_dec k (dlevel t)) as [->|Hne].
  - assert (Hi : In (nth (dlevel t) (assum t) 0) (tr t)) by (apply (ti_val _ HT); auto). split; auto.
    apply In_nth_error in Hi. destruct Hi as (i & Hi). change (level t (lvar (nth (dlevel t) (assum t) 0)) <= S (dlevel t)).
    rewrite (ti_lev _ HT _ _ Hi). unfold lev_at. assert (X := filter_length_le' (fun k => k <=? i) (lim t)). unfold dlevel. lia.
  - apply A2; auto. unfold dlevel in *. lia.
Qed.
Lemma AS_decide t p : TI t -> AS t -> value t p = None -> lvar p < nvt t ->
  (dlevel t < length (assum t) -> p = nth (dlevel t) (assum t) 0) -> AS (tpush p None (newDecisionLevel t)).
Proof.
  intros HT [A1 A2] Hv Hl Hp. set (t0 := newDecisionLevel t). assert (HT0 : TI t0) by (apply TI_newlevel; auto).
  assert (Hv0 : value t0 p = None) by exact Hv. assert (Hl0 : lvar p < nvt t0) by exact Hl.
  assert (Hd0 : dlevel t0 = S (dlevel t)) by (unfold dlevel, t0, newDecisionLevel; cbn [lim]; rewrite app_length; cbn; lia).
  constructor; cbn [tpush assum]; change (assum t0) with (assum t).
  - intros m Hm Hr Hlev. destruct (push_in t0 p None m HT0 Hv0 Hl0 Hm) as [(-> & B1 & B2)|(B0 & B1 & B2)].
    + rewrite B1, Hd0 in Hlev. rewrite Hp by lia. apply nth_In. lia.
    + apply A1; auto; [rewrite B2 in Hr; exact Hr|]. rewrite B1 in Hlev. exact Hlev.
  - change (dlevel (tpush p None t0)) with (dlevel t0). rewrite Hd0. intros k Hk Hk2. destruct (Nat.eq_dec k (dlevel t)) as [->|Hne].
    + rewrite <- Hp by auto. destruct (in_push_self t0 p None HT0 Hl0) as (C1 & C2). split; auto. lia.
    + destruct (A2 k) as (B1 & B2); [lia|auto|]. destruct (in_push t0 p None _ HT0 Hv0 Hl0 B1) as (C1 & C2). split; auto. rewrite C2. exact B2.
Qed.

(** ** Problem clauses are kept, possibly strengthened *)
Definition K0 (d d' : db) : Prop := forall c, In c (cls d) -> cwt d c = 0%N ->
  exists c', In c' (cls d') /\ cwt d' c' = 0%N /\ incl (clits d' c') (clits d c).
Lemma K0_refl d : K0 d d.
Proof. intros c A B. exists c. split; auto. split; auto. apply incl_refl. Qed.
Lemma K0_trans d1 d2 d3 : K0 d1 d2 -> K0 d2 d3 -> K0 d1 d3.
Proof.
  intros A B c H1 H2. destruct (A c H1 H2) as (c1 & X1 & X2 & X3). destruct (B c1 X1 X2) as (c2 & Y1 & Y2 & Y3).
  exists c2. split; auto. split; auto. exact (incl_tran Y3 X3).
Qed.
Lemma K0_aperm d a : aperm (arena d) a -> K0 d (with_arena d a).
Proof.
  intros HA c H1 H2. exists c. split; auto. split.
  - rewrite <- H2. exact (ap_wt d a HA c).
  - intros l Hl. apply (ap_in d a HA) in Hl. exact Hl.
Qed.
Lemma K0_create n d ls lbd lem c d' : DI n d -> createClause ls lbd lem d = Ok (c, d') -> K0 d d'.
Proof.
  intros HD HC x H1 H2. assert (HK := createClause_created _ _ _ _ _ _ HC). assert (Hlt := cls_lt _ _ _ HD H1).
  exists x. split; [destruct HK as (_ & _ & -> & _); apply in_or_app; auto|]. split.
  - rewrite <- H2. exact (cwt_old _ _ _ _ x HK Hlt).
  - rewrite (clits_old _ _ _ _ x HK Hlt). apply incl_refl.
Qed.
Lemma K0_reestimate t cs d : K0 d (reestimate t cs d).
Proof.
  intros c H1 H2. destruct (reestimate_fields t cs d) as (A1 & A2 & A3 & A4 & A5 & A6 & A7 & A8 & A9 & A10).
  exists c. split; [rewrite A3; auto|]. split; auto. intros l Hl. change (In l (alits (arena (reestimate t cs d)) c)) in Hl. rewrite A9 in Hl. exact Hl.
Qed.
Lemma K0_Cover d d' : Cover d d' -> K0 d d'.
Proof.
  intros H c H1 H2. destruct (H c) as (c' & (B1 & B2) & B3 & B4).
  - split; auto. unfold isDeleted. rewrite H2. reflexivity.
  - exists c'. auto.
Qed.
Lemma K0_mstep n t d d' : DI n d -> mstep t d d' -> K0 d d'.
Proof.
  intros HD HM c H1 H2. assert (Hlt := cls_lt _ _ _ HD H1). exists c. split; [apply (ms_cls _ _ _ HM); auto|]. split.
  - rewrite (ms_wt _ _ _ HM); auto.
  - intros l Hl. exact (Permutation_in _ (Permutation_sym (ms_lits _ _ _ HM c Hlt)) Hl).
Qed.
Lemma K0_reorganize n d : DI n d -> K0 d (reorganize d).
Proof.
  intros HD c H1 H2. destruct (reorganize_fields d) as (A & B & D & E). exists c. split; [|split].
  - apply reorganize_cls. split; [apply (di_cls _ _ HD); auto|]. unfold isDeleted. rewrite H2. reflexivity.
  - rewrite <- H2. unfold cwt, cobj_at. rewrite A. reflexivity.
  - unfold clits, cobj_at. rewrite A. apply incl_refl.
Qed.
Lemma reestimate_other t cs c : forall d, ~ In c cs -> cwt (reestimate t cs d) c = cwt d c.
Proof.
  induction cs as [|x r IH]; intros d Hn; cbn [reestimate]; auto. cbn [In] in Hn.
  destruct (isLearnt d x); [|apply IH; tauto]. rewrite IH by tauto.
  rewrite !cwt_awt. cbn [arena with_arena]. rewrite awt_set_wt. destruct (Nat.eqb_spec c x) as [E|E]; [subst; tauto|reflexivity].
Qed.
Lemma UT0_reestimate d t cs t0 : (forall c, In c cs -> usable d c) -> UT0 d t -> UT0 (reestimate t0 cs d) t.
Proof.
  intros HU H c l (L1 & L2) Hc. destruct (reestimate_fields t0 cs d) as (A1 & A2 & A3 & A4 & A5 & A6 & A7 & A8 & A9 & A10).
  change (alits (arena (reestimate t0 cs d)) c = [l]) in Hc. rewrite A9 in Hc. rewrite A3 in L1. apply (H c l); auto. split; auto.
  destruct (in_dec Nat.eq_dec c cs) as [Hi|Hi].
  - destruct (HU c Hi) as (_ & [X|X]); [|unfold isDeleted; rewrite X; reflexivity].
    change (clits d c) with (alits (arena d) c) in X. rewrite Hc in X. cbn in X. lia.
  - unfold isDeleted in *. rewrite (reestimate_other t0 cs c d Hi) in L2. auto.
Qed.

Lemma WS_SBase d w t : SBase d w t -> nvt t = nv d -> WS (nv d) d w.
Proof.
  intros [H1 H2 H3 H4 H5] E. rewrite <- E. constructor; auto; apply H1.
Qed.
Lemma createClause_err ls lbd lem d er : createClause ls lbd lem d = Err er -> er = TooLong.
Proof. unfold createClause. destruct (_ <=? _)%N; [|discriminate]. congruence. Qed.

Section Search.
Variables (P : assignment -> Prop) (Q : Prop) (C : cfg) (O : oracle).

Record VB (d : db) (t : trail_t) : Prop := {
  vb_C : CI P d;
  vb_e : empt d = false;
  vb_n : nvt t = nv d;
  vb_D : DecI t;
  vb_0 : T0 P t;
  vb_A : AS t;
  vb_U : UT0 d t;
  vb_as : forall l, In l (assum t) -> lvar l < nvt t }.
Definition V (d : db) (w : watches) (t : trail_t) : Prop := SInvQ Q d w t /\ VB d t.

Lemma V_TI d w t : V d w t -> TI t.
Proof. intros (H & _). exact (pi_TI _ _ _ (sb_P _ _ _ (si_B _ _ _ H))). Qed.
Lemma CI_sat d a : CI P d -> P a -> forall c, In c (cls d) -> sat_clause a (clits d c).
Proof. intros H Ha c Hc. apply (ci_A _ _ H); auto. exact (cls_lt _ _ _ (ci_D _ _ H) Hc). Qed.

Lemma V_propagate d w t : V d w t -> exists k d' w' t', propagate d w t = Ok (k, d', w', t') /\
  SStateQ Q d' w' t' k /\ VB d' t' /\ assum t' = assum t /\ dec t' = dec t /\ nv d' = nv d /\ K0 d d' /\ dlevel t' = dlevel t /\
  (k = None -> qh t' = length (tr t')).
Proof.
  intros (HS & [B1 B2 B3 B4 B5 B6 B7 B8]). assert (HT := pi_TI _ _ _ (sb_P _ _ _ (si_B _ _ _ HS))).
  destruct (SInv_propagate d w t HS) as (k & d' & w' & t' & E & HR & HST). exists k, d', w', t'. split; auto. split; auto.
  destruct HR as (A1 & A2 & A3 & A4 & A5 & A6 & A7 & A8 & A9 & A10 & A11). assert (HT' := pi_TI _ _ _ A1).
  assert (En : nv d' = nv d) by (rewrite A5; reflexivity).
  assert (HC : CI P d') by (rewrite A5; apply CI_aperm; auto).
  split; [|split; [exact (tx_assum _ _ A2)|split; [exact (tx_dec _ _ A2)|split; [exact En|split; [rewrite A5; apply K0_aperm; auto|split]]]]].
  - constructor; auto.
    + rewrite A5. exact B2.
    + rewrite En, <- B3. exact (tx_nvt _ _ A2).
    + exact (DecI_text _ _ _ HT' A2 B4).
    + exact (T0_text P d' w' t t' (ci_A _ _ HC) A1 HT A2 B5).
    + exact (AS_text _ _ _ HT HT' A2 B6).
    + rewrite A5. exact (UT0_text d _ t t' _ A4 A2 B7).
    + assert (X := tx_nvt _ _ A2). assert (Y := tx_assum _ _ A2). cbn [with_qh nvt assum] in X, Y. rewrite X, Y. exact B8.
  - unfold dlevel. rewrite (tx_lim _ _ A2). reflexivity.
  - intros Hk. apply A11. exact Hk.
Qed.

Lemma root_conflict d w t c a : SConfQ Q d w t c -> VB d t -> dlevel t = 0 -> ~ P a.
Proof.
  intros HS HB H0 Ha. assert (HT := pi_TI _ _ _ (sb_P _ _ _ (sc_B _ _ _ _ HS))).
  destruct (CI_sat d a (vb_C _ _ HB) Ha c (proj1 (sc_use _ _ _ _ HS))) as (l & L1 & L2).
  assert (L3 := sc_false _ _ _ _ HS l L1). apply (ti_val_false t l HT) in L3.
  apply (lit_holds_neg a l); auto. apply (vb_0 _ _ HB); auto. apply In_nth_error in L3. destruct L3 as (i & L3).
  exact (dlevel0_level t i _ HT H0 L3).
Qed.

Lemma V_learn d w t c : SConfQ Q d w t c -> VB d t -> 0 < dlevel t ->
  exists an d0, handle_conflict d t c = Ok (an, d0) /\ (forall a, P a -> sat_clause a (an_learnt an)) /\
    wfc (nv d) (an_learnt an) /\
    let d1 := if c_recalc C then d0 else d in
    safe (createClause (an_learnt an) (N.of_nat (an_lbd an)) false d1) (fun x => match x with (c', d2) =>
      nv d2 = nv d /\ K0 d d2 /\
      exists t2, tpropagate (hd 0 (an_learnt an)) c' (backtrack (an_level an) t) = Ok (true, t2) /\ assum t2 = assum t /\ dec t2 = dec t /\
        V d2 (if 2 <? length (an_learnt an) then attachClause d2 c' w else w) t2 end).
Proof.
  intros HS HB Hl. assert (HT := pi_TI _ _ _ (sb_P _ _ _ (sc_B _ _ _ _ HS))). assert (HRD := sb_RD _ _ _ (sc_B _ _ _ _ HS)).
  destruct (SConf_analysis d w t c HS (vb_D _ _ HB) Hl) as (an & E & LO & Hinv & Hlev & Htl & Hnil & Hy & Hlbd & HH).
  exists an, (reestimate t (an_involved an) d). split; auto.
  assert (Hent : forall a, P a -> sat_clause a (an_learnt an)).
  { intros a Ha. destruct (all_false_or a (an_learnt an)) as [X|X]; auto. exfalso.
    assert (HU := UPclosed_sat a d (CI_sat d a (vb_C _ _ HB) Ha)).
    destruct (CI_sat d a (vb_C _ _ HB) Ha c (proj1 (sc_use _ _ _ _ HS))) as (l & L1 & L2). apply (lit_holds_neg a l); auto.
    apply (HH (lit_holds a) HU); auto. intros q Hq Hq0. exact (vb_0 _ _ HB q a Hq Hq0 Ha). }
  split; auto. destruct LO as (x & r & EL & Hwf & Hfalse & Hx & Hr). split; [rewrite <- (vb_n _ _ HB); auto|].
  intros d1.
  assert (Huse : forall y, In y (an_involved an) -> usable d y).
  { intros y Hyi. destruct (Hinv y Hyi) as [->|(q & Q1 & Q2)]; [apply (sc_use _ _ _ _ HS)|exact (HRD q y Q1 Q2)]. }
  assert (H1 : SConfQ Q d1 w t c /\ CI P d1 /\ empt d1 = false /\ nv d1 = nv d /\ UT0 d1 t /\ K0 d d1).
  { unfold d1. destruct (c_recalc C).
    - destruct (reestimate_fields t (an_involved an) d) as (A1 & A2 & A3 & A4 & A5 & A6 & A7 & A8 & A9 & A10).
      split; [|split; [|split; [|split; [|split]]]]; auto.
      + apply (@SState_reestimate Q d w t (Some c) (an_involved an)); [exact HS|]. intros y Hyi. destruct (Hinv y Hyi) as [->|Z]; auto.
      + apply CI_reestimate; auto. apply HB.
      + rewrite A5. apply HB.
      + apply UT0_reestimate; auto. apply HB.
      + apply K0_reestimate.
    - split; [|split; [|split; [|split; [|split]]]]; auto; try apply HB. apply K0_refl. }
  destruct H1 as (S1 & C1 & E1 & N1 & U1 & K1).
  destruct (createClause (an_learnt an) (N.of_nat (an_lbd an)) false d1) as [[c' d2]|er] eqn:EC; cbn [safe].
  2:{ intros ->. apply createClause_err in EC. discriminate. }
  assert (Hwf1 : wfc (nv d1) (an_learnt an)) by (rewrite N1, <- (vb_n _ _ HB); auto).
  destruct (CI_create P d1 _ _ _ _ _ C1 Hwf1 Hent EC) as (C2 & HK). assert (N2 : nv d2 = nv d1) by apply HK.
  split; [congruence|]. split; [exact (K0_trans _ _ _ K1 (K0_create _ _ _ _ _ _ _ (ci_D _ _ C1) EC))|].
  set (t1 := backtrack (an_level an) t). assert (HT1 : TI t1) by (apply TI_backtrack; auto).
  assert (S2 : SInvQ Q d1 w t1) by (apply (@SState_backtrack Q d1 w t (Some c)); auto).
  destruct (backtrack_fields (an_level an) t Hlev) as (_ & _ & F3 & _ & F5 & F6 & _). fold t1 in F3, F5, F6.
  assert (LO : learnt_ok t (an_learnt an)) by (exists x, r; auto).
  destruct (learnt_backtrack t an HT LO Hlev Htl) as (V1 & V2 & V3). fold t1 in V1, V2, V3. rewrite EL in V1, V2. cbn [hd tl] in V1, V2.
  assert (Hx1 : lvar x < nvt t1) by (rewrite F3; apply Hwf; rewrite EL; cbn; auto).
  rewrite EL in EC |- *. cbn [hd].
  destruct (SInv_learn d1 w t1 x r (N.of_nat (an_lbd an)) c' d2 S2) as (t2 & T1 & T2 & S3); auto.
  { rewrite F3, <- EL. auto. }
  { intros m Hm. apply V2. auto. }
  { intros y r' ->. rewrite V3. destruct (V2 y) as (_ & ->); [cbn; auto|]. apply (Hy y r'). rewrite EL. reflexivity. }
  exists t2. split; auto. subst t2. split; [exact F6|]. split; [exact F5|]. split; auto.
  assert (H0r : dlevel t1 = 0 -> r = []).
  { intros H0. rewrite V3 in H0. destruct r as [|y r']; auto. exfalso. destruct (Hr y); [cbn; auto|]. rewrite EL in Hy. specialize (Hy y r' eq_refl). lia. }
  assert (Hr0 : r = [] -> dlevel t1 = 0) by (intros ->; rewrite V3; apply Hnil; rewrite EL; reflexivity).
  constructor; auto.
  - destruct HK as (_ & _ & _ & _ & Ee). rewrite Ee, E1, EL. reflexivity.
  - cbn [tpush nvt]. rewrite F3, N2, N1. apply HB.
  - apply DecI_push; auto; [apply DecI_backtrack; auto; apply HB|]. discriminate.
  - apply T0_push; auto; [|apply T0_backtrack; auto; apply HB]. intros H0 a Ha. destruct (Hent a Ha) as (m & M1 & M2).
    rewrite EL, (H0r H0) in M1. destruct M1 as [<-|[]]. auto.
  - apply AS_push; auto; [|apply AS_backtrack; auto; apply HB]. discriminate.
  - intros y l (L1 & L2) Hy2. destruct HK as (Ec' & Enew & Ecls & HKr). rewrite Ecls in L1. apply in_app_or in L1.
    assert (HK2 : created d1 (an_learnt an) c' d2) by (unfold created; auto).
    destruct L1 as [L1|[<-|[]]].
    + assert (Hlt := cls_lt _ _ _ (ci_D _ _ C1) L1). rewrite (clits_old _ _ _ _ y HK2 Hlt) in Hy2.
      unfold isDeleted in L2. rewrite (cwt_old _ _ _ _ y HK2 Hlt) in L2.
      assert (HU := UT0_push d1 t1 x (Some c') HT1 V1 Hx1 (UT0_backtrack d1 t _ HT Hlev U1)). apply (HU y l); auto. split; auto.
    + rewrite (clits_new _ _ _ _ HK2), EL in Hy2. injection Hy2 as -> ->. destruct (in_push_self t1 l (Some c') HT1 Hx1) as (X1 & X2).
      split; auto. rewrite X2. auto.
  - cbn [tpush nvt assum]. rewrite F3, F6. apply HB.
Qed.

Lemma V_level d w t : V d w t -> qh t = length (tr t) ->
  (dlevel t < length (assum t) -> value t (nth (dlevel t) (assum t) 0) = Some true) -> V d w (newDecisionLevel t).
Proof.
  intros HV Hq H. assert (HT := V_TI _ _ _ HV). destruct HV as (HS & [B1 B2 B3 B4 B5 B6 B7 B8]).
  split; [apply SInv_level; auto|]. constructor; auto; [apply DecI_newlevel; auto|apply AS_level; auto].
Qed.
Lemma V_decide d w t p : V d w t -> qh t = length (tr t) -> value t p = None -> lvar p < nvt t ->
  (dlevel t < length (assum t) -> p = nth (dlevel t) (assum t) 0) ->
  exists t', decide p (newDecisionLevel t) = Ok t' /\ V d w t' /\ assum t' = assum t /\ dec t' = dec t.
Proof.
  intros HV Hq Hv Hl Hp. assert (HT := V_TI _ _ _ HV). destruct HV as (HS & [B1 B2 B3 B4 B5 B6 B7 B8]).
  set (t0 := newDecisionLevel t). assert (HT0 : TI t0) by (apply TI_newlevel; auto).
  assert (S0 : SInvQ Q d w t0) by (apply SInv_level; auto).
  destruct (SInv_decide d w t0 p S0 Hv Hl) as (t' & E & S1). exists t'. split; auto.
  rewrite decide_push in E by (exact (TI_room t0 p HT0 Hv Hl)). injection E as <-. split; [|auto]. split; auto.
  assert (Hd0 : dlevel t0 = S (dlevel t)) by (unfold dlevel, t0, newDecisionLevel; cbn [lim]; rewrite app_length; cbn; lia).
  constructor; auto.
  - apply DecI_push; auto; [apply DecI_newlevel; auto|]. intros _. right. exists (length (lim t)). unfold t0. cbn [newDecisionLevel lim tr].
    rewrite nth_error_app2, Nat.sub_diag by auto. reflexivity.
  - apply T0_push; auto. lia.
  - apply AS_decide; auto.
  - apply UT0_push; auto.
Qed.

Lemma assume_loop_V k : forall d w t r t1, V d w t -> qh t = length (tr t) -> length (assum t) < k + dlevel t ->
  assume_loop k d t = (r, t1) ->
  V d w t1 /\ qh t1 = length (tr t1) /\ assum t1 = assum t /\ dec t1 = dec t /\
  match r with
  | AFail cs => dlevel t1 < length (assum t1) /\ value t1 (nth (dlevel t1) (assum t1) 0) = Some false /\ cs = analyzeFinal d t1 (lneg (nth (dlevel t1) (assum t1) 0))
  | ANext p => dlevel t1 < length (assum t1) /\ p = nth (dlevel t1) (assum t1) 0 /\ value t1 p = None
  | ANone => length (assum t1) <= dlevel t1
  end.
Proof.
  induction k as [|k IH]; intros d w t r t1 HV Hq Hk E; cbn [assume_loop] in E.
  { injection E as <- <-. split; [auto|]. split; [auto|]. split; [auto|]. split; [auto|]. lia. }
  unfold hasAssumptionsNotSet in E. destruct (Nat.ltb_spec (dlevel t) (length (assum t))) as [Hlt|Hge].
  2:{ injection E as <- <-. split; [auto|]. split; [auto|]. split; [auto|]. split; [auto|]. auto. }
  unfold nextAssumption in E. destruct (value t (nth (dlevel t) (assum t) 0)) as [[|]|] eqn:Ev.
  - apply (IH d w) in E; auto; [apply V_level; auto|].
    change (length (assum t) < k + dlevel (newDecisionLevel t)). unfold dlevel, newDecisionLevel in *. cbn [lim]. rewrite app_length. cbn [length]. lia.
  - injection E as <- <-. split; [auto|]. split; [auto|]. split; [auto|]. split; auto.
  - injection E as <- <-. split; [auto|]. split; [auto|]. split; [auto|]. split; auto.
Qed.

Lemma V_final d w t : V d w t -> dlevel t < length (assum t) -> value t (nth (dlevel t) (assum t) 0) = Some false ->
  let cs := analyzeFinal d t (lneg (nth (dlevel t) (assum t) 0)) in
  cs <> [] /\ (forall l, In l cs -> In (lneg l) (assum t)) /\ forall a, P a -> sat_clause a cs.
Proof.
  intros HV Hd Hv. assert (HT := V_TI _ _ _ HV). destruct HV as (HS & HB). set (p := nth (dlevel t) (assum t) 0) in *.
  assert (Hp : In (lneg p) (tr t)) by (apply (ti_val_false t p HT); auto). intros cs.
  destruct (si_B _ _ _ HS) as [S1 S2 S3 S4 S5].
  assert (HX : exists new, cs = lneg p :: new /\ forall l, In l new -> In (lneg l) (assum t)).
  { destruct (analyzeFinal_spec d t (fun _ => True) HT (pi_TRe _ _ _ S1) S5 (lneg p) Hp) as (new & E & Hn & _). exists new. split; auto.
    intros l Hl. destruct (Hn l Hl) as (N1 & N2 & i & N3 & N4). apply (as_dec _ (vb_A _ _ HB)); auto; [rewrite lvar_neg; auto|].
    rewrite lvar_neg. assert (L := ti_lev _ HT i _ N4). rewrite lvar_neg in L. rewrite L.
    assert (Hle : lev_at (lim t) i <= dlevel t) by (apply filter_length_le'). split; [|lia].
    destruct (lim t) as [|k0 ls] eqn:El.
    - exfalso. unfold cs, analyzeFinal, dlevel in E. rewrite El in E. cbn in E. injection E as <-. destruct Hl.
    - unfold lev_at. cbn [filter]. cbn [nth] in N3. destruct (Nat.leb_spec k0 i); [cbn; lia|lia]. }
  destruct HX as (new & E & Hn). split; [rewrite E; discriminate|]. split.
  - intros l Hl. rewrite E in Hl. destruct Hl as [<-|Hl]; [|auto]. rewrite lneg_invol. apply nth_In. auto.
  - intros a Ha. destruct (analyzeFinal_spec d t (lit_holds a) HT (pi_TRe _ _ _ S1) S5 (lneg p) Hp) as (new' & E' & _ & HH).
    fold cs in E'. destruct (all_false_or a new') as [(l & L1 & L2)|X].
    + exists l. split; auto. rewrite E'. cbn. auto.
    + exists (lneg p). split; [rewrite E'; cbn; auto|]. apply HH; auto.
      * exact (UPclosed_sat a d (CI_sat d a (vb_C _ _ HB) Ha)).
      * intros q Hq Hq0. exact (vb_0 _ _ HB q a Hq Hq0 Ha).
Qed.

(** what the trail says when there is nothing left to decide *)
Definition sat_end (n : nat) (t0 : trail_t) (d : db) (t : trail_t) : Prop :=
  (forall v, v < n -> isDecisionVar v t0 = true -> vvalue t v <> None) /\
  forall c, In c (cls d) -> cwt d c = 0%N -> (2 <= length (clits d c) -> forall l, In l (clits d c) -> vvalue t (lvar l) <> None) ->
    exists l, In l (clits d c) /\ In l (tr t).
Lemma V_model d w t : V d w t -> qh t = length (tr t) -> Q ->
  forall c, In c (cls d) -> cwt d c = 0%N -> (2 <= length (clits d c) -> forall l, In l (clits d c) -> vvalue t (lvar l) <> None) ->
    exists l, In l (clits d c) /\ In l (tr t).
Proof.
  intros HV Hq HQ c Hc Hw Hall. assert (HT := V_TI _ _ _ HV). destruct HV as (HS & HB). assert (HD := si_Done _ _ _ HS HQ). rewrite Hq in HD.
  assert (Hdef : 2 <= length (clits d c) -> forall l, In l (clits d c) -> value t l <> None).
  { intros H2 l Hl. specialize (Hall H2 _ Hl). unfold value, vvalue in *. destruct (nth (lvar l) (asg t) None); [discriminate|congruence]. }
  destruct (Nat.lt_ge_cases (length (clits d c)) 2) as [Hs|Hs].
  - destruct (clits d c) as [|l [|l' r]] eqn:El; [|exists l; split; [cbn; auto|]|cbn in Hs; lia].
    + destruct (ci_N _ _ (vb_C _ _ HB) (vb_e _ _ HB) c Hc El).
    + apply (vb_U _ _ HB c l); auto. split; auto. unfold isDeleted. rewrite Hw. reflexivity.
  - destruct (Done_complete d w t c (si_B _ _ _ HS) HD Hc Hs (fun _ => Hw)) as [(m & M1 & M2)|(m1 & m2 & M1 & _ & _ & M2 & _)].
    + exists m. split; auto. apply (ti_val _ HT). auto.
    + destruct (Hdef Hs m1 M1 M2).
Qed.

(** ** The callback *)
Definition log_entry (m : BinNums.Z) (n : nat) (e : list BinNums.Z) : Prop := exists ls, e = map to_dimacs ls ++ [0%Z] /\ (Z.of_nat (length ls) <= m)%Z /\
  wfc n ls /\ forall a, P a -> sat_clause a ls.
Record logext (n : nat) (s s' : solver) : Prop := {
  le_cb : sv_cb s' = sv_cb s;
  le_log : exists new, sv_log s' = new ++ sv_log s /\ forall e, In e new -> exists m, sv_cb s = Some m /\ log_entry m n e }.
Lemma logext_same n s s' : sv_cb s' = sv_cb s -> sv_log s' = sv_log s -> logext n s s'.
Proof. intros A B. constructor; auto. exists []. split; auto. intros e []. Qed.
Lemma logext_trans n s s1 s2 : logext n s s1 -> logext n s1 s2 -> logext n s s2.
Proof.
  intros [A1 (n1 & A2 & A3)] [B1 (n2 & B2 & B3)]. constructor; [congruence|]. exists (n2 ++ n1). rewrite B2, A2, app_assoc. split; auto.
  intros e He. apply in_app_or in He. destruct He as [He|He]; auto. destruct (B3 e He) as (m & M1 & M2). exists m. split; auto. congruence.
Qed.
Lemma logext_learn n s ls : wfc n ls -> (forall a, P a -> sat_clause a ls) -> logext n s (ipasir_callback ls s).
Proof.
  intros Hw Hs. unfold ipasir_callback. destruct (sv_cb s) as [m|] eqn:E; [|apply logext_same; auto].
  destruct (Z.leb_spec (Z.of_nat (length ls)) m) as [Hm|Hm]; [|apply logext_same; auto].
  constructor; auto. exists [map to_dimacs ls ++ [0%Z]]. split; auto. intros e [<-|[]]. exists m. split; auto. exists ls. auto.
Qed.

Record spost (s : solver) (r : option bool) (cs : list lit) (s' : solver) : Prop := {
  so_C : CI P (sv_d s');
  so_T : TI (sv_t s');
  so_n : nvt (sv_t s') = nv (sv_d s');
  so_W : WS (nv (sv_d s')) (sv_d s') (sv_w s');
  so_nv : nv (sv_d s') = nv (sv_d s);
  so_assum : assum (sv_t s') = assum (sv_t s);
  so_dec : dec (sv_t s') = dec (sv_t s);
  so_e : sv_e s' = sv_e s;
  so_K : K0 (sv_d s) (sv_d s');
  so_log : logext (nv (sv_d s)) s s';
  so_false : r = Some false -> (forall l, In l cs -> In (lneg l) (assum (sv_t s))) /\ forall a, P a -> sat_clause a cs;
  so_true : r = Some true -> incl (assum (sv_t s)) (tr (sv_t s')) /\
    (Q -> sat_end (nv (sv_d s)) (sv_t s) (sv_d s') (sv_t s')) }.
Lemma spost_step s s1 r cs s' : nv (sv_d s1) = nv (sv_d s) -> assum (sv_t s1) = assum (sv_t s) -> dec (sv_t s1) = dec (sv_t s) ->
  sv_e s1 = sv_e s -> K0 (sv_d s) (sv_d s1) -> logext (nv (sv_d s)) s s1 -> spost s1 r cs s' -> spost s r cs s'.
Proof.
  intros N1 N2 N3 N4 N5 N6 [A1 A2 A3 AW A4 A5 A6 A7 A8 A9 A10 A11]. rewrite N1 in *. rewrite N2 in *. constructor; auto; try congruence.
  - exact (K0_trans _ _ _ N5 A8).
  - exact (logext_trans _ _ _ _ N6 A9).
  - intros Hr. destruct (A11 Hr) as (B1 & B2). split; auto. intros HQ. destruct (B2 HQ) as (D1 & D2). split; auto. intros v Hv Hd. apply D1; auto. unfold isDecisionVar. rewrite N3. exact Hd.
Qed.

Lemma pick_none l t : pick l t = None -> forall v, v < nvt t -> isDecisionVar v t = true -> vvalue t v <> None.
Proof.
  unfold pick. destruct (existsb _ _); [discriminate|]. destruct (candidates t) as [|v0 r] eqn:E; [|discriminate]. intros _ v Hv Hd Hn.
  assert (H : In v (candidates t)); [|rewrite E in H; destruct H]. unfold candidates. apply filter_In. split; [apply in_seq; lia|].
  rewrite Hn, Hd. reflexivity.
Qed.
Lemma pick_some l t p : pick l t = Some p -> lvar p < nvt t /\ value t p = None.
Proof.
  intros H. assert (Hc : In (lvar p) (candidates t)).
  { unfold pick in H. destruct (existsb (Nat.eqb (lvar l)) (candidates t)) eqn:E.
    - injection H as <-. apply existsb_exists in E. destruct E as (x & X1 & X2). apply Nat.eqb_eq in X2. subst. auto.
    - destruct (candidates t) as [|v r]; [discriminate|]. injection H as <-. rewrite lvar_mk. cbn. auto. }
  unfold candidates in Hc. apply filter_In in Hc. destruct Hc as (H1 & H2). apply in_seq in H1. apply andb_prop in H2. destruct H2 as (H2 & _).
  split; [lia|]. unfold value. destruct (vvalue t (lvar p)); [discriminate|reflexivity].
Qed.

Lemma search_spec fuel : forall s, V (sv_d s) (sv_w s) (sv_t s) ->
  safe (search C O fuel s) (fun x => match x with (r, cs, s') => spost s r cs s' end).
Proof.
  induction fuel as [|f IH]; intros s HV; cbn [search]; [discriminate|].
  destruct (V_propagate _ _ _ HV) as (k & d & w & t & E & HST & HB & Ea & Ed & En & HK & Edl & Hqh). rewrite E. cbn [bind].
  assert (Hbase : forall r cs s', sv_d s' = d -> sv_w s' = w -> sv_t s' = t -> sv_e s' = sv_e s -> sv_cb s' = sv_cb s -> sv_log s' = sv_log s -> r <> Some true ->
    (r = Some false -> (forall l, In l cs -> In (lneg l) (assum (sv_t s))) /\ forall a, P a -> sat_clause a cs) -> spost s r cs s').
  { intros r cs s' E1 E1w E2 E3 E4 E5 E6 E7. constructor; rewrite ?E1, ?E1w, ?E2; auto; try apply HB.
    - exact (pi_TI _ _ _ (sb_P _ _ _ (SState_B _ _ _ _ HST))).
    - apply (WS_SBase d w t (SState_B _ _ _ _ HST)). apply HB.
    - apply logext_same; auto.
    - intros ->. contradiction. }
  destruct k as [c|].
  - cbn [SStateQ] in HST. destruct (Nat.eqb_spec (dlevel t) 0) as [H0|H0].
    { cbn [safe]. apply Hbase; auto; [discriminate|]. intros _. split; [intros l []|]. intros a Ha. destruct (root_conflict d w t c a HST HB H0 Ha). }
    destruct (V_learn d w t c HST HB) as (an & d0 & E1 & Hent & Hwf & HS); [lia|]. rewrite E1. cbn [bind].
    eapply safe_bind; [exact HS|]. intros [c' d2] (N2 & K2 & t2 & T1 & T2 & T3 & HV2). cbv beta iota. rewrite T1. cbn [bind].
    set (w2 := if 2 <? length (an_learnt an) then attachClause d2 c' w else w) in *.
    set (s1 := with_log (sv_conf s + 1) (sv_log s) (core d2 w2 t2 s)).
    assert (HC : sv_d (ipasir_callback (an_learnt an) s1) = d2 /\ sv_w (ipasir_callback (an_learnt an) s1) = w2 /\
                 sv_t (ipasir_callback (an_learnt an) s1) = t2 /\ sv_e (ipasir_callback (an_learnt an) s1) = sv_e s).
    { unfold ipasir_callback. destruct (sv_cb s1); [destruct (_ <=? _)%Z|]; auto. }
    destruct HC as (C1 & C2 & C3 & C4).
    eapply safe_mono; [apply IH; rewrite C1, C2, C3; exact HV2|]. intros [[r cs] s'] HP.
    apply (spost_step s (ipasir_callback (an_learnt an) s1)); auto; rewrite ?C1, ?C3; try congruence.
    + exact (K0_trans _ _ _ HK K2).
    + rewrite <- En. apply (logext_trans _ s s1); [apply logext_same; auto|]. apply logext_learn; auto.
  - cbn [SStateQ] in HST. specialize (Hqh eq_refl). destruct (o_restart O (sv_clk s)).
    { cbn [safe]. apply Hbase; auto; discriminate. }
    destruct (assume_loop (S (length (assum t))) d t) as (r, t1) eqn:EA.
    destruct (assume_loop_V (S (length (assum t))) d w t r t1 (conj HST HB) Hqh) as (V1 & Q1 & A1 & D1 & HR); [lia|exact EA|].
    assert (HB1 := proj2 V1). assert (HW1 : WS (nv d) d w) by (apply (WS_SBase d w t1 (si_B _ _ _ (proj1 V1))); apply HB1). assert (HT1 := V_TI _ _ _ V1).
    assert (Hlog : forall s', sv_cb s' = sv_cb s -> sv_log s' = sv_log s -> logext (nv (sv_d s)) s s') by (intros; apply logext_same; auto).
    assert (Hnext : forall p, value t1 p = None -> lvar p < nvt t1 -> (dlevel t1 < length (assum t1) -> p = nth (dlevel t1) (assum t1) 0) ->
      safe (t2 <- decide p (newDecisionLevel t1);; search C O f (core d w t2 (core d w t1 (tick (core d w t s)))))
        (fun x => match x with (r, cs, s') => spost s r cs s' end)).
    { intros p Hp1 Hp2 Hp3. destruct (V_decide d w t1 p V1 Q1 Hp1 Hp2 Hp3) as (t2 & E2 & V2 & A2 & D2). rewrite E2. cbn [bind].
      eapply safe_mono; [apply IH; exact V2|]. intros [[r' cs] s'] HP.
      apply (spost_step s (core d w t2 (core d w t1 (tick (core d w t s))))); auto; cbn [core sv_d sv_t]; congruence. }
    destruct r as [cs|p|].
    + destruct HR as (R1 & R2 & ->). destruct (V_final d w t1 V1 R1 R2) as (X0 & X1 & X2). cbn [safe].
      constructor; cbn [core sv_d sv_w sv_t sv_e]; auto; try apply HB1; try congruence.
      intros _. split; auto. intros l Hl. rewrite <- Ea, <- A1. apply X1. auto.
    + destruct HR as (R1 & R2 & R3). apply Hnext; auto. apply (vb_as _ _ HB1). subst p. apply nth_In. auto.
    + destruct (pick (o_pick O (sv_clk s)) t1) as [p|] eqn:EP.
      * destruct (pick_some _ _ _ EP) as (P1 & P2). apply Hnext; auto. lia.
      * cbn [safe]. constructor; cbn [core sv_d sv_w sv_t sv_e]; auto; try apply HB1; try congruence; try discriminate.
        intros _. split.
        -- intros l Hl. rewrite <- Ea, <- A1 in Hl. apply In_nth with (d := 0) in Hl. destruct Hl as (i & Hi & <-).
           apply (as_set _ (vb_A _ _ HB1) i); lia.
        -- intros HQ. split; [|exact (V_model d w t1 V1 Q1 HQ)].
           intros v Hv Hd. apply (pick_none _ _ EP v); [rewrite (vb_n _ _ HB1), En; auto|]. unfold isDecisionVar. rewrite D1, Ed. exact Hd.
Qed.
End Search.
