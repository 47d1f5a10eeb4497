(** Conflict analysis on the states of the search loop. *)
Require Import List Arith Bool NArith Lia Permutation.
Require Import Verif.Base Verif.CNFModel Verif.CNFSpec Verif.CNFProofs Verif.HeapProofs Verif.Outcome Verif.TrailModel
  Verif.TrailProofs Verif.TrailLemmas Verif.DbModel Verif.PropModel Verif.PropProofs Verif.DbProofs Verif.PropSpec Verif.PropLemmas
  Verif.AnalyzeModel Verif.AnalyzeProofs Verif.AnalyzeSpec.
Import ListNotations.

(** facts of level 0 are unit clauses of the database *)
Definition F0 (d : db) (t : trail_t) : Prop := forall l, In l (tr t) -> level t (lvar l) = 0 ->
  reason t (lvar l) = None -> exists c, In c (cls d) /\ clits d c = [l].

Record AInv (d : db) (t : trail_t) : Prop := { av_D : DecI t; av_F : F0 d t }.

(** ** The pieces *)
Lemma DecI_nil t : tr t = [] -> DecI t.
Proof. intros E i l H. rewrite E in H. destruct i; discriminate. Qed.
Lemma F0_nil d t : tr t = [] -> F0 d t.
Proof. intros E l H. rewrite E in H. destruct H. Qed.

Lemma DecI_newlevel t : DecI t -> DecI (newDecisionLevel t).
Proof.
  intros H i l Hi Hr. destruct (H i l Hi Hr) as [|(k & Hk)]; auto. right. exists k. cbn [newDecisionLevel lim].
  rewrite nth_error_app1; auto. eapply nth_error_lt; eauto.
Qed.

Lemma DecI_push t l r : TI t -> value t l = None -> lvar l < nvt t -> DecI t ->
  (r = None -> dlevel t = 0 \/ exists k, nth_error (lim t) k = Some (length (tr t))) -> DecI (tpush l r t).
Proof.
  intros HT Hv Hl H Hr i m Hi Hm. rewrite reason_push in Hm by (rewrite (ti_vd t HT); auto).
  rewrite level_push by (rewrite (ti_vd t HT); auto). cbn [tpush tr lim] in *. apply nth_error_snoc in Hi.
  destruct (Nat.eqb_spec (lvar m) (lvar l)) as [E|E].
  - destruct Hi as [Hi|[-> ->]].
    + exfalso. apply (value_none_notin t l HT Hv). rewrite <- E. apply in_map. eapply nth_error_In; eauto.
    + auto.
  - destruct Hi as [Hi|[-> ->]]; [apply (H i m Hi Hm)|contradiction].
Qed.
Lemma F0_push d t l r : TI t -> value t l = None -> lvar l < nvt t -> F0 d t ->
  (r = None -> dlevel t = 0 -> exists c, In c (cls d) /\ clits d c = [l]) -> F0 d (tpush l r t).
Proof.
  intros HT Hv Hl H Hr m Hm. rewrite reason_push by (rewrite (ti_vd t HT); auto).
  rewrite level_push by (rewrite (ti_vd t HT); auto). cbn [tpush tr] in *. apply in_app_or in Hm.
  destruct (Nat.eqb_spec (lvar m) (lvar l)) as [E|E].
  - destruct Hm as [Hm|[<-|[]]]; auto. exfalso. apply (value_none_notin t l HT Hv). rewrite <- E. apply in_map; auto.
  - destruct Hm as [Hm|[<-|[]]]; [auto|contradiction].
Qed.
Lemma F0_newlevel d t : F0 d t -> F0 d (newDecisionLevel t).
Proof. intros H l. apply H. Qed.

Lemma AInv_text d d' t t' q : text (with_qh q t) t' -> cls d' = cls d -> (forall c, Permutation (clits d c) (clits d' c)) ->
  AInv d t -> AInv d' t'.
Proof.
  intros [(new & En & Hn) El _ _ _ _ Hvd] Ec HP [H1 H2]. cbn [with_qh tr lim] in *. constructor.
  - intros i l Hi Hr. rewrite El. rewrite En in Hi. destruct (Nat.lt_ge_cases i (length (tr t))) as [Hl|Hl].
    + rewrite nth_error_app1 in Hi by auto. pose proof (nth_error_In _ _ Hi) as Hin. destruct (Hvd l Hin) as [E1 E2].
      rewrite E1. rewrite E2 in Hr. apply (H1 i l Hi Hr).
    + rewrite nth_error_app2 in Hi by auto. apply nth_error_In in Hi. exfalso. eapply Hn; eauto.
  - intros l Hl Hl0 Hr. rewrite En in Hl. apply in_app_or in Hl. destruct Hl as [Hl|Hl]; [|exfalso; eapply Hn; eauto].
    destruct (Hvd l Hl) as [E1 E2]. rewrite E1 in Hl0. rewrite E2 in Hr. destruct (H2 l Hl Hl0 Hr) as (c & C1 & C2).
    exists c. rewrite Ec. split; auto. pose proof (HP c) as P. rewrite C2 in P. apply Permutation_length_1_inv in P. auto.
Qed.

Lemma backtrack_vd n t l : TI t -> n < dlevel t -> In l (tr (backtrack n t)) ->
  reason (backtrack n t) (lvar l) = reason t (lvar l) /\ level (backtrack n t) (lvar l) = level t (lvar l).
Proof. intros HT Hn Hl. unfold backtrack in *. destruct (n <? dlevel t); auto. Qed.

Lemma AInv_backtrack d t n : TI t -> n < dlevel t -> AInv d t -> AInv d (backtrack n t).
Proof.
  intros HT Hn [H1 H2].
  assert (Et : tr (backtrack n t) = firstn (nth n (lim t) 0) (tr t)) by (unfold backtrack; apply Nat.ltb_lt in Hn; rewrite Hn; auto).
  assert (El : lim (backtrack n t) = firstn n (lim t)) by (unfold backtrack; apply Nat.ltb_lt in Hn; rewrite Hn; auto).
  constructor.
  - intros i l Hi Hr. pose proof (nth_error_In _ _ Hi) as Hin. destruct (backtrack_vd n t l HT Hn Hin) as [E1 E2]. rewrite E2. rewrite E1 in Hr.
    rewrite Et in Hi. apply nth_error_firstn_iff in Hi. destruct Hi as [Hi1 Hi2].
    destruct (H1 i l Hi2 Hr) as [|(k & Hk)]; auto. right. exists k. rewrite El.
    assert (Hkn : k < n).
    { destruct (Nat.lt_ge_cases k n) as [|Hge]; auto. exfalso.
      assert (Hs : nth n (lim t) 0 <= i); [|lia]. rewrite <- (nth_error_nth (lim t) k 0 Hk).
      apply (ti_sorted t HT); auto. eapply nth_error_lt; eauto. }
    apply nth_error_firstn_iff. auto.
  - intros l Hl Hl0 Hr. destruct (backtrack_vd n t l HT Hn Hl) as [E1 E2]. rewrite E2 in Hl0. rewrite E1 in Hr.
    apply H2; auto. rewrite Et in Hl. apply in_firstn_iff in Hl. destruct Hl as (i & _ & Hi). eapply nth_error_In; eauto.
Qed.

Lemma F0_cls d d' t : (forall c, In c (cls d) -> In c (cls d') /\ clits d' c = clits d c) -> F0 d t -> F0 d' t.
Proof. intros E H l Hl H0 Hr. destruct (H l Hl H0 Hr) as (c & C1 & C2). destruct (E c C1). exists c. split; congruence. Qed.

Lemma fact_vd l t : TI t -> lvar l < nvt t -> value t l = Some true -> forall v,
  reason (set_vd (lvar l) (None, 0) t) v = (if v =? lvar l then None else reason t v) /\
  level (set_vd (lvar l) (None, 0) t) v = (if v =? lvar l then 0 else level t v).
Proof.
  intros HT Hl Hv v. unfold reason, level. cbn [set_vd vd]. rewrite nth_set_nth. rewrite (ti_vd t HT).
  apply Nat.ltb_lt in Hl. rewrite Hl, andb_true_r. destruct (v =? lvar l); auto.
Qed.

Lemma AInv_fact d t c l b t' : TI t -> dlevel t = 0 -> lvar l < nvt t -> In c (cls d) -> clits d c = [l] ->
  fact l t = Ok (b, t') -> AInv d t -> AInv d t'.
Proof.
  intros HT Hd Hl Hc El Hf [H1 H2]. destruct (value t l) as [[|]|] eqn:V.
  - rewrite fact_true in Hf by auto. inversion Hf; subst. pose proof (fact_vd l t HT Hl V) as HV. constructor.
    + intros i m Hi Hr. destruct (HV (lvar m)) as [E1 E2]. rewrite E2. rewrite E1 in Hr. cbn [set_vd tr lim] in *.
      destruct (Nat.eqb_spec (lvar m) (lvar l)) as [E|E]; [auto|apply (H1 i m Hi Hr)].
    + intros m Hm H0 Hr. destruct (HV (lvar m)) as [E1 E2]. rewrite E2 in H0. rewrite E1 in Hr. cbn [set_vd tr] in *.
      destruct (Nat.eqb_spec (lvar m) (lvar l)) as [E|E].
      * exists c. split; auto. destruct (same_var m l E) as [->|Em]; auto. exfalso. subst m.
        apply (ti_val_false t l HT) in Hm. congruence.
      * apply (H2 m Hm H0 Hr).
  - rewrite fact_false in Hf by auto. inversion Hf; subst. constructor; auto.
  - rewrite fact_push in Hf by auto. inversion Hf; subst. constructor.
    + apply DecI_push; auto.
    + apply F0_push; auto. intros _ _. eauto.
Qed.

(** ** Conflict analysis from the invariant *)
Lemma SConf_analysis {Q} d w t c : SConfQ Q d w t c -> DecI t -> 0 < dlevel t ->
  exists an, handle_conflict d t c = Ok (an, reestimate t (an_involved an) d) /\ learnt_ok t (an_learnt an) /\
    (forall x, In x (an_involved an) -> x = c \/ exists q, In q (tr t) /\ reason t (lvar q) = Some x) /\
    an_level an < dlevel t /\
    (forall m, In m (tl (an_learnt an)) -> level t (lvar m) <= an_level an) /\
    (tl (an_learnt an) = [] -> an_level an = 0) /\
    (forall y r, tl (an_learnt an) = y :: r -> level t (lvar y) = an_level an) /\
    an_lbd an = computeLBD t (an_learnt an) /\
    (forall H, UPclosed d H -> (forall q, In q (tr t) -> level t (lvar q) = 0 -> H q) ->
       (forall l, In l (an_learnt an) -> H (lneg l)) -> forall m, In m (clits d c) -> H (lneg m)).
Proof.
  intros [HB Hf Hu Hlv HL HDn] HDI Hdl. destruct HB as [HP HD HW HC HR].
  apply handle_conflict_spec; auto; try solve [apply HP].
  - intros p c' o Hin. apply (di_bw0 _ _ HD p c' o Hin).
  - apply Hu.
Qed.

(** after backtracking the clause is unit *)
Lemma learnt_backtrack t an : TI t -> learnt_ok t (an_learnt an) -> an_level an < dlevel t ->
  (forall m, In m (tl (an_learnt an)) -> level t (lvar m) <= an_level an) ->
  let t1 := backtrack (an_level an) t in
  value t1 (hd 0 (an_learnt an)) = None /\ (forall m, In m (tl (an_learnt an)) -> value t1 m = Some false /\ level t1 (lvar m) = level t (lvar m)) /\
  dlevel t1 = an_level an.
Proof.
  intros HT (x & r & E & W & F & Lx & Lr) Hlt Hle t1. rewrite E in *. cbn [hd tl] in *. split; [|split].
  - apply backtrack_drop; auto. lia.
  - intros m Hm. split.
    + apply value_neg_true. apply backtrack_keep; auto.
      * apply value_neg_true. apply F. simpl; auto.
      * rewrite lvar_neg. auto.
    + destruct (backtrack_fields (an_level an) t Hlt) as (_ & _ & _ & E1 & _). unfold t1, level. rewrite E1. auto.
  - unfold t1, dlevel. destruct (backtrack_fields (an_level an) t Hlt) as (_ & E1 & _). rewrite E1, firstn_length.
    unfold dlevel in Hlt. lia.
Qed.

Lemma areach_inv d w t k : areach d w t k -> preach d w t k /\ AInv d t.
Proof.
  induction 1 as [n cs d Hc Hi|d w t c l b t' H IH Hd Hc El Hf|d w t l c d' H IH Hd Hv Hc|d w t H IH Hq|d w t l t' H IH Hq Hl Hv Hdc
    |d w t k d' w' t' H IH Hp|d w t c an d1 c' d' b t' H IH Hdl Ha Hc Hp|d w t k cs H IH d'|d w t k n cs d' H IH Hok Hi];
    try destruct IH as [IP IA]; try pose proof (preach_SState _ _ _ _ IP) as IS;
    try pose proof (SState_B _ _ _ _ IS) as IB; try pose proof (pi_TI _ _ _ (sb_P _ _ _ IB)) as HT.
  - split; [eapply pr_init; eauto|]. destruct (init_fields n trail_new) as (E & _). split; [apply DecI_nil|apply F0_nil]; rewrite E; auto.
  - assert (Hl : lvar l < nvt t).
    { apply (proj2 (pi_WFA _ _ _ (sb_P _ _ _ IB) c)). rewrite <- clits_alits, El. simpl; auto. }
    split; [eapply pr_fact; eauto|eapply AInv_fact; eauto].
  - assert (Hl : lvar l < nvt t) by (apply (ti_range t HT), (ti_val t HT); auto).
    split; [eapply pr_unit; eauto|]. destruct IA as [I1 I2]. split; auto. eapply F0_cls; [|eauto].
    destruct (createClause_created _ _ _ _ _ _ Hc) as (C1 & C2 & C3 & _). intros c1 H1. split; [rewrite C3; apply in_or_app; auto|].
    rewrite !clits_alits, (createClause_wt _ _ _ _ _ _ Hc), alits_app; auto. apply (di_rng _ _ (sb_D _ _ _ IB)), (di_cls _ _ (sb_D _ _ _ IB)); auto.
  - split; [apply pr_level; auto|]. destruct IA as [I1 I2]. split; [apply DecI_newlevel; auto|apply F0_newlevel; auto].
  - split; [eapply pr_decide with (t := newDecisionLevel t); eauto; apply pr_level; auto|]. pose proof (TI_newlevel t HT) as HT1.
    assert (E : t' = tpush l None (newDecisionLevel t)).
    { pose proof (decide_push l (newDecisionLevel t)) as E. rewrite Hdc in E. assert (E' := E (TI_room _ _ HT1 Hv Hl)). inversion E'; auto. }
    subst t'. destruct IA as [I1 I2]. split.
    + apply DecI_push; auto; [apply DecI_newlevel; auto|]. intros _. right. exists (length (lim t)). cbn [newDecisionLevel lim tr].
      rewrite nth_error_app2, Nat.sub_diag by auto. reflexivity.
    + apply F0_push; auto. intros _ E. unfold dlevel in E. cbn [newDecisionLevel lim] in E. rewrite app_length in E. simpl in E. lia.
  - split; [eapply pr_propagate; eauto|]. destruct (preach_propagate d w t IP) as (k1 & d1 & w1 & t1 & E & HR & HS).
    rewrite Hp in E. inversion E; subst k1 d1 w1 t1. destruct HR as (A1 & A2 & A3 & A4 & A5 & _).
    apply (AInv_text d d' t t' (qh t') A2); [rewrite A5; reflexivity|intros c; apply A4|exact IA].
  - simpl in IS. destruct (SConf_analysis d w t c IS (av_D _ _ IA) Hdl) as (an' & B1 & B2 & B3 & B4 & B5 & B6 & B7 & B8 & B9).
    rewrite Ha in B1. inversion B1; subst an' d1. clear B1.
    assert (PR : preach (reestimate t (an_involved an) d) w t (Some c)).
    { apply pr_reestimate; auto. intros x Hx. destruct (B3 x Hx) as [->|]; auto. }
    pose proof (pr_backtrack _ _ _ _ (an_level an) PR B4) as PB.
    destruct (learnt_backtrack t an HT B2 B4 B5) as (L1 & L2 & L3).
    destruct B2 as (x & r & E & W & F & Lx & Lr). rewrite E in *. cbn [hd tl] in *.
    destruct (backtrack_fields (an_level an) t B4) as (_ & _ & En & _).
    assert (HTb : TI (backtrack (an_level an) t)) by (apply TI_backtrack; auto).
    assert (Hxv : lvar x < nvt (backtrack (an_level an) t)) by (rewrite En; apply W; simpl; auto).
    split.
    + eapply pr_learn; eauto.
      * rewrite En. exact W.
      * intros m Hm. apply L2; auto.
      * intros y r' Er. rewrite L3. destruct (L2 y) as [_ ->]; [rewrite Er; simpl; auto|]. eapply B7; eauto.
    + destruct (AInv_backtrack d t (an_level an) HT B4 IA) as [I1 I2].
      assert (Et : t' = tpush x (Some c') (backtrack (an_level an) t)).
      { rewrite tpropagate_push in Hp; [inversion Hp; auto|apply (TI_room _ x); auto|congruence]. }
      subst t'. split; [apply DecI_push; auto; discriminate|]. apply F0_push; auto; [|discriminate]. eapply F0_cls; [|exact I2].
      destruct (createClause_created _ _ _ _ _ _ Hc) as (C1 & C2 & C3 & _).
      destruct (reestimate_fields t (an_involved an) d) as (R1 & R2 & R3 & R4 & R5 & R6 & R7 & R8 & R9 & R10).
      intros c1 H1. split; [rewrite C3, R3; apply in_or_app; auto|].
      rewrite !clits_alits, (createClause_wt _ _ _ _ _ _ Hc), alits_app.
      * apply R9.
      * pose proof (preach_SState _ _ _ _ PR) as SR. pose proof (sb_D _ _ _ (SState_B _ _ _ _ SR)) as DR.
        apply (di_rng _ _ DR), (di_cls _ _ DR). rewrite R3. auto.
  - split; [eapply pr_restart; eauto|]. split; [apply DecI_nil|apply F0_nil]; reflexivity.
  - split; [eapply pr_extend; eauto|]. split; [apply DecI_nil|apply F0_nil]; reflexivity.
Qed.

(** ** Level-0 literals follow from the database *)
Lemma level0_entailed a d w t : SBase d w t -> AInv d t -> (forall c, In c (cls d) -> sat_clause a (clits d c)) ->
  forall q, In q (tr t) -> level t (lvar q) = 0 -> lit_holds a q.
Proof.
  intros [HP HD HW HC HR] [HDI HF] Ha q Hq. pose proof (pi_TI _ _ _ HP) as HT. apply In_nth_error in Hq. destruct Hq as (i & Hi). revert q Hi.
  induction i as [i IH] using lt_wf_ind. intros q Hi H0. pose proof (nth_error_In _ _ Hi) as Hq.
  destruct (reason t (lvar q)) as [c|] eqn:Er.
  - destruct (pi_TRe _ _ _ HP i q c Hi Er) as [R1 R2]. destruct (HR q c Hq Er) as [Hc _]. destruct (Ha c Hc) as (m & M1 & M2).
    destruct (Nat.eq_dec m q) as [->|Hn]; auto. destruct (R2 m M1 Hn) as (j & Hj & Ej).
    pose proof (level_mono t j i _ _ HT Ej Hi ltac:(lia)) as Hle. specialize (IH j Hj _ Ej ltac:(lia)).
    apply lit_holds_neg in IH. contradiction.
  - destruct (HF q Hq H0 Er) as (c & C1 & C2). specialize (Ha c C1). rewrite C2 in Ha. apply sat_clause_unit in Ha. auto.
Qed.

Lemma UPclosed_sat a d : (forall c, In c (cls d) -> sat_clause a (clits d c)) -> UPclosed d (lit_holds a).
Proof.
  intros Ha c q Hc Hq Hm. destruct (Ha c Hc) as (m & M1 & M2). destruct (Nat.eq_dec m q) as [->|Hn]; auto.
  specialize (Hm m M1 Hn). apply lit_holds_neg in Hm. contradiction.
Qed.

Lemma all_false_or a ls : sat_clause a ls \/ forall l, In l ls -> lit_holds a (lneg l).
Proof.
  induction ls as [|l r IH]; [right; intros l []|]. destruct IH as [(m & M1 & M2)|IH]; [left; exists m; simpl; auto|].
  destruct (lit_holds_dec a l) as [H|H]; [left; exists l; simpl; auto|]. right. intros m [<-|Hm]; auto. apply lit_holds_neg. auto.
Qed.

Lemma sat_cls a d : sat a (db_formula d) -> forall c, In c (cls d) -> sat_clause a (clits d c).
Proof. intros H c Hc. apply H. unfold db_formula. apply in_map; auto. Qed.

(** ** C16, C17 *)
Lemma learnt_entailed d w t c an d' : areach d w t (Some c) -> 0 < dlevel t -> handle_conflict d t c = Ok (an, d') ->
  entails (db_formula d) (an_learnt an).
Proof.
  intros HA Hd Hh a Hs. destruct (areach_inv _ _ _ _ HA) as [HP HI]. pose proof (preach_SState _ _ _ _ HP) as HS. simpl in HS.
  destruct (SConf_analysis d w t c HS (av_D _ _ HI) Hd) as (an' & B1 & B2 & B3 & B4 & B5 & B6 & B7 & B8 & B9).
  rewrite Hh in B1. inversion B1; subst an'. pose proof (sat_cls a d Hs) as Hc.
  destruct (all_false_or a (an_learnt an)) as [|Hall]; auto. exfalso.
  pose proof (B9 (lit_holds a) (UPclosed_sat a d Hc) (level0_entailed a d w t (sc_B _ _ _ _ HS) HI Hc) Hall) as Hm.
  destruct (Hc c (proj1 (sc_use _ _ _ _ HS))) as (m & M1 & M2). specialize (Hm m M1). apply lit_holds_neg in Hm. contradiction.
Qed.

Lemma conflict_defined d w t c : areach d w t (Some c) -> 0 < dlevel t -> exists an d', handle_conflict d t c = Ok (an, d').
Proof.
  intros HA Hd. destruct (areach_inv _ _ _ _ HA) as [HP HI]. pose proof (preach_SState _ _ _ _ HP) as HS. simpl in HS.
  destruct (SConf_analysis d w t c HS (av_D _ _ HI) Hd) as (an' & B1 & _). eauto.
Qed.

Lemma learnt_asserting d w t c an d' : areach d w t (Some c) -> 0 < dlevel t -> handle_conflict d t c = Ok (an, d') ->
  exists x r, an_learnt an = x :: r /\ clause_ok (nvt t) (x :: r) /\
    (forall m, In m (x :: r) -> value t m = Some false) /\
    level t (lvar x) = dlevel t /\ (forall m, In m r -> 0 < level t (lvar m) < dlevel t) /\
    an_level an < dlevel t /\
    (r = [] -> an_level an = 0) /\ (forall y r', r = y :: r' -> level t (lvar y) = an_level an) /\
    value (backtrack (an_level an) t) x = None /\
    (forall m, In m r -> value (backtrack (an_level an) t) m = Some false).
Proof.
  intros HA Hd Hh. destruct (areach_inv _ _ _ _ HA) as [HP HI]. pose proof (preach_SState _ _ _ _ HP) as HS. simpl in HS.
  destruct (SConf_analysis d w t c HS (av_D _ _ HI) Hd) as (an' & B1 & B2 & B3 & B4 & B5 & B6 & B7 & B8 & B9).
  rewrite Hh in B1. inversion B1; subst an'. pose proof (pi_TI _ _ _ (sb_P _ _ _ (sc_B _ _ _ _ HS))) as HT.
  destruct (learnt_backtrack t an HT B2 B4 B5) as (L1 & L2 & L3).
  destruct B2 as (x & r & E & W & F & Lx & Lr). rewrite E in *. cbn [hd tl] in *.
  exists x, r. split; auto. split; auto. split; auto. split; auto. split; auto. split; auto. split; auto. split; auto. split; auto.
  intros m Hm. apply L2; auto.
Qed.

(** the loop really continues from a conflict: the learnt clause can be stored and asserted *)
Lemma learn_step d w t c an d1 c' d' : areach d w t (Some c) -> 0 < dlevel t -> handle_conflict d t c = Ok (an, d1) ->
  createClause (an_learnt an) (N.of_nat (an_lbd an)) false d1 = Ok (c', d') ->
  exists t', tpropagate (hd 0 (an_learnt an)) c' (backtrack (an_level an) t) = Ok (true, t').
Proof.
  intros HA Hd Hh Hc. destruct (learnt_asserting _ _ _ _ _ _ HA Hd Hh) as (x & r & E & W & F & Lx & Lr & Hlt & _ & _ & V & _).
  destruct (areach_inv _ _ _ _ HA) as [HP HI]. pose proof (preach_SState _ _ _ _ HP) as HS. simpl in HS.
  pose proof (pi_TI _ _ _ (sb_P _ _ _ (sc_B _ _ _ _ HS))) as HT.
  rewrite E. cbn [hd]. exists (tpush x (Some c') (backtrack (an_level an) t)). apply tpropagate_push; [|congruence].
  apply (TI_room _ x); auto; [apply TI_backtrack; auto|]. destruct (backtrack_fields (an_level an) t Hlt) as (_ & _ & En & _). rewrite En. apply W. simpl; auto.
Qed.

(** ** analyzeFinal *)
Section Final.
Variables (d : db) (t : trail_t) (H : lit -> Prop).
Hypothesis HT : TI t.
Hypothesis HTRe : TRe (arena d) t.
Hypothesis HRD : RD d t.

Lemma below_lim0 i q : 0 < dlevel t -> nth_error (tr t) i = Some q -> i < nth 0 (lim t) 0 -> level t (lvar q) = 0.
Proof. intros Hd Hi Hlt. pose proof (level_before t 0 i q HT Hd Hi Hlt). lia. Qed.

Lemma af_loop_spec k : 0 < dlevel t -> forall st acc, k <= length (tr t) ->
  exists new, af_loop d t k st acc = acc ++ new /\
    (forall l, In l new -> In (lneg l) (tr t) /\ reason t (lvar l) = None /\ exists i, nth 0 (lim t) 0 <= i /\ nth_error (tr t) i = Some (lneg l)) /\
    (UPclosed d H -> (forall q, In q (tr t) -> level t (lvar q) = 0 -> H q) -> (forall l, In l new -> H (lneg l)) ->
      forall i q, i < k -> nth_error (tr t) i = Some q -> st (lvar q) = true -> H q).
Proof.
  intros Hd. induction k as [|i IH]; intros st acc Hk; cbn [af_loop].
  - exists []. rewrite app_nil_r. split; auto. split; [intros l []|]. intros; lia.
  - destruct (Nat.ltb_spec i (nth 0 (lim t) 0)) as [Hlt|Hge].
    { exists []. rewrite app_nil_r. split; auto. split; [intros l []|]. intros _ H0 _ j q Hj Hq _. apply H0; [eapply nth_error_In; eauto|].
      apply (below_lim0 j); auto. lia. }
    assert (Hi : nth_error (tr t) i = Some (nth i (tr t) 0)) by (apply nth_error_nth'; lia).
    set (l := nth i (tr t) 0) in *.
    assert (Hne : forall j q, j < i -> nth_error (tr t) j = Some q -> lvar q <> lvar l).
    { intros j q Hj Hq E. pose proof (tr_nth_inj t _ _ _ _ HT Hq Hi E). lia. }
    assert (Hji : forall j q, j < S i -> nth_error (tr t) j = Some q -> j < i \/ q = l).
    { intros j q Hj Hq. destruct (Nat.eq_dec j i) as [->|]; [right; congruence|left; lia]. }
    destruct (st (lvar l)) eqn:Es.
    + destruct (reason t (lvar l)) as [c|] eqn:Er.
      * set (st' := fold_left _ (clits d c) st).
        assert (Hst' : forall v, st' v = true <-> st v = true \/ exists m, In m (clits d c) /\ lvar m = v /\ 0 < level t (lvar m)).
        { unfold st'. clear. revert st. generalize (clits d c) as ls. induction ls as [|m r IH]; intros st v; simpl.
          - split; auto. intros [|(m & [] & _)]; auto.
          - rewrite IH. destruct (Nat.ltb_spec 0 (level t (lvar m))) as [Hm|Hm]; [rewrite vadd_true|]; split.
            + intros [[->|]|(x & X1 & X2 & X3)]; auto; right; [exists m|exists x]; auto.
            + intros [|(x & [<-|X1] & X2 & X3)]; auto. right. exists x. auto.
            + intros [|(x & X1 & X2 & X3)]; auto. right. exists x. auto.
            + intros [|(x & [<-|X1] & X2 & X3)]; auto; [lia|]. right. exists x. auto. }
        destruct (IH (vdel (lvar l) st') acc ltac:(lia)) as (new & E1 & E2 & E3). exists new. split; auto. split; auto.
        intros HU H0 Hnew.
        assert (Hl : H l).
        { destruct (HTRe i l c Hi Er) as [R1 R2]. apply (HU c l); auto; [apply (HRD l c (nth_error_In _ _ Hi) Er)|]. intros m Hm Hn.
          destruct (R2 m Hm Hn) as (j & Hj & Ej). destruct (Nat.eq_dec (level t (lvar m)) 0) as [E0|E0].
          - apply H0; [eapply nth_error_In; eauto|]. rewrite lvar_neg. auto.
          - apply (E3 HU H0 Hnew j _ Hj Ej). apply vdel_true. split; [apply (Hne j); auto|]. apply Hst'. right. exists m. rewrite lvar_neg. split; auto. split; auto. lia. }
        intros j q Hj Hq Hs. destruct (Hji j q Hj Hq) as [Hlt| ->]; auto. apply (E3 HU H0 Hnew j q Hlt Hq). apply vdel_true. split; [apply (Hne j); auto|].
        apply Hst'. auto.
      * destruct (IH (vdel (lvar l) st) (acc ++ [lneg l]) ltac:(lia)) as (new & E1 & E2 & E3). exists (lneg l :: new).
        rewrite <- app_assoc in E1. split; auto. split.
        { intros m [<-|Hm]; auto. rewrite lneg_invol, lvar_neg. split; [eapply nth_error_In; eauto|]. split; auto. exists i. auto. }
        intros HU H0 Hnew j q Hj Hq Hs. destruct (Hji j q Hj Hq) as [Hlt| ->].
        -- apply (E3 HU H0 (fun x Hx => Hnew x (or_intror Hx)) j q Hlt Hq). apply vdel_true. split; auto. apply (Hne j); auto.
        -- rewrite <- (lneg_invol l). apply Hnew. simpl; auto.
    + destruct (IH st acc ltac:(lia)) as (new & E1 & E2 & E3). exists new. split; auto. split; auto.
      intros HU H0 Hnew j q Hj Hq Hs. destruct (Hji j q Hj Hq) as [Hlt| ->]; [eapply E3; eauto|congruence].
Qed.

Lemma analyzeFinal_spec p : In p (tr t) ->
  exists new, analyzeFinal d t p = p :: new /\
    (forall l, In l new -> In (lneg l) (tr t) /\ reason t (lvar l) = None /\ exists i, nth 0 (lim t) 0 <= i /\ nth_error (tr t) i = Some (lneg l)) /\
    (UPclosed d H -> (forall q, In q (tr t) -> level t (lvar q) = 0 -> H q) -> (forall l, In l new -> H (lneg l)) -> H p).
Proof.
  intros Hp. unfold analyzeFinal. destruct (Nat.ltb_spec 0 (dlevel t)) as [Hd|Hd].
  - destruct (af_loop_spec (length (tr t)) Hd (vadd (lvar p) vempty) [p] ltac:(lia)) as (new & E1 & E2 & E3).
    exists new. split; auto. split; auto. intros HU H0 Hn. apply In_nth_error in Hp. destruct Hp as (i & Hi).
    apply (E3 HU H0 Hn i p); auto; [eapply nth_error_lt; eauto|]. apply vadd_true. auto.
  - exists []. split; auto. split; [intros l []|]. intros _ H0 _. apply H0; auto. pose proof (level_le_dlevel t p HT Hp). lia.
Qed.
End Final.

Lemma final_core d w t p : areach d w t None -> value t p = Some true ->
  entails (db_formula d) (analyzeFinal d t p) /\
  exists new, analyzeFinal d t p = p :: new /\
    forall l, In l new -> value t l = Some false /\ reason t (lvar l) = None /\ 0 < level t (lvar l).
Proof.
  intros HA Hp. destruct (areach_inv _ _ _ _ HA) as [HP HI]. pose proof (preach_SState _ _ _ _ HP) as HS. simpl in HS.
  pose proof (si_B _ _ _ HS) as HB. pose proof (sb_P _ _ _ HB) as HPI. pose proof (pi_TI _ _ _ HPI) as HT.
  apply (ti_val t HT) in Hp. split.
  - intros a Ha. pose proof (sat_cls a d Ha) as Hc.
    destruct (analyzeFinal_spec d t (lit_holds a) HT (pi_TRe _ _ _ HPI) (sb_RD _ _ _ HB) p Hp) as (new & E1 & E2 & E3).
    rewrite E1. destruct (all_false_or a new) as [(m & M1 & M2)|Hall]; [exists m; simpl; auto|]. exists p. split; [simpl; auto|].
    apply E3; auto; [apply UPclosed_sat; auto|]. eapply level0_entailed; eauto.
  - destruct (analyzeFinal_spec d t (fun _ => True) HT (pi_TRe _ _ _ HPI) (sb_RD _ _ _ HB) p Hp) as (new & E1 & E2 & E3).
    exists new. split; auto. intros l Hl. destruct (E2 l Hl) as (L1 & L2 & i & L3 & L4). split; [apply (ti_val_false t l HT); auto|]. split; auto.
    destruct (Nat.eq_dec (level t (lvar l)) 0) as [E|]; [|lia]. exfalso.
    destruct (Nat.eq_dec (dlevel t) 0) as [Ed|Ed].
    { assert (En : new = []); [|subst; destruct Hl]. unfold analyzeFinal in E1. rewrite Ed in E1. simpl in E1. congruence. }
    assert (Hz : level t (lvar (lneg l)) <= 0) by (rewrite lvar_neg; lia).
    pose proof (lim_ge_level t 0 i (lneg l) HT ltac:(lia) L4 Hz). lia.
Qed.
