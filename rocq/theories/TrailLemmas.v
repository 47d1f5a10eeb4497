Require Import List Arith Bool Lia Permutation.
Require Import Verif.Base Verif.CNFModel Verif.CNFProofs Verif.HeapProofs Verif.Outcome Verif.TrailModel Verif.TrailSpec Verif.TrailProofs.
Import ListNotations.

Lemma resize_length {A} n (x : A) l : length l <= n -> length (resize n x l) = n.
Proof. intros H. unfold resize. rewrite app_length, firstn_length, repeat_length. lia. Qed.
Lemma resize_nth {A} n (x : A) l i : length l <= n -> nth i (resize n x l) x = nth i l x.
Proof.
  intros H. unfold resize. rewrite firstn_all2 by auto. destruct (Nat.lt_ge_cases i (length l)).
  - apply app_nth1; auto.
  - rewrite app_nth2 by auto. rewrite (nth_overflow l) by auto. apply nth_repeat.
Qed.

Lemma value_init n t l : length (asg t) = nvt t -> value (trail_init n t) l = value t l.
Proof.
  intros H. unfold trail_init. destruct (Nat.ltb_spec (nvt t) n); auto. unfold value, vvalue; cbn [asg].
  rewrite resize_nth by lia. auto.
Qed.
Lemma level_init n t v : length (vd t) = nvt t -> level (trail_init n t) v = level t v.
Proof.
  intros H. unfold trail_init. destruct (Nat.ltb_spec (nvt t) n); auto. unfold level; cbn [vd].
  rewrite resize_nth by lia. auto.
Qed.
Lemma reason_init n t v : length (vd t) = nvt t -> reason (trail_init n t) v = reason t v.
Proof.
  intros H. unfold trail_init. destruct (Nat.ltb_spec (nvt t) n); auto. unfold reason; cbn [vd].
  rewrite resize_nth by lia. auto.
Qed.
Lemma init_fields n t : tr (trail_init n t) = tr t /\ lim (trail_init n t) = lim t /\ qh (trail_init n t) = qh t /\
  assum (trail_init n t) = assum t /\ nvt (trail_init n t) = max n (nvt t).
Proof. unfold trail_init. destruct (Nat.ltb_spec (nvt t) n); cbn; repeat split; auto; lia. Qed.

Lemma TI_init n t : TI t -> TI (trail_init n t).
Proof.
  intros H. destruct (init_fields n t) as (E1 & E2 & E3 & E4 & E5). constructor; rewrite ?E1, ?E2, ?E3, ?E5.
  - apply H.
  - intros l Hl. pose proof (ti_range t H l Hl). lia.
  - unfold trail_init. destruct (Nat.ltb_spec (nvt t) n); cbn [asg].
    + rewrite resize_length; [lia|]. rewrite (ti_asg t H). lia.
    + rewrite (ti_asg t H). lia.
  - unfold trail_init. destruct (Nat.ltb_spec (nvt t) n); cbn [vd].
    + rewrite resize_length; [lia|]. rewrite (ti_vd t H). lia.
    + rewrite (ti_vd t H). lia.
  - intros l. rewrite value_init by apply H. apply H.
  - apply H.
  - apply H.
  - intros i l Hl. rewrite level_init by apply H. apply H; auto.
  - apply (ti_qh t H).
Qed.

Lemma TI_new : TI trail_new.
Proof.
  constructor; cbn; auto; try lia; try tauto.
  - constructor.
  - intros l. split; [|tauto]. unfold value, vvalue, trail_new; cbn. destruct (lvar l); discriminate.
  - intros [|i]; discriminate.
Qed.

Lemma fact_push l t : TI t -> lvar l < nvt t -> dlevel t = 0 -> value t l = None ->
  fact l t = Ok (true, tpush l None t).
Proof.
  intros H Hl Hd Hv. unfold fact. rewrite Hv. cbn [is_false].
  assert (E : value (set_vd (lvar l) (None, 0) t) l = None) by exact Hv.
  rewrite E. cbn [is_true]. unfold set_value. cbn [set_vd tr nvt].
  pose proof (TI_room t l H Hv Hl) as Hr. apply Nat.ltb_lt in Hr. rewrite Hr. cbn [bind].
  unfold tpush. rewrite Hd. reflexivity.
Qed.

(** a fact that is true already keeps everything but the reason *)
Lemma fact_true l t : value t l = Some true -> fact l t = Ok (true, set_vd (lvar l) (None, 0) t).
Proof.
  intros Hv. unfold fact. rewrite Hv. cbn [is_false].
  assert (E : value (set_vd (lvar l) (None, 0) t) l = Some true) by exact Hv. rewrite E. reflexivity.
Qed.
Lemma fact_false l t : value t l = Some false -> fact l t = Ok (false, t).
Proof. intros Hv. unfold fact. rewrite Hv. reflexivity. Qed.

Lemma lev_at_nil i : lev_at [] i = 0. Proof. reflexivity. Qed.

Lemma dlevel0_level t i l : TI t -> dlevel t = 0 -> nth_error (tr t) i = Some l -> level t (lvar l) = 0.
Proof.
  intros H Hd Hl. rewrite (ti_lev t H i l Hl). unfold dlevel in Hd. destruct (lim t); [auto|discriminate].
Qed.

Lemma TI_set_vd_fact l t : TI t -> dlevel t = 0 -> lvar l < nvt t -> TI (set_vd (lvar l) (None, 0) t).
Proof.
  intros H Hd Hl. constructor; cbn [set_vd nvt asg vd tr qh lim]; try solve [apply H].
  - rewrite set_nth_length. apply H.
  - intros i m Hm. unfold level; cbn [set_vd vd]. rewrite nth_set_nth.
    destruct ((lvar m =? lvar l) && (lvar l <? length (vd t))).
    + unfold dlevel in Hd. destruct (lim t); [auto|discriminate].
    + apply H; auto.
  - apply (ti_qh t H).
Qed.

Lemma exec_TI o t : TI t -> trail_legal o t -> exists t', trail_exec o t = Ok t' /\ TI t'.
Proof.
  intros H HL. destruct o as [n| |l|l c|l|k|]; cbn [trail_exec trail_legal] in *.
  - eexists; split; [reflexivity|]. apply TI_init; auto.
  - eexists; split; [reflexivity|]. apply TI_newlevel; auto.
  - destruct HL as [Hl Hv]. exists (tpush l None t). split; [apply decide_push; eapply TI_room; eauto|apply TI_push; auto].
  - destruct HL as [Hl Hv]. destruct (value t l) as [[|]|] eqn:E; try congruence.
    + unfold tpropagate. rewrite E. simpl. eauto.
    + exists (tpush l (Some c) t). split; [|apply TI_push; auto].
      rewrite tpropagate_push; [reflexivity|eapply TI_room; eauto|congruence].
  - destruct HL as [Hl Hd]. destruct (value t l) as [[|]|] eqn:E.
    + rewrite fact_true by auto. cbn. eexists; split; [reflexivity|]. apply TI_set_vd_fact; auto.
    + rewrite fact_false by auto. cbn. eauto.
    + rewrite fact_push by auto. cbn. eexists; split; [reflexivity|]. apply TI_push; auto.
  - eexists; split; [reflexivity|]. apply TI_backtrack; auto.
  - eexists; split; [reflexivity|]. apply TI_reset; apply H.
Qed.

Lemma reach_TI t : trail_reach t -> TI t.
Proof.
  induction 1 as [|t o t' _ IH HL HE]; [apply TI_new|].
  destruct (exec_TI o t IH HL) as (t2 & E & HT). rewrite HE in E. inversion E; subst; auto.
Qed.

Lemma reach_nodup t : trail_reach t -> NoDup (map lvar (tr t)) /\ length (tr t) <= nvt t.
Proof. intros H. apply reach_TI in H. split; [apply H|apply TI_length; auto]. Qed.

Lemma reach_values t : trail_reach t -> forall l,
  (value t l = Some true <-> In l (tr t)) /\
  (value t l = Some false <-> In (lneg l) (tr t)) /\
  (value t l = None <-> ~ In (lvar l) (map lvar (tr t))).
Proof.
  intros H l. apply reach_TI in H. split; [apply H|]. split; [apply ti_val_false; auto|].
  split; [apply value_none_notin; auto|apply notin_value_none; auto].
Qed.

Lemma filter_length_le' {A} (f : A -> bool) l : length (filter f l) <= length l.
Proof. induction l as [|x l IH]; simpl; auto. destruct (f x); simpl; lia. Qed.

Lemma reach_levels t : trail_reach t -> forall i l, nth_error (tr t) i = Some l ->
  level t (lvar l) = length (filter (fun start => start <=? i) (lim t)) /\ level t (lvar l) <= dlevel t.
Proof.
  intros H i l Hl. apply reach_TI in H. rewrite (ti_lev t H i l Hl). split; [reflexivity|].
  unfold lev_at, dlevel. apply filter_length_le'.
Qed.

Lemma reach_defined t o : trail_reach t -> trail_legal o t -> exists t', trail_exec o t = Ok t'.
Proof. intros H HL. apply reach_TI in H. destruct (exec_TI o t H HL) as (t' & E & _); eauto. Qed.

(** *** exact restore *)
(** [ext t0 t]: t extends t0 by literals of levels opened after t0 *)
Record ext (t0 t : trail_t) : Prop := {
  ext_tr : exists r, tr t = tr t0 ++ r;
  ext_lim : exists s, lim t = lim t0 ++ length (tr t0) :: s;
  ext_vd : forall l, In l (tr t0) -> level t (lvar l) = level t0 (lvar l) /\ reason t (lvar l) = reason t0 (lvar l) }.

Lemma value_eq_of_tr t t' : TI t -> TI t' -> tr t = tr t' -> forall l, value t l = value t' l.
Proof.
  intros H H' E l. destruct (value t l) as [[|]|] eqn:V.
  - symmetry. apply (ti_val t' H'). rewrite <- E. apply (ti_val t H); auto.
  - symmetry. apply (ti_val_false t' l H'). rewrite <- E. apply (ti_val_false t l H); auto.
  - symmetry. apply notin_value_none; auto. rewrite <- E. apply value_none_notin; auto.
Qed.

Lemma ext_push t0 t l r : TI t -> value t l = None -> lvar l < nvt t -> ext t0 t -> ext t0 (tpush l r t).
Proof.
  intros H Hv Hl [(q & E1) (s & E2) E3]. constructor.
  - exists (q ++ [l]). cbn [tpush tr]. rewrite E1, app_assoc. auto.
  - exists s. exact E2.
  - intros m Hm. rewrite level_push, reason_push by (rewrite (ti_vd t H); auto).
    destruct (Nat.eqb_spec (lvar m) (lvar l)) as [E|E]; [|apply E3; auto].
    exfalso. apply (value_none_notin t l H Hv). rewrite <- E. apply in_map. rewrite E1. apply in_or_app; auto.
Qed.

Lemma ext_exec t0 t o t' : TI t -> ext t0 t -> trail_legal o t -> trail_exec o t = Ok t' ->
  dlevel t0 < dlevel t' -> ext t0 t'.
Proof.
  intros H HE HL HX HD. destruct o as [n| |l|l c|l|k|]; cbn [trail_exec trail_legal] in *.
  - inversion HX; subst. destruct (init_fields n t) as (E1 & E2 & _). destruct HE as [E3 E4 E5]. constructor.
    + rewrite E1; auto.
    + rewrite E2; auto.
    + intros m Hm. rewrite level_init, reason_init by apply H. auto.
  - inversion HX; subst. destruct HE as [E3 (s & E4) E5]. constructor; auto.
    exists (s ++ [length (tr t)]). cbn [newDecisionLevel lim]. rewrite E4, <- app_assoc. reflexivity.
  - destruct HL as [Hl Hv]. rewrite decide_push in HX by (eapply TI_room; eauto). inversion HX; subst. apply ext_push; auto.
  - destruct HL as [Hl Hv]. destruct (value t l) as [[|]|] eqn:E; try congruence.
    + unfold tpropagate in HX. rewrite E in HX. simpl in HX. inversion HX; subst; auto.
    + rewrite tpropagate_push in HX; [|eapply TI_room; eauto|congruence]. cbn in HX. inversion HX; subst. apply ext_push; auto.
  - destruct HL as [Hl Hd]. destruct HE as [_ (s & E) _]. unfold dlevel in Hd. rewrite E, app_length in Hd. simpl in Hd. lia.
  - inversion HX; subst. destruct (Nat.lt_ge_cases k (dlevel t)) as [Hk|Hk].
    2:{ unfold backtrack. destruct (Nat.ltb_spec k (dlevel t)); [lia|auto]. }
    destruct (backtrack_fields k t Hk) as (F1 & F2 & F3 & F4 & F5 & F6 & F7).
    destruct HE as [(q & E1) (s & E2) E3].
    assert (Hk0 : dlevel t0 < k).
    { unfold dlevel in *. rewrite F2, firstn_length in HD. lia. }
    assert (Hge : length (tr t0) <= nth k (lim t) 0).
    { assert (Hx : nth (dlevel t0) (lim t) 0 = length (tr t0)).
      { rewrite E2. unfold dlevel. rewrite app_nth2, Nat.sub_diag by lia. reflexivity. }
      rewrite <- Hx. apply (ti_sorted t H); [lia|]. exact Hk. }
    constructor.
    + rewrite F1, E1, firstn_app, firstn_all2 by lia. eauto.
    + rewrite F2, E2. rewrite firstn_app, firstn_all2 by (unfold dlevel in *; lia).
      destruct (k - length (lim t0)) as [|j] eqn:Ej; [unfold dlevel in *; lia|]. simpl. eauto.
    + intros m Hm. unfold level, reason in *. rewrite F4. auto.
  - inversion HX; subst. cbn in HD. lia.
Qed.

Lemma within_ext t0 t2 k : trail_reach t0 -> k = dlevel t0 -> within k (newDecisionLevel t0) t2 ->
  TI t2 /\ ext t0 t2 /\ k < dlevel t2.
Proof.
  intros H0 Hk HW. apply reach_TI in H0. remember (newDecisionLevel t0) as t1 eqn:E1.
  induction HW as [t Ht|t ta o t' HW IH HL HX Hd]; subst.
  - split; [apply TI_newlevel; auto|]. split; auto. constructor.
    + exists []. rewrite app_nil_r. reflexivity.
    + exists []. reflexivity.
    + intros; auto.
  - destruct (IH eq_refl) as (A & B & C). destruct (exec_TI o ta A HL) as (tb & Eb & Tb).
    rewrite HX in Eb. inversion Eb; subst tb. split; [exact Tb|]. split; [|exact Hd]. exact (ext_exec t0 ta o t' A B HL HX Hd).
Qed.

Lemma reach_restore t0 t2 : trail_reach t0 ->
  within (dlevel t0) (newDecisionLevel t0) t2 ->
  let t3 := backtrack (dlevel t0) t2 in
  tr t3 = tr t0 /\ lim t3 = lim t0 /\ (forall l, value t3 l = value t0 l) /\
  (forall l, In l (tr t0) -> level t3 (lvar l) = level t0 (lvar l) /\ reason t3 (lvar l) = reason t0 (lvar l)).
Proof.
  intros H0 HW t3. destruct (within_ext t0 t2 _ H0 eq_refl HW) as (HT & [(q & E1) (s & E2) E3] & Hd).
  destruct (backtrack_fields _ _ Hd) as (F1 & F2 & F3 & F4 & F5 & F6 & F7).
  assert (Hx : nth (dlevel t0) (lim t2) 0 = length (tr t0)).
  { rewrite E2. unfold dlevel. rewrite app_nth2, Nat.sub_diag by lia. reflexivity. }
  assert (G1 : tr t3 = tr t0).
  { unfold t3. rewrite F1, Hx, E1, firstn_app, firstn_all, Nat.sub_diag. simpl. apply app_nil_r. }
  split; auto. split.
  { unfold t3. rewrite F2, E2. unfold dlevel. rewrite firstn_app, firstn_all, Nat.sub_diag. simpl. apply app_nil_r. }
  split.
  - apply value_eq_of_tr; auto; [apply TI_backtrack; auto|apply reach_TI; auto].
  - intros l Hl. unfold level, reason, t3. rewrite F4. apply E3; auto.
Qed.

Lemma propagate_twice : exists t l, trail_reach t /\ lvar l < nvt t /\ dlevel t = 0 /\
  exists t', trail_exec (OpPropagate l 0) t = Ok t' /\ ~ NoDup (map lvar (tr t')).
Proof.
  eexists. exists 0. split.
  - eapply tr_step with (o := OpFact 0). eapply tr_step with (o := OpInit 2). apply tr_new.
    all: try (vm_compute; reflexivity); vm_compute; auto.
  - split; [vm_compute; auto|]. split; [reflexivity|]. eexists. split; [vm_compute; reflexivity|].
    vm_compute. intros H. inversion H; subst. apply H2. simpl; auto.
Qed.

(** *** C18 *)
Lemma lbd_loop_spec t ls : forall (s : vset) seen n,
  (forall k, s k = true <-> In k seen) -> NoDup seen ->
  lbd_loop t ls s n = n + length (nodup Nat.eq_dec (filter (fun k => negb (s k)) (map (fun l => level t (lvar l)) ls))).
Proof.
  induction ls as [|l r IH]; intros s seen n Hs Hn; simpl; [lia|].
  destruct (s (level t (lvar l))) eqn:E; simpl.
  - apply IH with (seen := seen); auto.
  - rewrite (IH (vadd (level t (lvar l)) s) (level t (lvar l) :: seen) (S n)).
    + set (k := level t (lvar l)) in *. set (ks := map (fun l0 => level t (lvar l0)) r).
      assert (HH : forall xs, length (nodup Nat.eq_dec (k :: filter (fun x => negb (s x)) xs)) =
                 S (length (nodup Nat.eq_dec (filter (fun x => negb (vadd k s x)) xs)))).
      { intros xs.
        assert (P : Permutation (nodup Nat.eq_dec (k :: filter (fun x => negb (s x)) xs))
                     (k :: nodup Nat.eq_dec (filter (fun x => negb (vadd k s x)) xs))).
        { apply NoDup_Permutation.
          - apply NoDup_nodup.
          - constructor; [|apply NoDup_nodup]. rewrite nodup_In, filter_In. unfold vadd. rewrite Nat.eqb_refl.
            simpl. intros [_ ?]; discriminate.
          - intros x. rewrite nodup_In. simpl. rewrite nodup_In, !filter_In. unfold vadd.
            destruct (Nat.eqb_spec x k) as [->|Hx]; [tauto|]. tauto. }
        apply Permutation_length in P. exact P. }
      specialize (HH ks). simpl in HH. rewrite HH. unfold ks. lia.
    + intros k. unfold vadd. simpl. destruct (Nat.eqb_spec k (level t (lvar l))) as [->|Hk]; [tauto|].
      rewrite Hs. split; auto. intros [|]; auto; congruence.
    + constructor; auto. rewrite <- Hs. congruence.
Qed.

Lemma computeLBD_spec t ls :
  computeLBD t ls = length (nodup Nat.eq_dec (map (fun l => level t (lvar l)) ls)).
Proof.
  unfold computeLBD. rewrite (lbd_loop_spec t ls vempty [] 0).
  - simpl. f_equal. f_equal. induction (map (fun l => level t (lvar l)) ls); simpl; congruence.
  - intros k. unfold vempty. simpl. split; [discriminate|tauto].
  - constructor.
Qed.

Lemma lbd_out_of_bounds : exists t l, trail_reach t /\ In l (tr t) /\ nvt t < level t (lvar l).
Proof.
  eexists. exists 2. split.
  - eapply tr_step with (o := OpDecide 2). eapply tr_step with (o := OpNewLevel). eapply tr_step with (o := OpNewLevel).
    eapply tr_step with (o := OpNewLevel).
    eapply tr_step with (o := OpInit 2). apply tr_new.
    all: try (vm_compute; reflexivity); vm_compute; auto.
  - split; [vm_compute; auto|]. vm_compute. auto.
Qed.

Lemma lbd_in_bounds t : trail_reach t ->
  (forall k, 0 < k <= dlevel t -> exists l, In l (tr t) /\ level t (lvar l) = k) ->
  (exists l m, In l (tr t) /\ In m (tr t) /\ l <> m /\ level t (lvar l) = dlevel t /\ level t (lvar m) = dlevel t) ->
  forall l, In l (tr t) -> level t (lvar l) < nvt t.
Proof.
  intros H HK (x & y & Hx & Hy & Hxy & Lx & Ly) l Hl.
  assert (Hle : level t (lvar l) <= dlevel t).
  { apply In_nth_error in Hl. destruct Hl as (i & Hi). apply (reach_levels t H i l Hi). }
  apply reach_TI in H. pose proof (TI_length t H) as Hlen.
  apply in_split in Hy. destruct Hy as (a & b & E).
  assert (Hn : dlevel t <= length (a ++ b)).
  { rewrite <- (map_length (fun l => level t (lvar l)) (a ++ b)).
    rewrite <- (seq_length (dlevel t) 1). apply NoDup_incl_length; [apply seq_NoDup|].
    intros k Hk. apply in_seq in Hk. apply in_map_iff.
    destruct (Nat.eq_dec k (dlevel t)) as [->|Hne].
    - exists x. split; auto. rewrite E in Hx. apply in_app_or in Hx. apply in_or_app.
      destruct Hx as [Hx|[Hx|Hx]]; auto; congruence.
    - destruct (HK k) as (m & Hm & Em); [lia|]. exists m. split; auto.
      rewrite E in Hm. apply in_app_or in Hm. apply in_or_app.
      destruct Hm as [Hm|[Hm|Hm]]; auto. exfalso. congruence. }
  rewrite E, app_length in Hlen. rewrite app_length in Hn. simpl in Hlen. lia.
Qed.
