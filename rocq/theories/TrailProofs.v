Require Import List Arith Bool Lia Permutation.
Require Import Verif.Base Verif.CNFModel Verif.CNFProofs Verif.HeapProofs Verif.Outcome Verif.TrailModel.
Import ListNotations.

(** ** Lists *)
Lemma nth_error_nth_iff {A} (l : list A) i x d : i < length l -> (nth i l d = x <-> nth_error l i = Some x).
Proof.
  intros H. split; intros E.
  - rewrite <- E. apply nth_error_nth'; auto.
  - apply nth_error_nth; auto.
Qed.

Lemma nth_set_nth {A} (l : list A) n i x d :
  nth i (set_nth n x l) d = if (i =? n) && (n <? length l) then x else nth i l d.
Proof.
  destruct (Nat.lt_ge_cases i (length l)) as [H|H].
  - apply nth_error_nth_iff; [rewrite set_nth_length; auto|]. rewrite set_nth_nth.
    destruct ((i =? n) && (n <? length l)); auto. apply nth_error_nth'; auto.
  - rewrite !nth_overflow by (rewrite ?set_nth_length; auto).
    destruct (Nat.eqb_spec i n); auto. subst. destruct (Nat.ltb_spec n (length l)); auto; lia.
Qed.

Lemma nth_set_nth_same {A} (l : list A) n x d : n < length l -> nth n (set_nth n x l) d = x.
Proof. intros H. rewrite nth_set_nth, Nat.eqb_refl. apply Nat.ltb_lt in H. rewrite H. reflexivity. Qed.
Lemma nth_set_nth_other {A} (l : list A) n i x d : i <> n -> nth i (set_nth n x l) d = nth i l d.
Proof. intros H. rewrite nth_set_nth. apply Nat.eqb_neq in H. rewrite H. reflexivity. Qed.

Lemma NoDup_app_l {A} (l m : list A) : NoDup (l ++ m) -> NoDup l.
Proof.
  induction l as [|x l IH]; simpl; intros H; constructor; inversion H; subst; auto.
  intros Hi. match goal with h : ~ In _ _ |- _ => apply h end. apply in_or_app; auto.
Qed.

Lemma nodup_bounded_length (l : list nat) n : NoDup l -> (forall x, In x l -> x < n) -> length l <= n.
Proof.
  intros Hd Hb. rewrite <- (seq_length n 0). apply NoDup_incl_length; auto.
  intros x Hx. apply in_seq. split; [lia|]. simpl. auto.
Qed.

(** ** Values *)
Lemma value_neg t l : value t (lneg l) = option_map negb (value t l).
Proof.
  unfold value. rewrite lvar_neg, lsign_neg. destruct (vvalue t (lvar l)) as [b|]; simpl; auto.
  f_equal. destruct b, (lsign l); reflexivity.
Qed.
Lemma value_neg_true t l : value t (lneg l) = Some true <-> value t l = Some false.
Proof. rewrite value_neg. destruct (value t l) as [[|]|]; simpl; split; congruence. Qed.
Lemma value_neg_false t l : value t (lneg l) = Some false <-> value t l = Some true.
Proof. rewrite value_neg. destruct (value t l) as [[|]|]; simpl; split; congruence. Qed.
Lemma is_true_iff o : is_true o = true <-> o = Some true.
Proof. destruct o as [[|]|]; simpl; split; congruence. Qed.
Lemma is_false_iff o : is_false o = true <-> o = Some false.
Proof. destruct o as [[|]|]; simpl; split; congruence. Qed.

(** ** The trail invariant *)
(** number of decision levels begun at or before trail position [i] *)
Definition lev_at (lims : list nat) (i : nat) : nat := length (filter (fun k => k <=? i) lims).

Record TI (t : trail_t) : Prop := {
  ti_nodup : NoDup (map lvar (tr t));
  ti_range : forall l, In l (tr t) -> lvar l < nvt t;
  ti_asg : length (asg t) = nvt t;
  ti_vd : length (vd t) = nvt t;
  ti_val : forall l, value t l = Some true <-> In l (tr t);
  ti_sorted : forall i j, i <= j -> j < length (lim t) -> nth i (lim t) 0 <= nth j (lim t) 0;
  ti_bound : forall k, In k (lim t) -> k <= length (tr t);
  ti_lev : forall i l, nth_error (tr t) i = Some l -> level t (lvar l) = lev_at (lim t) i;
  ti_qh : qh t <= length (tr t) }.

Lemma ti_val_false t l : TI t -> (value t l = Some false <-> In (lneg l) (tr t)).
Proof. intros H. rewrite <- (ti_val t H), value_neg_true. tauto. Qed.

Lemma value_none_notin t l : TI t -> value t l = None -> ~ In (lvar l) (map lvar (tr t)).
Proof.
  intros H Hv Hi. apply in_map_iff in Hi. destruct Hi as (m & Em & Hm).
  destruct (same_var _ _ Em) as [->| ->]; apply (ti_val t H) in Hm.
  - congruence.
  - rewrite value_neg in Hm. rewrite Hv in Hm. discriminate.
Qed.

Lemma notin_value_none t l : TI t -> ~ In (lvar l) (map lvar (tr t)) -> value t l = None.
Proof.
  intros H Hi. destruct (value t l) as [[|]|] eqn:E; auto; exfalso; apply Hi.
  - apply (ti_val t H) in E. apply in_map; auto.
  - apply ti_val_false in E; auto. rewrite <- lvar_neg. apply in_map; auto.
Qed.

Lemma TI_length t : TI t -> length (tr t) <= nvt t.
Proof.
  intros H. rewrite <- (map_length lvar). apply nodup_bounded_length; [apply H|].
  intros x Hx. apply in_map_iff in Hx. destruct Hx as (l & <- & Hl). apply H; auto.
Qed.

Lemma TI_room t l : TI t -> value t l = None -> lvar l < nvt t -> length (tr t) < nvt t.
Proof.
  intros H Hv Hl. pose proof (value_none_notin t l H Hv) as Hn.
  assert (HH : length (map lvar (l :: tr t)) <= nvt t).
  { apply nodup_bounded_length.
    - simpl. constructor; auto. apply H.
    - intros x [<-|Hx]; auto. apply in_map_iff in Hx. destruct Hx as (m & <- & Hm). apply H; auto. }
  simpl in HH. rewrite map_length in HH. lia.
Qed.

(** ** Pushing a literal *)
Definition tpush (l : lit) (r : option cid) (t : trail_t) : trail_t :=
  mkTrail (nvt t) (set_nth (lvar l) (Some (negb (lsign l))) (asg t))
          (set_nth (lvar l) (r, dlevel t) (vd t)) (tr t ++ [l]) (qh t) (lim t) (dec t) (assum t).

Lemma decide_push l t : length (tr t) < nvt t -> decide l t = Ok (tpush l None t).
Proof. intros H. unfold decide, set_value. apply Nat.ltb_lt in H. rewrite H. reflexivity. Qed.

Lemma tpropagate_push l c t : length (tr t) < nvt t -> value t l <> Some false ->
  tpropagate l c t = Ok (true, tpush l (Some c) t).
Proof.
  intros H Hv. unfold tpropagate, set_value. apply Nat.ltb_lt in H. rewrite H.
  destruct (is_false (value t l)) eqn:E; [apply is_false_iff in E; congruence|]. reflexivity.
Qed.

Lemma value_push l r t m : lvar l < length (asg t) ->
  value (tpush l r t) m = if lvar m =? lvar l then Some (Bool.eqb (lsign m) (lsign l)) else value t m.
Proof.
  intros H. unfold value, vvalue, tpush; cbn [asg]. rewrite nth_set_nth. apply Nat.ltb_lt in H.
  rewrite H, andb_true_r. destruct (lvar m =? lvar l); auto. simpl. destruct (lsign m), (lsign l); reflexivity.
Qed.

Lemma value_push_self l r t : lvar l < length (asg t) -> value (tpush l r t) l = Some true.
Proof. intros H. rewrite value_push, Nat.eqb_refl by auto. rewrite eqb_reflx. reflexivity. Qed.

Lemma value_push_other l r t m b : lvar l < length (asg t) -> value t l = None ->
  value t m = Some b -> value (tpush l r t) m = Some b.
Proof.
  intros H Hl Hm. rewrite value_push by auto. destruct (Nat.eqb_spec (lvar m) (lvar l)) as [E|E]; auto.
  exfalso. destruct (same_var _ _ E) as [->| ->]; [congruence|]. rewrite value_neg, Hl in Hm. discriminate.
Qed.

Lemma level_push l r t v : lvar l < length (vd t) ->
  level (tpush l r t) v = if v =? lvar l then dlevel t else level t v.
Proof.
  intros H. unfold level, tpush; cbn [vd]. rewrite nth_set_nth. apply Nat.ltb_lt in H.
  rewrite H, andb_true_r. destruct (v =? lvar l); auto.
Qed.
Lemma reason_push l r t v : lvar l < length (vd t) ->
  reason (tpush l r t) v = if v =? lvar l then r else reason t v.
Proof.
  intros H. unfold reason, tpush; cbn [vd]. rewrite nth_set_nth. apply Nat.ltb_lt in H.
  rewrite H, andb_true_r. destruct (v =? lvar l); auto.
Qed.

Lemma lev_at_all lims n : (forall k, In k lims -> k <= n) -> lev_at lims n = length lims.
Proof.
  intros H. unfold lev_at. f_equal. induction lims as [|k r IH]; simpl; auto.
  rewrite (proj2 (Nat.leb_le _ _) (H k (or_introl eq_refl))), IH; auto. intros; apply H; simpl; auto.
Qed.

Lemma nth_error_snoc {A} (l : list A) x i y :
  nth_error (l ++ [x]) i = Some y <-> nth_error l i = Some y \/ (i = length l /\ y = x).
Proof.
  destruct (Nat.lt_trichotomy i (length l)) as [H|[->|H]].
  - rewrite nth_error_app1 by auto. split; auto. intros [|[? ?]]; auto; lia.
  - rewrite nth_error_app2, Nat.sub_diag by lia. simpl.
    rewrite (proj2 (nth_error_None l (length l))) by lia. split.
    + intros E; inversion E; auto.
    + intros [E|[_ ->]]; [discriminate|auto].
  - rewrite nth_error_app2 by lia. destruct (i - length l) as [|[|n]] eqn:E; try lia; simpl;
    rewrite (proj2 (nth_error_None l i)) by lia; split; try discriminate; intros [|[? ?]]; try discriminate; lia.
Qed.

Lemma tr_nth_inj t i j l m : TI t -> nth_error (tr t) i = Some l -> nth_error (tr t) j = Some m ->
  lvar l = lvar m -> i = j.
Proof.
  intros H Hi Hj E. assert (Hn := ti_nodup t H). eapply NoDup_nth_error in Hn.
  - apply Hn.
  - rewrite map_length. eapply nth_error_lt; eauto.
  - rewrite !nth_error_map, Hi, Hj. simpl. congruence.
Qed.

Lemma TI_push l r t : TI t -> value t l = None -> lvar l < nvt t -> TI (tpush l r t).
Proof.
  intros H Hv Hl. pose proof (value_none_notin t l H Hv) as Hn.
  assert (Ha : lvar l < length (asg t)) by (rewrite (ti_asg t H); auto).
  assert (Hvd : lvar l < length (vd t)) by (rewrite (ti_vd t H); auto).
  constructor.
  - cbn [tpush tr]. rewrite map_app. simpl.
    apply (Permutation_NoDup (l := lvar l :: map lvar (tr t))).
    + apply Permutation_cons_append.
    + constructor; auto. apply H.
  - cbn [tpush tr nvt]. intros m Hm. apply in_app_or in Hm. destruct Hm as [Hm|[<-|[]]]; auto. apply H; auto.
  - cbn [tpush asg nvt]. rewrite set_nth_length. apply H.
  - cbn [tpush vd nvt]. rewrite set_nth_length. apply H.
  - intros m. rewrite value_push by auto. cbn [tr tpush]. rewrite in_app_iff. simpl.
    destruct (Nat.eqb_spec (lvar m) (lvar l)) as [E|E].
    + split.
      * intros Hb. inversion Hb as [Hb']. apply eqb_prop in Hb'. right. left.
        rewrite (lit_eta m), (lit_eta l). congruence.
      * intros [Hm|[<-|[]]].
        -- exfalso. apply Hn. rewrite <- E. apply in_map; auto.
        -- rewrite eqb_reflx. auto.
    + rewrite (ti_val t H). split; auto. intros [|[<-|[]]]; auto. congruence.
  - apply H.
  - intros k Hk. cbn [tpush lim tr] in *. rewrite app_length. simpl. pose proof (ti_bound t H k Hk). lia.
  - intros i m Hm. cbn [tpush tr lim] in *. rewrite level_push by auto.
    apply nth_error_snoc in Hm. destruct Hm as [Hm|[-> ->]].
    + destruct (Nat.eqb_spec (lvar m) (lvar l)) as [E|E].
      * exfalso. apply Hn. rewrite <- E. apply in_map. eapply nth_error_In; eauto.
      * apply H; auto.
    + rewrite Nat.eqb_refl. rewrite lev_at_all; auto. apply H.
  - cbn [tpush qh tr]. rewrite app_length. simpl. pose proof (ti_qh t H). lia.
Qed.

(** ** Decision levels *)
Lemma lev_at_snoc lims k i : lev_at (lims ++ [k]) i = lev_at lims i + (if k <=? i then 1 else 0).
Proof. unfold lev_at. rewrite filter_app, app_length. simpl. destruct (k <=? i); simpl; lia. Qed.

Lemma TI_newlevel t : TI t -> TI (newDecisionLevel t).
Proof.
  intros H. constructor; unfold newDecisionLevel; cbn [tr nvt asg vd lim qh]; try solve [apply H].
  - intros i j Hij Hj. rewrite app_length in Hj. simpl in Hj.
    destruct (Nat.eq_dec j (length (lim t))) as [->|Hn].
    + rewrite (app_nth2 (lim t) [length (tr t)] 0 (le_n _)), Nat.sub_diag. simpl.
      destruct (Nat.eq_dec i (length (lim t))) as [->|Hi].
      * rewrite (app_nth2 (lim t) [length (tr t)] 0 (le_n _)), Nat.sub_diag. simpl. lia.
      * rewrite app_nth1 by lia. apply H. apply nth_In. lia.
    + rewrite !app_nth1 by lia. apply H; lia.
  - intros k Hk. apply in_app_or in Hk. destruct Hk as [Hk|[<-|[]]]; auto. apply H; auto.
  - intros i l Hl. rewrite lev_at_snoc. pose proof (nth_error_lt _ _ _ Hl).
    destruct (Nat.leb_spec (length (tr t)) i); [lia|]. rewrite Nat.add_0_r.
    apply (ti_lev t H). auto.
  - apply (ti_qh t H).
Qed.

Lemma TI_with_qh q t : TI t -> q <= length (tr t) -> TI (with_qh q t).
Proof. intros H Hq. constructor; unfold with_qh; cbn [tr nvt asg vd lim qh]; auto; apply H. Qed.

(** ** Backtracking *)
Lemma unassign_length ls a : length (unassign ls a) = length a.
Proof.
  unfold unassign. revert a. induction ls as [|l r IH]; intros a; simpl; auto. rewrite IH, set_nth_length. auto.
Qed.

Lemma unassign_nth ls : forall a v, nth v (unassign ls a) None = if in_dec Nat.eq_dec v (map lvar ls) then None else nth v a None.
Proof.
  unfold unassign. induction ls as [|l r IH]; intros a v; simpl; auto.
  rewrite IH. destruct (in_dec Nat.eq_dec v (map lvar r)).
  - destruct (Nat.eq_dec (lvar l) v); auto.
  - destruct (Nat.eq_dec (lvar l) v) as [<-|E].
    + rewrite nth_set_nth, Nat.eqb_refl. destruct (Nat.ltb_spec (lvar l) (length a)); simpl; auto.
      apply nth_overflow. lia.
    + rewrite nth_set_nth_other by auto. reflexivity.
Qed.

Lemma lev_at_firstn lims n i :
  (forall a b, a <= b -> b < length lims -> nth a lims 0 <= nth b lims 0) ->
  n < length lims -> i < nth n lims 0 -> lev_at (firstn n lims) i = lev_at lims i.
Proof.
  intros Hs Hn Hi. rewrite <- (firstn_skipn n lims) at 2. unfold lev_at. rewrite filter_app, app_length.
  assert (E : filter (fun k => k <=? i) (skipn n lims) = []).
  { assert (Hall : forall k, In k (skipn n lims) -> i < k).
    { intros k Hk. apply In_nth with (d := 0) in Hk. destruct Hk as (j & Hj & <-).
      rewrite skipn_length in Hj. rewrite <- (firstn_skipn n lims) in Hs.
      assert (nth j (skipn n lims) 0 = nth (n + j) lims 0).
      { rewrite <- (firstn_skipn n lims) at 2. rewrite app_nth2; rewrite firstn_length, Nat.min_l by lia; [|lia].
        f_equal. lia. }
      rewrite H. rewrite firstn_skipn in Hs. specialize (Hs n (n + j)). lia. }
    revert Hall. induction (skipn n lims) as [|k r IH]; simpl; auto. intros Hall.
    destruct (Nat.leb_spec k i); [specialize (Hall k (or_introl eq_refl)); lia|].
    apply IH. intros; apply Hall; auto. }
  rewrite E. simpl. lia.
Qed.

Lemma in_firstn_iff {A} (l : list A) n x : In x (firstn n l) <-> exists i, i < n /\ nth_error l i = Some x.
Proof.
  split.
  - intros H. apply In_nth_error in H. destruct H as (i & H). exists i.
    pose proof (nth_error_lt _ _ _ H) as Hl. rewrite firstn_length in Hl. split; [lia|].
    rewrite <- (firstn_skipn n l), nth_error_app1; auto. rewrite firstn_length; auto.
  - intros (i & Hi & H). apply (nth_error_In _ i). pose proof (nth_error_lt _ _ _ H).
    rewrite <- (firstn_skipn n l), nth_error_app1 in H; auto. rewrite firstn_length; lia.
Qed.
Lemma nth_error_firstn_iff {A} (l : list A) n i x : nth_error (firstn n l) i = Some x <-> i < n /\ nth_error l i = Some x.
Proof.
  split.
  - intros H. pose proof (nth_error_lt _ _ _ H) as Hl. rewrite firstn_length in Hl. split; [lia|].
    rewrite <- (firstn_skipn n l), nth_error_app1; auto. rewrite firstn_length; auto.
  - intros [Hi H]. pose proof (nth_error_lt _ _ _ H).
    rewrite <- (firstn_skipn n l), nth_error_app1 in H; auto. rewrite firstn_length; lia.
Qed.

Lemma backtrack_value n t l : TI t -> n < dlevel t ->
  value (backtrack n t) l = Some true <-> exists i, i < nth n (lim t) 0 /\ nth_error (tr t) i = Some l.
Proof.
  intros H Hn. unfold backtrack. apply Nat.ltb_lt in Hn. rewrite Hn. unfold value, vvalue; cbn [asg].
  rewrite unassign_nth. set (k := nth n (lim t) 0).
  destruct (in_dec Nat.eq_dec (lvar l) (map lvar (skipn k (tr t)))) as [Hi|Hi].
  - split; [discriminate|]. intros (i & Hik & Hl). exfalso.
    apply in_map_iff in Hi. destruct Hi as (m & Em & Hm). apply In_nth_error in Hm. destruct Hm as (j & Hj).
    assert (Hj' : nth_error (tr t) (k + j) = Some m).
    { rewrite <- Hj, <- (firstn_skipn k (tr t)) at 1. rewrite nth_error_app2; rewrite firstn_length.
      - f_equal. pose proof (nth_error_lt _ _ _ Hj) as Hlt. rewrite skipn_length in Hlt. lia.
      - lia. }
    pose proof (tr_nth_inj t _ _ _ _ H Hl Hj' (eq_sym Em)). lia.
  - change (option_map (fun b => xorb b (lsign l)) (nth (lvar l) (asg t) None)) with (value t l).
    rewrite (ti_val t H). split.
    + intros Hin. rewrite <- (firstn_skipn k (tr t)) in Hin. apply in_app_or in Hin. destruct Hin as [Hin|Hin].
      * apply in_firstn_iff; auto.
      * exfalso. apply Hi. apply in_map; auto.
    + intros (i & _ & Hl). eapply nth_error_In; eauto.
Qed.

Lemma backtrack_fields n t : n < dlevel t ->
  tr (backtrack n t) = firstn (nth n (lim t) 0) (tr t) /\ lim (backtrack n t) = firstn n (lim t) /\
  nvt (backtrack n t) = nvt t /\ vd (backtrack n t) = vd t /\ dec (backtrack n t) = dec t /\
  assum (backtrack n t) = assum t /\ qh (backtrack n t) = (if n =? 0 then 0 else nth n (lim t) 0).
Proof. intros H. unfold backtrack. apply Nat.ltb_lt in H. rewrite H. cbn. auto 10. Qed.

Lemma TI_backtrack n t : TI t -> TI (backtrack n t).
Proof.
  intros H. destruct (Nat.lt_ge_cases n (dlevel t)) as [Hn|Hn].
  2:{ unfold backtrack. destruct (Nat.ltb_spec n (dlevel t)); [lia|auto]. }
  destruct (backtrack_fields n t Hn) as (E1 & E2 & E3 & E4 & E5 & E6 & E7).
  set (k := nth n (lim t) 0) in *.
  assert (Hk : k <= length (tr t)) by (apply (ti_bound t H); apply nth_In; auto).
  assert (Hlen : length (tr (backtrack n t)) = k) by (rewrite E1, firstn_length; lia).
  constructor.
  - rewrite E1. rewrite <- firstn_map. apply (NoDup_app_l _ (skipn k (map lvar (tr t)))).
    rewrite firstn_skipn. apply H.
  - intros l Hl. rewrite E3. rewrite E1 in Hl. apply (ti_range t H).
    apply in_firstn_iff in Hl. destruct Hl as (i & _ & Hl). eapply nth_error_In; eauto.
  - rewrite E3. unfold backtrack. apply Nat.ltb_lt in Hn. rewrite Hn. cbn [asg]. rewrite unassign_length. apply H.
  - rewrite E3, E4. apply H.
  - intros l. rewrite backtrack_value by auto. rewrite E1. symmetry. apply in_firstn_iff.
  - intros i j Hij Hj. rewrite E2 in *. rewrite firstn_length in Hj.
    assert (Hnth : forall a, a < n -> nth a (firstn n (lim t)) 0 = nth a (lim t) 0).
    { intros a Ha. rewrite <- (firstn_skipn n (lim t)) at 2. rewrite app_nth1; auto.
      rewrite firstn_length. unfold dlevel in Hn. lia. }
    rewrite !Hnth by lia. apply H; lia.
  - intros x Hx. rewrite E2 in Hx. rewrite Hlen. apply in_firstn_iff in Hx. destruct Hx as (i & Hi & Hx).
    pose proof (nth_error_lt _ _ _ Hx). apply nth_error_nth_iff with (d := 0) in Hx; auto. rewrite <- Hx. apply H; unfold dlevel in Hn; lia.
  - intros i l Hl. rewrite E1 in Hl. apply nth_error_firstn_iff in Hl. destruct Hl as [Hi Hl].
    unfold level. rewrite E4, E2. change (level t (lvar l) = lev_at (firstn n (lim t)) i).
    rewrite (ti_lev t H i l Hl). symmetry. apply lev_at_firstn; auto. apply H.
  - rewrite E7, Hlen. destruct (n =? 0); lia.
Qed.

Lemma value_reset t l : value (trail_reset t) l = None.
Proof.
  unfold value, vvalue, trail_reset; cbn [asg].
  assert (E : nth (lvar l) (map (fun _ : option bool => @None bool) (asg t)) None = None).
  { generalize (lvar l). induction (asg t); intros [|n]; simpl; auto. }
  rewrite E. reflexivity.
Qed.
Lemma TI_reset t : length (asg t) = nvt t -> length (vd t) = nvt t -> TI (trail_reset t).
Proof.
  intros H1 H2. constructor; unfold trail_reset; cbn [tr nvt asg vd lim qh]; simpl.
  - constructor.
  - tauto.
  - rewrite map_length; auto.
  - rewrite map_length; auto.
  - intros l. split; [|tauto]. intros E. pose proof (value_reset t l) as E2. unfold trail_reset in E2. congruence.
  - intros; lia.
  - tauto.
  - intros [|i]; discriminate.
  - auto.
Qed.
