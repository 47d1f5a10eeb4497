Require Import List Arith NArith Bool Lia ZifyNat ZifyN ZifyBool.
Require Import Verif.CNFModel Verif.CNFProofs Verif.ContainersModel Verif.ContainersSpec.
Import ListNotations.

(** ** Stamp *)
Definition stamp_inv (M : N) (s : stamp_t) (mem : nat -> bool) : Prop :=
  (1 <= stamp s <= M)%N /\
  (forall i x, nth_error (stamped s) i = Some x -> (x <= stamp s)%N /\ (x = stamp s <-> mem i = true)).

Lemma nth_error_map_const {A B} (b : B) (l : list A) i x :
  nth_error (map (fun _ => b) l) i = Some x -> x = b /\ i < length l.
Proof.
  intros H. assert (i < length l).
  { rewrite <- (map_length (fun _ => b) l). apply nth_error_Some. congruence. }
  split; auto. rewrite nth_error_map in H. destruct (nth_error l i); simpl in H; congruence.
Qed.

Lemma stamp_clear_inv M s mem : (1 <= M)%N ->
  (stamp s <= M)%N -> (forall i x, nth_error (stamped s) i = Some x -> (x <= stamp s)%N) ->
  stamp_inv M (stamp_clear M s) (fun _ => mem) -> mem = false ->
  stamp_inv M (stamp_clear M s) (fun _ => false).
Proof. intros. subst. auto. Qed.

Lemma stamp_clear_ok M s : (1 <= M)%N -> (stamp s <= M)%N ->
  (forall i x, nth_error (stamped s) i = Some x -> (x <= stamp s)%N) ->
  stamp_inv M (stamp_clear M s) (fun _ => false).
Proof.
  intros HM Hs Hx. unfold stamp_clear. destruct (N.ltb_spec (stamp s) M).
  - split; simpl; [lia|]. intros i x H1. apply Hx in H1. split; [lia|]. split; [lia|discriminate].
  - split; simpl; [lia|]. intros i x H1. apply nth_error_map_const in H1. destruct H1 as [-> _].
    split; [lia|]. split; [lia|discriminate].
Qed.

Lemma nth_error_app_repeat {A} (l : list A) d n i x :
  nth_error (l ++ repeat d n) i = Some x ->
  (i < length l /\ nth_error l i = Some x) \/ (length l <= i /\ x = d).
Proof.
  intros H. destruct (Nat.lt_ge_cases i (length l)).
  - rewrite nth_error_app1 in H by auto. auto.
  - rewrite nth_error_app2 in H by auto. right. split; auto.
    apply nth_error_In in H. apply repeat_spec in H. auto.
Qed.

Definition in_range (s : stamp_t) (mem : nat -> bool) := forall i, mem i = true -> i < length (stamped s).

Lemma stamp_step_inv M s mem o s' : (1 <= M)%N ->
  stamp_inv M s mem -> in_range s mem -> stamp_step M s o = Some s' ->
  stamp_inv M s' (fun i => stamp_member [o] i (mem i)) /\
  in_range s' (fun i => stamp_member [o] i (mem i)) /\
  length (stamped s') = stamp_range [o] (length (stamped s)).
Proof.
  intros HM (H1 & H2) Hr. unfold in_range in *.
  destruct o as [j|j| | |n]; simpl.
  - unfold stamp_set. destruct (j <? length (stamped s)) eqn:E; [|discriminate].
    intros Hs; inversion Hs; subst; clear Hs. simpl. rewrite set_nth_length.
    apply Nat.ltb_lt in E. split; [|split; auto].
    + split; simpl; [auto|]. intros i x. rewrite set_nth_nth.
      apply Nat.ltb_lt in E. rewrite E, andb_true_r. destruct (i =? j).
      * intros Hx; inversion Hx; subst. intuition lia.
      * apply H2.
    + intros i. destruct (i =? j) eqn:Ei; [apply Nat.eqb_eq in Ei; subst; auto | auto].
  - unfold stamp_unset. destruct (j <? length (stamped s)) eqn:E; [|discriminate].
    intros Hs; inversion Hs; subst; clear Hs. simpl. rewrite set_nth_length.
    split; [|split; auto].
    + split; simpl; [auto|]. intros i x. rewrite set_nth_nth.
      rewrite E, andb_true_r. destruct (i =? j).
      * intros Hx; inversion Hx; subst. split; [lia|]. split; [lia|discriminate].
      * apply H2.
    + intros i. destruct (i =? j) eqn:Ei; [discriminate | auto].
  - intros Hs; inversion Hs; subst; clear Hs. split; [|split].
    + apply stamp_clear_ok; auto; [lia|]. intros i x Hx. apply H2 in Hx. tauto.
    + discriminate.
    + unfold stamp_clear. destruct (_ <? _)%N; simpl; auto. apply map_length.
  - intros Hs; inversion Hs; subst; clear Hs. split; [|split].
    + split; simpl; [auto|]. intros i x Hx. apply (nth_error_app_repeat _ 0%N 1) in Hx.
      destruct Hx as [(_ & Hx)|(Hi & ->)]; [auto|]. split; [lia|].
      split; [lia|]. intros Hm. apply Hr in Hm. lia.
    + intros i Hi. simpl. rewrite app_length. simpl. apply Hr in Hi. lia.
    + simpl. rewrite app_length. simpl. lia.
  - intros Hs; inversion Hs; subst; clear Hs. unfold stamp_grow.
    destruct (length (stamped s) <? n) eqn:E; [apply Nat.ltb_lt in E | apply Nat.ltb_ge in E].
    + split; [|split].
      * split; simpl; [auto|]. intros i x Hx. apply nth_error_app_repeat in Hx.
        destruct Hx as [(_ & Hx)|(Hi & ->)]; [auto|]. split; [lia|].
        split; [lia|]. intros Hm. apply Hr in Hm. lia.
      * intros i Hi. simpl. rewrite app_length. apply Hr in Hi. lia.
      * simpl. rewrite app_length, repeat_length. lia.
    + split; [split; auto|]. split; auto. lia.
Qed.

Lemma stamp_member_app o r i b : stamp_member (o :: r) i b = stamp_member r i (stamp_member [o] i b).
Proof. destruct o; reflexivity. Qed.
Lemma stamp_range_app o r n : stamp_range (o :: r) n = stamp_range r (stamp_range [o] n).
Proof. destruct o; reflexivity. Qed.

Lemma stamp_run_inv M os : (1 <= M)%N -> forall s mem s',
  stamp_inv M s mem -> in_range s mem -> stamp_run M s os = Some s' ->
  stamp_inv M s' (fun i => stamp_member os i (mem i)) /\
  length (stamped s') = stamp_range os (length (stamped s)).
Proof.
  intros HM. induction os as [|o os IH]; intros s mem s' Hi Hr H.
  - inversion H; subst. auto.
  - simpl in H. destruct (stamp_step M s o) as [s1|] eqn:E; [|discriminate].
    destruct (stamp_step_inv _ _ _ _ _ HM Hi Hr E) as (Hi1 & Hr1 & Hl1).
    destruct (IH _ _ _ Hi1 Hr1 H) as (Hi2 & Hl2).
    rewrite stamp_range_app, <- Hl1. split; auto.
    destruct Hi2 as (A & B). split; auto. intros i x Hx. rewrite stamp_member_app. apply B; auto.
Qed.

Lemma stamp_new_inv M n : (1 <= M)%N ->
  stamp_inv M (stamp_new_size M n) (fun _ => false) /\ length (stamped (stamp_new_size M n)) = n.
Proof.
  intros HM. split.
  - apply stamp_clear_ok; simpl; auto; [lia|]. intros i x Hx. apply nth_error_In, repeat_spec in Hx. subst; lia.
  - unfold stamp_new_size, stamp_clear. destruct (_ <? _)%N; simpl; rewrite ?map_length; apply repeat_length.
Qed.

Lemma stamp_correct M n os s' i : (1 <= M)%N ->
  stamp_run M (stamp_new_size M n) os = Some s' ->
  stamp_get i s' = if i <? stamp_range os n then Some (stamp_member os i false) else None.
Proof.
  intros HM H. destruct (stamp_new_inv M n HM) as (Hi & Hl).
  destruct (stamp_run_inv M os HM _ _ _ Hi ltac:(intros j; discriminate) H) as ((A & B) & L).
  rewrite Hl in L. rewrite <- L. unfold stamp_get.
  destruct (Nat.ltb_spec i (length (stamped s'))) as [Hlt|Hge].
  - destruct (nth_error (stamped s') i) as [x|] eqn:E; [|apply nth_error_Some in Hlt; congruence].
    destruct (B _ _ E) as [_ Hx]. f_equal.
    destruct (N.eqb_spec x (stamp s')), (stamp_member os i false); intuition congruence.
  - rewrite (proj2 (nth_error_None _ _) Hge). reflexivity.
Qed.

(** a history never fails when its indices are in range *)
Fixpoint stamp_ok (os : list stamp_op) (n : nat) : bool :=
  match os with
  | [] => true
  | SSet i :: r | SUnset i :: r => (i <? n) && stamp_ok r n
  | o :: r => stamp_ok r (stamp_range [o] n)
  end.
Lemma stamp_total M os : forall s, stamp_ok os (length (stamped s)) = true -> stamp_run M s os <> None.
Proof.
  induction os as [|o os IH]; intros s; simpl; [discriminate|].
  destruct o as [j|j| | |n]; simpl; intros H.
  - apply andb_true_iff in H as [H1 H2]. unfold stamp_set. rewrite H1. apply IH. simpl. rewrite set_nth_length. auto.
  - apply andb_true_iff in H as [H1 H2]. unfold stamp_unset. rewrite H1. apply IH. simpl. rewrite set_nth_length. auto.
  - apply IH. unfold stamp_clear. destruct (_ <? _)%N; simpl; rewrite ?map_length; auto.
  - apply IH. simpl. rewrite app_length. simpl. rewrite Nat.add_comm. auto.
  - apply IH. unfold stamp_grow. destruct (Nat.ltb_spec (length (stamped s)) n); simpl.
    + rewrite app_length, repeat_length. replace (_ + _) with (max (length (stamped s)) n) by lia. auto.
    + rewrite Nat.max_l in H by auto. auto.
Qed.

(** ** bqueue *)
Lemma sumN_app a b : sumN (a ++ b) = (sumN a + sumN b)%N.
Proof. induction a as [|x a IH]; cbn [sumN app fold_right]; [reflexivity|]. unfold sumN in *. simpl. rewrite IH. lia. Qed.

Definition bq_window (q : bqueue) : list N :=
  if queuesize q =? length (elems q) then skipn (first q) (elems q) ++ firstn (first q) (elems q)
  else firstn (first q) (elems q).

Definition bq_inv (q : bqueue) : Prop :=
  1 <= length (elems q) /\ first q < length (elems q) /\
  ((queuesize q = length (elems q) /\ last q = first q) \/
   (queuesize q < length (elems q) /\ last q = 0 /\ first q = queuesize q)) /\
  (sumofqueue q = sumN (bq_window q) mod U32)%N.

Lemma bq_window_length q : bq_inv q -> length (bq_window q) = queuesize q.
Proof.
  intros (H1 & H2 & H3 & _). unfold bq_window. destruct (Nat.eqb_spec (queuesize q) (length (elems q))) as [He|He].
  - rewrite app_length, skipn_length, firstn_length. lia.
  - rewrite firstn_length. lia.
Qed.

Lemma lastn_all {A} n (l : list A) : length l <= n -> lastn n l = l.
Proof. intros H. unfold lastn. replace (length l - n) with 0 by lia. reflexivity. Qed.

Lemma lastn_snoc {A} n (l : list A) x : 1 <= n ->
  lastn n (l ++ [x]) = (if n <? S (length (lastn n l)) then tl (lastn n l) else lastn n l) ++ [x].
Proof.
  intros Hn. unfold lastn. rewrite app_length. simpl. rewrite skipn_length.
  destruct (Nat.ltb_spec n (S (length l - (length l - n)))).
  - assert (n <= length l) by lia. replace (length l + 1 - n) with (S (length l - n)) by lia.
    rewrite skipn_app. replace (S (length l - n) - length l) with 0 by lia. simpl (skipn 0 _).
    f_equal. generalize (length l - n). intros k.
    clear. revert k; induction l as [|y l IH]; intros k; simpl; [destruct k; auto|].
    destruct k; [reflexivity|]. simpl. rewrite <- IH. destruct l; reflexivity.
  - replace (length l + 1 - n) with 0 by lia. replace (length l - n) with 0 by lia. reflexivity.
Qed.

Lemma firstn_set_nth {A} n (x : A) l : n < length l -> firstn (S n) (set_nth n x l) = firstn n l ++ [x].
Proof.
  revert l. induction n as [|n IH]; intros [|y l] H; simpl in *; try lia; [reflexivity|].
  f_equal. apply (IH l). lia.
Qed.
Lemma skipn_set_nth {A} n (x : A) l : skipn (S n) (set_nth n x l) = skipn (S n) l.
Proof. revert l. induction n as [|n IH]; intros [|y l]; simpl; auto. apply (IH l). Qed.
Lemma skipn_nth {A} n (l : list A) d : n < length l -> skipn n l = nth n l d :: skipn (S n) l.
Proof.
  revert l. induction n as [|n IH]; intros [|y l] H; simpl in *; try lia; [reflexivity|].
  apply IH. lia.
Qed.

Lemma sub_mod_lemma a b x :
  (((((x + b) mod U32 + U32 - x mod U32) mod U32) + a) mod U32 = (b + a) mod U32)%N.
Proof.
  assert (HU : (U32 <> 0)%N) by discriminate.
  rewrite N.add_mod_idemp_l by auto. 
  pose proof (N.mod_upper_bound x U32 HU). pose proof (N.mod_upper_bound (x + b) U32 HU).
  pose proof (N.div_mod x U32 HU). pose proof (N.div_mod (x + b) U32 HU).
  set (qx := (x / U32)%N) in *. set (rx := (x mod U32)%N) in *.
  set (qs := ((x + b) / U32)%N) in *. set (rs := ((x + b) mod U32)%N) in *.
  assert (rs + U32 - rx + a + U32 * qs = b + a + U32 * (qx + 1))%N by nia.
  rewrite <- (N.mod_add (rs + U32 - rx + a) qs U32 HU), <- (N.mod_add (b + a) (qx + 1) U32 HU).
  f_equal. lia.
Qed.

Lemma bq_push_inv x q : bq_inv q ->
  exists q', bq_push x q = Some q' /\ bq_inv q' /\ length (elems q') = length (elems q) /\
  bq_window q' = (if length (elems q) <? S (length (bq_window q)) then tl (bq_window q) else bq_window q) ++ [x].
Proof.
  intros Hi. pose proof (bq_window_length q Hi) as Hwl. destruct Hi as (H1 & H2 & H3 & H4).
  rewrite Hwl. unfold bq_push. destruct q as [fi la qs su el]. cbn [first last queuesize sumofqueue elems] in *.
  unfold bq_window in H4. cbn [first last queuesize sumofqueue elems] in H4.
  destruct H3 as [(Hq & Hl)|(Hq & Hl & Hf)].
  - subst la. rewrite Hq, Nat.eqb_refl in *.
    assert (Hlt : length el <? S (length el) = true) by (apply Nat.ltb_lt; lia). rewrite Hlt.
    assert (Hfi : fi <? length el = true) by (apply Nat.ltb_lt; auto). rewrite Hfi.
    assert (Hsum : forall w, sumN w = (sumN (skipn (S fi) el ++ firstn fi el) + x)%N ->
      (((su + U32 - nth fi el 0 mod U32) mod U32 + x) mod U32 = sumN w mod U32)%N).
    { intros w ->. rewrite H4. rewrite (skipn_nth fi el 0%N) by auto. simpl app.
      cbn [sumN fold_right]. change (fold_right N.add 0%N ?l) with (sumN l).
      rewrite sub_mod_lemma. reflexivity. }
    assert (Hwin : bq_window (mkBQ fi fi (length el) su el) = nth fi el 0%N :: skipn (S fi) el ++ firstn fi el).
    { unfold bq_window; simpl. rewrite Nat.eqb_refl, (skipn_nth fi el 0%N) by auto. reflexivity. }
    rewrite Hwin. cbn [tl].
    destruct (Nat.eqb_spec (S fi) (length el)) as [He|He].
    + eexists. split; [reflexivity|]. unfold bq_inv, bq_window; cbn [first last queuesize sumofqueue elems]. rewrite !set_nth_length, Nat.eqb_refl.
      assert (Hset : set_nth fi x el = firstn fi el ++ [x]).
      { rewrite <- (firstn_skipn (S fi) (set_nth fi x el)), firstn_set_nth, skipn_set_nth by auto.
        rewrite skipn_all2 by lia. rewrite app_nil_r. reflexivity. }
      cbn [firstn]. rewrite app_nil_r. change (skipn 0 (set_nth fi x el)) with (set_nth fi x el). rewrite (skipn_all2 el) by lia. rewrite Hset. cbn [app].
      split; [split; [lia|split; [lia|split; [lia|]]] | split; [first [exact eq_refl | assumption] | exact eq_refl]].
      apply Hsum. rewrite skipn_all2 by lia. rewrite sumN_app. simpl. lia.
    + eexists. split; [reflexivity|]. unfold bq_inv, bq_window; cbn [first last queuesize sumofqueue elems]. rewrite !set_nth_length, Nat.eqb_refl.
      rewrite skipn_set_nth, firstn_set_nth by auto. rewrite app_assoc.
      split; [split; [lia|split; [lia|split; [lia|]]] | split; [first [exact eq_refl | assumption] | exact eq_refl]].
      apply Hsum. rewrite (sumN_app _ [x]). simpl. lia.
  - subst la fi. assert (Hne : qs =? length el = false) by (apply Nat.eqb_neq; lia). rewrite Hne in *.
    assert (Hlt : length el <? S qs = false) by (apply Nat.ltb_ge; lia). rewrite Hlt.
    assert (Hfi : qs <? length el = true) by (apply Nat.ltb_lt; auto). rewrite Hfi.
    assert (Hw0 : bq_window (mkBQ qs 0 qs su el) = firstn qs el) by (unfold bq_window; simpl; rewrite Hne; auto).
    rewrite Hw0.
    assert (Hs : forall w, sumN w = (sumN (firstn qs el) + x)%N -> ((su + x) mod U32 = sumN w mod U32)%N).
    { intros w ->. rewrite H4. apply N.add_mod_idemp_l. discriminate. }
    destruct (Nat.eqb_spec (S qs) (length el)) as [He|He].
    + eexists. split; [reflexivity|]. unfold bq_inv, bq_window; cbn [first last queuesize sumofqueue elems].
      rewrite !set_nth_length, He, Nat.eqb_refl. rewrite app_nil_r.
      assert (Hset : set_nth qs x el = firstn qs el ++ [x]).
      { rewrite <- (firstn_skipn (S qs) (set_nth qs x el)), firstn_set_nth, skipn_set_nth by auto.
        rewrite skipn_all2 by lia. rewrite app_nil_r. reflexivity. }
      simpl skipn. rewrite Hset. split; [split; [lia|split; [lia|split; [lia|]]] | split; [first [exact eq_refl | assumption] | exact eq_refl]].
      apply Hs. rewrite sumN_app. simpl. lia.
    + eexists. split; [reflexivity|]. unfold bq_inv, bq_window; cbn [first last queuesize sumofqueue elems].
      rewrite !set_nth_length. apply Nat.eqb_neq in He. rewrite He. apply Nat.eqb_neq in He.
      rewrite firstn_set_nth by auto.
      split; [split; [lia|split; [lia|split; [lia|]]] | split; [first [exact eq_refl | assumption] | exact eq_refl]]. apply Hs. rewrite sumN_app. simpl. lia.
Qed.

Lemma bq_run_inv os : forall q acc, bq_inv q -> bq_window q = lastn (length (elems q)) acc ->
  exists q', bq_run q os = Some q' /\ bq_inv q' /\ length (elems q') = length (elems q) /\
             bq_window q' = lastn (length (elems q)) (bq_pushed acc os).
Proof.
  induction os as [|o os IH]; intros q acc Hi Hw.
  - exists q. simpl. auto.
  - destruct o as [x|]; simpl.
    + destruct (bq_push_inv x q Hi) as (q1 & -> & Hi1 & Hl1 & Hw1).
      destruct (IH q1 (acc ++ [x]) Hi1) as (q2 & E & Hi2 & Hl2 & Hw2).
      * rewrite Hw1, Hl1, lastn_snoc, Hw; auto. apply Hi.
      * exists q2. rewrite E, Hl2, Hl1, Hw2, Hl1. auto.
    + destruct (IH (bq_fastclear q) []) as (q2 & E & Hi2 & Hl2 & Hw2).
      * destruct Hi as (H1 & H2 & _). unfold bq_inv, bq_window; simpl.
        destruct (length (elems q)) eqn:E; [lia|]. simpl. repeat split; auto; try lia.
      * unfold bq_window, bq_fastclear, lastn; simpl. destruct (length (elems q)) eqn:E; [destruct Hi; lia|]. reflexivity.
      * exists q2. simpl in *. auto.
Qed.

Lemma bq_new_inv n : 1 <= n -> bq_inv (bq_new n) /\ bq_window (bq_new n) = [].
Proof.
  intros Hn. unfold bq_inv, bq_window, bq_new; simpl. rewrite repeat_length.
  destruct n; [lia|]. simpl. repeat split; auto; lia.
Qed.

Lemma bq_correct n os : 1 <= n ->
  exists q, bq_run (bq_new n) os = Some q /\
    let w := lastn n (bq_pushed [] os) in
    bq_size q = length w /\
    bq_getsum q = (sumN w mod U32)%N /\
    bq_peek q = hd_error w /\
    (bq_isvalid q = true <-> n <= length (bq_pushed [] os)) /\
    bq_getavg q = (if length w =? 0 then None else Some (sumN w mod U32 / N.of_nat (length w))%N).
Proof.
  intros Hn. destruct (bq_new_inv n Hn) as (Hi & Hw).
  destruct (bq_run_inv os (bq_new n) [] Hi) as (q & E & Hi2 & Hl & Hw2).
  { rewrite Hw. unfold lastn. symmetry. apply skipn_nil. }
  simpl in Hl, Hw2. rewrite repeat_length in Hl, Hw2.
  exists q. split; auto. cbv zeta. rewrite <- Hw2. rewrite (bq_window_length q Hi2).
  pose proof (bq_window_length q Hi2) as Hwl.
  destruct Hi2 as (I1 & I2 & I3 & I4).
  unfold bq_size, bq_getsum, bq_getavg, bq_isvalid, bq_peek. rewrite I4. repeat split; auto.
  - unfold bq_window. destruct I3 as [(Hq & Hla)|(Hq & Hla & Hf)].
    + rewrite Hq, Nat.eqb_refl, Hla. assert (0 <? length (elems q) = true) as -> by (apply Nat.ltb_lt; lia).
      rewrite (skipn_nth _ _ 0%N) by auto. simpl. apply nth_error_nth'. auto.
    + assert (queuesize q =? length (elems q) = false) as -> by (apply Nat.eqb_neq; lia).
      rewrite Hla, Hf. destruct (queuesize q), (elems q); simpl in *; auto; lia.
  - rewrite Nat.eqb_eq, Hl, <- Hwl, Hw2. unfold lastn. rewrite skipn_length. lia.
  - rewrite Nat.eqb_eq, Hl, <- Hwl, Hw2. unfold lastn. rewrite skipn_length. lia.
Qed.

(** ** fastNextRand *)
Local Open Scope N_scope.
Lemma lxor_diff_shiftr k x y : (0 < k) -> N.lxor x (N.shiftr x k) = N.lxor y (N.shiftr y k) -> x = y.
Proof.
  intros Hk H. apply N.lxor_eq.
  assert (Hd : N.lxor x y = N.shiftr (N.lxor x y) k).
  { rewrite N.shiftr_lxor. apply N.bits_inj. intros n.
    apply (f_equal (fun z => N.testbit z n)) in H. rewrite !N.lxor_spec in *.
    destruct (N.testbit x n), (N.testbit y n), (N.testbit (N.shiftr x k) n), (N.testbit (N.shiftr y k) n);
      simpl in *; congruence. }
  set (d := N.lxor x y) in *. destruct (N.eq_dec d 0) as [|Hn]; auto. exfalso.
  rewrite N.shiftr_div_pow2 in Hd.
  assert (d / 2 ^ k < d); [|lia]. apply N.div_lt; [lia|].
  change 1 with (2 ^ 0). apply N.pow_lt_mono_r; lia.
Qed.

Lemma lxor_diff_shiftl k x y : (0 < k) -> x < W64 -> y < W64 ->
  N.lxor x (N.shiftl x k mod W64) = N.lxor y (N.shiftl y k mod W64) -> x = y.
Proof.
  intros Hk Hx Hy H.
  assert (Hbit : forall n, N.testbit x n = N.testbit y n).
  { intros n. induction n as [n IH] using (well_founded_induction N.lt_wf_0).
    destruct (N.lt_ge_cases n 64) as [Hn|Hn].
    - apply (f_equal (fun z => N.testbit z n)) in H. rewrite !N.lxor_spec in H.
      change W64 with (2 ^ 64) in H. rewrite !N.mod_pow2_bits_low in H by auto.
      destruct (N.lt_ge_cases n k) as [Hnk|Hnk].
      + rewrite !N.shiftl_spec_low in H by auto. destruct (N.testbit x n), (N.testbit y n); auto.
      + rewrite !N.shiftl_spec_high in H by lia. rewrite (IH (n - k)) in H by lia.
        destruct (N.testbit x n), (N.testbit y n), (N.testbit y (n - k)); auto.
    - assert (Hz : forall z, z < W64 -> N.testbit z n = false).
      { intros z Hz. destruct (N.eq_dec z 0) as [->|Hz0]; [apply N.bits_0|].
        apply N.bits_above_log2. apply N.log2_lt_pow2; [lia|].
        eapply N.lt_le_trans; [exact Hz|]. change W64 with (2 ^ 64). apply N.pow_le_mono_r; lia. }
      rewrite !Hz; auto. }
  apply N.bits_inj. exact Hbit.
Qed.

Lemma mul_inj x y : x < W64 -> y < W64 ->
  (x * 2685821657736338717) mod W64 = (y * 2685821657736338717) mod W64 -> x = y.
Proof.
  intros Hx Hy H.
  assert (Hinv : forall z, z < W64 -> (((z * 2685821657736338717) mod W64) * 6415128727920758069) mod W64 = z).
  { intros z Hz. rewrite N.mul_mod_idemp_l by discriminate. rewrite <- N.mul_assoc.
    rewrite <- N.mul_mod_idemp_r by discriminate.
    replace ((2685821657736338717 * 6415128727920758069) mod W64) with 1 by (vm_compute; reflexivity).
    rewrite N.mul_1_r. apply N.mod_small; auto. }
  rewrite <- (Hinv x Hx), <- (Hinv y Hy), H. reflexivity.
Qed.

Lemma small_bits x : x < W64 <-> forall n, 64 <= n -> N.testbit x n = false.
Proof.
  split.
  - intros Hx n Hn. destruct (N.eq_dec x 0) as [->|Hz0]; [apply N.bits_0|].
    apply N.bits_above_log2. apply N.log2_lt_pow2; [lia|].
    eapply N.lt_le_trans; [exact Hx|]. change W64 with (2 ^ 64). apply N.pow_le_mono_r; lia.
  - intros H. replace x with (x mod 2 ^ 64); [apply N.mod_upper_bound; discriminate|].
    apply N.bits_inj. intros n. destruct (N.lt_ge_cases n 64).
    + apply N.mod_pow2_bits_low; auto.
    + rewrite N.mod_pow2_bits_high, H; auto.
Qed.

Lemma lxor_small x y : x < W64 -> y < W64 -> N.lxor x y < W64.
Proof.
  intros Hx Hy. apply small_bits. intros n Hn. rewrite N.lxor_spec.
  rewrite (proj1 (small_bits x) Hx), (proj1 (small_bits y) Hy); auto.
Qed.
Lemma shiftr_small x k : x < W64 -> N.shiftr x k < W64.
Proof.
  intros Hx. apply small_bits. intros n Hn. rewrite N.shiftr_spec by lia.
  apply (proj1 (small_bits x) Hx). lia.
Qed.

Lemma fastNextRand_range x : fastNextRand x < W64.
Proof. unfold fastNextRand. apply N.mod_upper_bound. discriminate. Qed.

Lemma fastNextRand_inj x y : x < W64 -> y < W64 -> fastNextRand x = fastNextRand y -> x = y.
Proof.
  intros Hx Hy H. unfold fastNextRand in H.
  set (x1 := N.lxor x (N.shiftr x 12)) in *. set (y1 := N.lxor y (N.shiftr y 12)) in *.
  assert (Hx1 : x1 < W64) by (apply lxor_small; auto using shiftr_small).
  assert (Hy1 : y1 < W64) by (apply lxor_small; auto using shiftr_small).
  set (x2 := N.lxor x1 _) in *. set (y2 := N.lxor y1 _) in *.
  assert (Hx2 : x2 < W64) by (apply lxor_small; auto; apply N.mod_upper_bound; discriminate).
  assert (Hy2 : y2 < W64) by (apply lxor_small; auto; apply N.mod_upper_bound; discriminate).
  apply mul_inj in H; auto using lxor_small, shiftr_small.
  apply lxor_diff_shiftr in H; [|lia]. unfold x2, y2 in H.
  apply lxor_diff_shiftl in H; [|lia|auto|auto]. unfold x1, y1 in H.
  apply lxor_diff_shiftr in H; [auto|lia].
Qed.

Lemma fastNextRand_nonzero x : x < W64 -> x <> 0 -> fastNextRand x <> 0.
Proof.
  intros Hx Hn H. apply Hn. apply fastNextRand_inj; auto. reflexivity.
Qed.
