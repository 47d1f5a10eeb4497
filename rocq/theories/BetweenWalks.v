(** Counting walks: lemmas for C61. *)
From Coq Require Import List Arith Bool Lia.
Import ListNotations.
From Verif Require Import Base GraphSpec.

Lemma flat_map_len {A B} (f : A -> list B) l : length (flat_map f l) = list_sum (map (fun x => length (f x)) l).
Proof. induction l as [|a l IH]; simpl; auto. rewrite app_length, IH. reflexivity. Qed.

Lemma filter_flat_map {A B} (p : B -> bool) (f : A -> list B) l :
  filter p (flat_map f l) = flat_map (fun x => filter p (f x)) l.
Proof. induction l as [|a l IH]; simpl; auto. rewrite filter_app, IH. reflexivity. Qed.

Lemma filter_map_len {A B} (p : B -> bool) (f : A -> B) l :
  length (filter p (map f l)) = length (filter (fun x => p (f x)) l).
Proof. induction l as [|a l IH]; simpl; auto. destruct (p (f a)); simpl; rewrite IH; auto. Qed.

Lemma list_sum_ext {A} (f g : A -> nat) l : (forall x, In x l -> f x = g x) -> list_sum (map f l) = list_sum (map g l).
Proof. intros H. f_equal. apply map_ext_in. exact H. Qed.

Lemma list_sum_0 {A} (f : A -> nat) l : (forall x, In x l -> f x = 0) -> list_sum (map f l) = 0.
Proof. induction l as [|a l IH]; simpl; intros H; auto. rewrite H; auto. Qed.

Lemma list_sum_pos {A} (f : A -> nat) l : 0 < list_sum (map f l) <-> exists x, In x l /\ 0 < f x.
Proof.
  split.
  - induction l as [|a l IH]; simpl; intros H; [lia|].
    destruct (f a) eqn:Ea.
    + destruct (IH H) as (x & Hx & Hp). eauto.
    + exists a. split; auto. lia.
  - intros (x & Hx & Hp). induction l as [|a l IH]; simpl in *; [tauto|].
    destruct Hx as [<-|Hx]; [lia|]. specialize (IH Hx). lia.
Qed.

Lemma list_sum_mulr {A} (f : A -> nat) c l : list_sum (map (fun x => f x * c) l) = list_sum (map f l) * c.
Proof. induction l as [|a l IH]; simpl; auto. rewrite IH. lia. Qed.

Lemma list_sum_plus {A} (f g : A -> nat) l :
  list_sum (map (fun x => f x + g x) l) = list_sum (map f l) + list_sum (map g l).
Proof. induction l as [|a l IH]; simpl; auto. rewrite IH. lia. Qed.

Lemma list_sum_swap {A B} (f : A -> B -> nat) l m :
  list_sum (map (fun x => list_sum (map (f x) m)) l) = list_sum (map (fun y => list_sum (map (fun x => f x y) l)) m).
Proof.
  induction l as [|a l IH]; simpl.
  - symmetry. apply list_sum_0. auto.
  - rewrite IH. rewrite <- list_sum_plus. reflexivity.
Qed.

Lemma list_sum_single {A} (f : A -> nat) l a :
  NoDup l -> In a l -> (forall x, In x l -> x <> a -> f x = 0) -> list_sum (map f l) = f a.
Proof.
  induction l as [|b l IH]; simpl; intros Hn Hi Hz; [tauto|].
  inversion Hn; subst. destruct Hi as [->|Hi].
  - rewrite (list_sum_0 f l); [lia|]. intros x Hx. apply Hz; auto. intros ->. contradiction.
  - rewrite (Hz b); [|auto|intros ->; contradiction]. rewrite IH; auto.
Qed.

Section Walks.
Variable adj : nat -> list nat.

Definition W (k s t : nat) : nat := length (walks adj k s t).

Lemma W_0 s t : W 0 s t = if s =? t then 1 else 0.
Proof. unfold W. simpl. destruct (s =? t); reflexivity. Qed.

Lemma W_S k s t : W (S k) s t = list_sum (map (fun u => W k u t) (adj s)).
Proof.
  unfold W. simpl. rewrite flat_map_len. apply list_sum_ext. intros x _. apply map_length.
Qed.

Lemma walks_len k : forall s t p, In p (walks adj k s t) -> length p = S k.
Proof.
  induction k as [|k IH]; intros s t p Hp; simpl in Hp.
  - destruct (s =? t); simpl in Hp; [|tauto]. destruct Hp as [<-|[]]. reflexivity.
  - apply in_flat_map in Hp. destruct Hp as (u & Hu & Hp). apply in_map_iff in Hp.
    destruct Hp as (q & <- & Hq). simpl. rewrite (IH u t q Hq). reflexivity.
Qed.

Lemma walks_head k s t p : In p (walks adj k s t) -> nth_error p 0 = Some s.
Proof.
  destruct k as [|k]; intros Hp; simpl in Hp.
  - destruct (s =? t); simpl in Hp; [|tauto]. destruct Hp as [<-|[]]. reflexivity.
  - apply in_flat_map in Hp. destruct Hp as (u & Hu & Hp). apply in_map_iff in Hp.
    destruct Hp as (q & <- & Hq). reflexivity.
Qed.

Definition atpos (i v : nat) (p : list nat) : bool :=
  match nth_error p i with Some x => x =? v | None => false end.

Lemma atpos_spec i v p : atpos i v p = true <-> nth_error p i = Some v.
Proof.
  unfold atpos. destruct (nth_error p i) as [x|].
  - rewrite Nat.eqb_eq. split; congruence.
  - split; discriminate.
Qed.

(** Walks with a given node at a given position. *)
Lemma count_at i : forall j s t v, length (filter (atpos i v) (walks adj (i + j) s t)) = W i s v * W j v t.
Proof.
  induction i as [|i IH]; intros j s t v.
  - rewrite W_0. change (0 + j) with j. destruct (s =? v) eqn:E.
    + apply Nat.eqb_eq in E. subst v. rewrite Nat.mul_1_l. unfold W. f_equal.
      rewrite (filter_ext_in _ (fun _ => true)).
      * induction (walks adj j s t) as [|a l IHl]; simpl; auto. rewrite IHl. auto.
      * intros p Hp. apply atpos_spec. exact (walks_head j s t p Hp).
    + rewrite (filter_ext_in _ (fun _ => false)).
      * induction (walks adj j s t); simpl; auto.
      * intros p Hp. destruct (atpos 0 v p) eqn:Ea; auto. apply atpos_spec in Ea.
        rewrite (walks_head j s t p Hp) in Ea. injection Ea as ->. rewrite Nat.eqb_refl in E. discriminate.
  - rewrite W_S. rewrite <- list_sum_mulr.
    change (S i + j) with (S (i + j)). simpl walks. rewrite filter_flat_map, flat_map_len.
    apply list_sum_ext. intros u _. rewrite filter_map_len.
    rewrite <- (IH j u t v). reflexivity.
Qed.

Lemma W_add i j s v t : 0 < W i s v -> 0 < W j v t -> 0 < W (i + j) s t.
Proof.
  intros Hi Hj. assert (H : 0 < W i s v * W j v t) by (apply Nat.mul_pos_pos; auto).
  rewrite <- count_at in H. unfold W.
  destruct (walks adj (i + j) s t); simpl in *; lia.
Qed.

Lemma W_edge s v : In v (adj s) -> 0 < W 1 s v.
Proof.
  intros Hv. rewrite W_S. apply list_sum_pos. exists v. split; auto. rewrite W_0, Nat.eqb_refl. lia.
Qed.

Lemma walk_node k s t p i v :
  In p (walks adj k s t) -> nth_error p i = Some v -> i <= k /\ 0 < W i s v /\ 0 < W (k - i) v t.
Proof.
  intros Hp Hi. assert (Hl : i < length p) by (apply nth_error_Some; congruence).
  rewrite (walks_len k s t p Hp) in Hl. split; [lia|].
  assert (H : 0 < length (filter (atpos i v) (walks adj (i + (k - i)) s t))).
  { replace (i + (k - i)) with k by lia.
    assert (In p (filter (atpos i v) (walks adj k s t))) as H.
    { apply filter_In. split; auto. apply atpos_spec. exact Hi. }
    destruct (filter (atpos i v) (walks adj k s t)); simpl in *; [tauto|lia]. }
  rewrite count_at in H. destruct (W i s v); destruct (W (k - i) v t); lia.
Qed.

Definition isdist (s v k : nat) : Prop := 0 < W k s v /\ forall j, j < k -> W j s v = 0.

Lemma isdist_le s v k j : isdist s v k -> 0 < W j s v -> k <= j.
Proof. intros [H1 H2] H. destruct (le_lt_dec k j); auto. rewrite H2 in H; lia. Qed.

Lemma isdist_inj s v k j : isdist s v k -> isdist s v j -> k = j.
Proof.
  intros H1 H2. pose proof (isdist_le s v k j H1 (proj1 H2)). pose proof (isdist_le s v j k H2 (proj1 H1)). lia.
Qed.

(** On a shortest walk a node stands at its distance. *)
Lemma geo_pos s t k p i v : isdist s t k -> In p (walks adj k s t) -> nth_error p i = Some v -> isdist s v i.
Proof.
  intros Hd Hp Hi. destruct (walk_node k s t p i v Hp Hi) as (Hik & H1 & H2).
  split; auto. intros j Hj. destruct (W j s v) eqn:E; auto. exfalso.
  assert (H3 : 0 < W (j + (k - i)) s t) by (apply (W_add j (k - i) s v t); lia).
  pose proof (isdist_le s t k (j + (k - i)) Hd H3). lia.
Qed.

Lemma geo_nodup s t k p : isdist s t k -> In p (walks adj k s t) -> NoDup p.
Proof.
  intros Hd Hp. apply NoDup_nth_error. intros i j Hi Hij.
  destruct (nth_error p i) as [v|] eqn:E.
  - apply (isdist_inj s v i j). apply (geo_pos s t k p i v Hd Hp E). apply (geo_pos s t k p j v Hd Hp). congruence.
  - exfalso. apply nth_error_None in E. lia.
Qed.

(** How many shortest walks pass through a node. *)
Lemma count_through s t k v j : isdist s t k -> isdist s v j -> j <= k ->
  length (filter (existsb (Nat.eqb v)) (walks adj k s t)) = W j s v * W (k - j) v t.
Proof.
  intros Hd Hv Hjk. rewrite <- count_at. replace (j + (k - j)) with k by lia. f_equal.
  apply filter_ext_in. intros p Hp. apply Bool.eq_true_iff_eq. rewrite atpos_spec, existsb_exists. split.
  - intros (x & Hx & Ex). apply Nat.eqb_eq in Ex. subst x. apply In_nth_error in Hx. destruct Hx as (i & Hi).
    rewrite <- (isdist_inj s v i j); auto. apply (geo_pos s t k p i v Hd Hp Hi).
  - intros Hi. exists v. split; [apply (nth_error_In p j Hi)|apply Nat.eqb_refl].
Qed.

Lemma count_through_none s t k v : isdist s t k -> (forall j, j <= k -> ~ isdist s v j) ->
  length (filter (existsb (Nat.eqb v)) (walks adj k s t)) = 0.
Proof.
  intros Hd Hv. rewrite (filter_ext_in _ (fun _ => false)).
  - induction (walks adj k s t); simpl; auto.
  - intros p Hp. destruct (existsb (Nat.eqb v) p) eqn:E; auto. exfalso. apply existsb_exists in E.
    destruct E as (x & Hx & Ex). apply Nat.eqb_eq in Ex. subst x. apply In_nth_error in Hx. destruct Hx as (i & Hi).
    destruct (walk_node k s t p i v Hp Hi) as (Hik & _). apply (Hv i Hik). apply (geo_pos s t k p i v Hd Hp Hi).
Qed.

Variable n : nat.
Hypothesis range : forall u v, u < n -> In v (adj u) -> v < n.
Hypothesis nodup : forall u, u < n -> NoDup (adj u).

Lemma W_range k : forall s t, s < n -> 0 < W k s t -> t < n.
Proof.
  induction k as [|k IH]; intros s t Hs H.
  - rewrite W_0 in H. destruct (s =? t) eqn:E; [|lia]. apply Nat.eqb_eq in E. lia.
  - rewrite W_S in H. apply list_sum_pos in H. destruct H as (u & Hu & Hw).
    apply (IH u t); auto. apply (range s u); auto.
Qed.

Lemma geo_bound s t k : s < n -> isdist s t k -> k < n.
Proof.
  intros Hs Hd. destruct (walks adj k s t) as [|p l] eqn:E.
  - destruct Hd as [H _]. unfold W in H. rewrite E in H. simpl in H. lia.
  - assert (Hp : In p (walks adj k s t)) by (rewrite E; left; auto).
    pose proof (geo_nodup s t k p Hd Hp) as Hn. pose proof (walks_len k s t p Hp) as Hl.
    assert (Hi : incl p (seq 0 n)).
    { intros v Hv. apply In_nth_error in Hv. destruct Hv as (i & Hi).
      destruct (walk_node k s t p i v Hp Hi) as (_ & H1 & _).
      apply in_seq. pose proof (W_range i s v Hs H1). lia. }
    pose proof (NoDup_incl_length Hn Hi) as H. rewrite seq_length in H. lia.
Qed.

Definition ind (b : bool) : nat := if b then 1 else 0.
Definition memb (x : nat) (l : list nat) : bool := existsb (Nat.eqb x) l.
Lemma memb_In x l : memb x l = true <-> In x l.
Proof.
  unfold memb. rewrite existsb_exists. split.
  - intros (y & Hy & E). apply Nat.eqb_eq in E. congruence.
  - intros H. exists x. split; auto. apply Nat.eqb_refl.
Qed.

Lemma seq_nodup k : NoDup (seq 0 k).
Proof. apply seq_NoDup. Qed.

(** Walks by their last edge. *)
Lemma W_last k : forall s t, s < n -> W (S k) s t = list_sum (map (fun u => W k s u * ind (memb t (adj u))) (seq 0 n)).
Proof.
  induction k as [|k IH]; intros s t Hs.
  - rewrite W_S. rewrite (list_sum_single _ (seq 0 n) s).
    + rewrite W_0, Nat.eqb_refl, Nat.mul_1_l. unfold ind. destruct (memb t (adj s)) eqn:E.
      * apply memb_In in E. rewrite (list_sum_single _ (adj s) t); auto.
        -- rewrite W_0, Nat.eqb_refl. auto.
        -- intros x _ Hx. rewrite W_0. destruct (x =? t) eqn:Ex; auto. apply Nat.eqb_eq in Ex. contradiction.
      * apply list_sum_0. intros x Hx. rewrite W_0. destruct (x =? t) eqn:Ex; auto. apply Nat.eqb_eq in Ex. subst x.
        apply memb_In in Hx. congruence.
    + apply seq_nodup.
    + apply in_seq. lia.
    + intros x _ Hx. rewrite W_0. destruct (s =? x) eqn:E; auto. apply Nat.eqb_eq in E. congruence.
  - rewrite W_S. rewrite (list_sum_ext _ (fun x => list_sum (map (fun u => W k x u * ind (memb t (adj u))) (seq 0 n)))).
    + rewrite list_sum_swap. apply list_sum_ext. intros u _. rewrite W_S. apply list_sum_mulr.
    + intros x Hx. apply IH. apply (range s x); auto.
Qed.

Lemma firstNonempty_walks s t k m : isdist s t k -> k < m ->
  firstNonempty (map (fun k => walks adj k s t) (seq 0 m)) = walks adj k s t.
Proof.
  intros Hd Hk.
  assert (H : forall j, j <= k -> firstNonempty (map (fun k => walks adj k s t) (seq (k - j) (m - (k - j)))) = walks adj k s t).
  { induction j as [|j IH]; intros Hj.
    - rewrite Nat.sub_0_r. replace (m - k) with (S (m - S k)) by lia. simpl.
      destruct Hd as [Hp _]. unfold W in Hp. destruct (walks adj k s t) eqn:E; [simpl in Hp; lia|]. auto.
    - replace (m - (k - S j)) with (S (m - (k - j))) by lia. simpl.
      assert (E : walks adj (k - S j) s t = []).
      { destruct Hd as [_ Hz]. apply length_zero_iff_nil. apply (Hz (k - S j)). lia. }
      rewrite E. replace (S (k - S j)) with (k - j) by lia. apply IH. lia. }
  specialize (H k (le_n k)). rewrite Nat.sub_diag, Nat.sub_0_r in H. exact H.
Qed.

Lemma shortest_dist s t k : s < n -> isdist s t k -> shortest n adj s t = walks adj k s t.
Proof. intros Hs Hd. apply firstNonempty_walks; auto. apply (geo_bound s t k Hs Hd). Qed.

Lemma shortest_none s t : (forall k, W k s t = 0) -> shortest n adj s t = [].
Proof.
  intros H. unfold shortest. induction (seq 0 n) as [|k l IH]; simpl; auto.
  rewrite (proj1 (length_zero_iff_nil _) (H k)). exact IH.
Qed.

End Walks.
