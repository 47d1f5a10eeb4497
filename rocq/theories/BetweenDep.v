(** The recursion of dependencies behind the betweenness algorithm: lemmas for C61. *)
From Coq Require Import List Arith Bool Lia QArith Permutation.
Import ListNotations.
From Verif Require Import Base Outcome GraphModel GraphSpec BetweenWalks.
Open Scope nat_scope.

Lemma qsum_ext {A} (f g : A -> Q) l : (forall x, In x l -> (f x == g x)%Q) -> (qsum (map f l) == qsum (map g l))%Q.
Proof.
  induction l as [|a l IH]; simpl; intros H; [reflexivity|].
  rewrite (H a (or_introl eq_refl)). rewrite IH; [reflexivity|]. intros x Hx. apply H. auto.
Qed.
Lemma qsum_0 {A} (f : A -> Q) l : (forall x, In x l -> (f x == 0)%Q) -> (qsum (map f l) == 0)%Q.
Proof.
  induction l as [|a l IH]; simpl; intros H; [reflexivity|].
  rewrite (H a (or_introl eq_refl)). rewrite IH; [reflexivity|]. intros x Hx. apply H. auto.
Qed.
Lemma qsum_plus {A} (f g : A -> Q) l : (qsum (map (fun x => f x + g x) l) == qsum (map f l) + qsum (map g l))%Q.
Proof. induction l as [|a l IH]; simpl; [reflexivity|]. rewrite IH. ring. Qed.
Lemma qsum_mull {A} (f : A -> Q) c l : (qsum (map (fun x => c * f x) l) == c * qsum (map f l))%Q.
Proof. induction l as [|a l IH]; simpl; [ring|]. rewrite IH. ring. Qed.
Lemma qsum_swap {A B} (f : A -> B -> Q) l m :
  (qsum (map (fun x => qsum (map (f x) m)) l) == qsum (map (fun y => qsum (map (fun x => f x y) l)) m))%Q.
Proof.
  induction l as [|a l IH]; simpl.
  - symmetry. apply qsum_0. intros; reflexivity.
  - rewrite IH. rewrite <- qsum_plus. reflexivity.
Qed.
Lemma qsum_app l m : (qsum (l ++ m) == qsum l + qsum m)%Q.
Proof. induction l as [|a l IH]; simpl; [ring|]. rewrite IH. ring. Qed.
Lemma qsum_perm l m : Permutation l m -> (qsum l == qsum m)%Q.
Proof.
  induction 1; simpl; try reflexivity.
  - rewrite IHPermutation. reflexivity.
  - ring.
  - rewrite IHPermutation1. exact IHPermutation2.
Qed.
Lemma qsum_single {A} (f : A -> Q) l a :
  NoDup l -> In a l -> (forall x, In x l -> x <> a -> (f x == 0)%Q) -> (qsum (map f l) == f a)%Q.
Proof.
  induction l as [|b l IH]; simpl; intros Hn Hi Hz; [tauto|].
  inversion Hn; subst. destruct Hi as [->|Hi].
  - rewrite (qsum_0 f l); [ring|]. intros x Hx. apply Hz; auto. intros ->. contradiction.
  - rewrite (Hz b); [|auto|intros ->; contradiction]. rewrite IH; auto. ring.
Qed.
Lemma qsum_nonneg {A} (f : A -> Q) l : (forall x, In x l -> (0 <= f x)%Q) -> (0 <= qsum (map f l))%Q.
Proof.
  induction l as [|a l IH]; simpl; intros H; [apply Qle_refl|].
  rewrite <- (Qplus_0_l 0). apply Qplus_le_compat; auto.
Qed.
Lemma qsum_pos {A} (f : A -> Q) l : (forall x, In x l -> (0 <= f x)%Q) ->
  (exists x, In x l /\ (0 < f x)%Q) -> (0 < qsum (map f l))%Q.
Proof.
  induction l as [|a l IH]; simpl; intros H (x & Hx & Hp); [tauto|].
  destruct Hx as [->|Hx].
  - rewrite <- (Qplus_0_l 0). apply Qplus_lt_le_compat; auto. apply qsum_nonneg. auto.
  - apply Qlt_le_trans with (qsum (map f l)); [apply IH; eauto|].
    rewrite <- (Qplus_0_l (qsum (map f l))) at 1. apply Qplus_le_compat; [auto|apply Qle_refl].
Qed.
Lemma qsum_if {A} (p : A -> bool) (f : A -> Q) l :
  (qsum (map (fun x => if p x then f x else 0) l) == qsum (map f (filter p l)))%Q.
Proof. induction l as [|a l IH]; simpl; [reflexivity|]. destruct (p a); simpl; rewrite IH; ring. Qed.

Lemma qnat_plus a b : (qnat (a + b) == qnat a + qnat b)%Q.
Proof. unfold qnat. rewrite Nat2Z.inj_add, inject_Z_plus. reflexivity. Qed.
Lemma qnat_mult a b : (qnat (a * b) == qnat a * qnat b)%Q.
Proof. unfold qnat. rewrite Nat2Z.inj_mul, inject_Z_mult. reflexivity. Qed.
Lemma qnat_sum {A} (f : A -> nat) l : (qnat (list_sum (map f l)) == qsum (map (fun x => qnat (f x)) l))%Q.
Proof. induction l as [|a l IH]; simpl; [reflexivity|]. rewrite qnat_plus, IH. reflexivity. Qed.
Lemma qnat_nonneg a : (0 <= qnat a)%Q.
Proof. unfold qnat. change 0%Q with (inject_Z 0). rewrite <- Zle_Qle. lia. Qed.
Lemma qnat_pos a : 0 < a -> (0 < qnat a)%Q.
Proof. unfold qnat. change 0%Q with (inject_Z 0). rewrite <- Zlt_Qlt. lia. Qed.
Lemma qnat_nz a : 0 < a -> ~ (qnat a == 0)%Q.
Proof. intros H E. pose proof (qnat_pos a H) as P. rewrite E in P. exact (Qlt_irrefl 0 P). Qed.
Lemma qdiv_0 a : (a / 0 == 0)%Q.
Proof. unfold Qdiv. change (/ 0)%Q with 0%Q. ring. Qed.

Section Dep.
Variables (n : nat) (adj : nat -> list nat) (s : nat).
Hypothesis range : forall u v, u < n -> In v (adj u) -> v < n.
Hypothesis nodup : forall u, u < n -> NoDup (adj u).
Hypothesis src : s < n.
Notation W := (W adj).
Notation isdist := (isdist adj).
Variable D : nat -> nat.
(** [D] is the distance from [s], [n+1] for nodes out of reach. *)
Hypothesis HD : forall v, v < n -> isdist s v (D v) \/ ((forall k, W k s v = 0) /\ D v = S n).

Definition sig (v : nat) : nat := W (D v) s v.
Definition thr (v t : nat) : nat := if D v <=? D t then W (D t - D v) v t else 0.
Definition reach (v : nat) : Prop := v < n /\ isdist s v (D v).

Lemma sig_pos v : reach v -> 0 < sig v.
Proof. intros (_ & H & _). exact H. Qed.

Lemma reach_edge v w : reach v -> In w (adj v) -> reach w /\ D w <= S (D v).
Proof.
  intros (Hv & Hd) Hw. assert (Hwn : w < n) by (apply (range v w); auto).
  assert (Hp : 0 < W (D v + 1) s w).
  { apply (W_add adj (D v) 1 s v w). apply (proj1 Hd). apply W_edge. auto. }
  destruct (HD w Hwn) as [H|(H & _)].
  - split; [split; auto|]. pose proof (isdist_le adj s w (D w) (D v + 1) H Hp). lia.
  - rewrite H in Hp. lia.
Qed.

Lemma share_thr v t : v < n -> t < n -> (share n adj s t v == qnat (sig v) * qnat (thr v t) / qnat (sig t))%Q.
Proof.
  intros Hv Ht. unfold share.
  destruct (HD t Ht) as [Hdt|(Hz & _)].
  - rewrite (shortest_dist adj n range s t (D t) src Hdt). fold (qnat (length (walks adj (D t) s t))).
    fold (W (D t) s t). fold (sig t).
    fold (qnat (length (filter (existsb (Nat.eqb v)) (walks adj (D t) s t)))).
    assert (E : length (filter (existsb (Nat.eqb v)) (walks adj (D t) s t)) = sig v * thr v t).
    { unfold thr. destruct (Nat.leb_spec (D v) (D t)) as [Hle|Hgt].
      - destruct (HD v Hv) as [Hdv|(Hz & Hs)].
        + apply (count_through adj s t (D t) v (D v)); auto.
        + pose proof (geo_bound adj n range s t (D t) src Hdt). lia.
      - rewrite Nat.mul_0_r. apply count_through_none; auto. intros j Hj Hdj.
        destruct (HD v Hv) as [Hdv|(Hz & Hs)].
        + pose proof (isdist_inj adj s v _ _ Hdv Hdj). lia.
        + destruct Hdj as [Hp _]. rewrite Hz in Hp. lia. }
    rewrite E, qnat_mult. reflexivity.
  - assert (Es : sig t = 0) by apply Hz. rewrite Es. change (qnat 0) with 0%Q. rewrite qdiv_0.
    rewrite (shortest_none adj n s t Hz). simpl. reflexivity.
Qed.

Lemma thr_self v : thr v v = 1.
Proof. unfold thr. rewrite Nat.leb_refl, Nat.sub_diag, W_0, Nat.eqb_refl. reflexivity. Qed.

(** Successors in the graph of shortest walks. *)
Definition succs (v : nat) : list nat := filter (fun w => D w =? S (D v)) (adj v).

Lemma thr_rec v t : reach v -> reach t -> v <> t ->
  thr v t = list_sum (map (fun w => thr w t) (succs v)).
Proof.
  intros Hv Ht Hne. unfold succs.
  assert (Hsum : list_sum (map (fun w => thr w t) (filter (fun w => D w =? S (D v)) (adj v)))
    = list_sum (map (fun w => if D w =? S (D v) then thr w t else 0) (adj v))).
  { clear. induction (adj v) as [|a l IH]; simpl; auto. destruct (D a =? S (D v)); simpl; rewrite IH; auto. }
  rewrite Hsum. clear Hsum. unfold thr at 1.
  destruct (Nat.leb_spec (D v) (D t)) as [Hle|Hgt].
  - destruct (Nat.eq_dec (D v) (D t)) as [E|Hd].
    + rewrite E, Nat.sub_diag, W_0. destruct (v =? t) eqn:Ev; [apply Nat.eqb_eq in Ev; contradiction|].
      symmetry. apply list_sum_0. intros w _. destruct (D w =? S (D t)) eqn:Ew; auto.
      apply Nat.eqb_eq in Ew. unfold thr. destruct (Nat.leb_spec (D w) (D t)); auto. lia.
    + replace (D t - D v) with (S (D t - S (D v))) by lia. rewrite W_S. apply list_sum_ext. intros w Hw.
      destruct (D w =? S (D v)) eqn:Ew.
      * apply Nat.eqb_eq in Ew. unfold thr. destruct (Nat.leb_spec (D w) (D t)); [|lia]. rewrite Ew. reflexivity.
      * apply Nat.eqb_neq in Ew. destruct (W (D t - S (D v)) w t) eqn:E; auto. exfalso.
        destruct (reach_edge v w Hv Hw) as ((Hwn & Hdw) & Hle2).
        assert (H : 0 < W (D w + (D t - S (D v))) s t).
        { apply (W_add adj _ _ s w t). apply (proj1 Hdw). lia. }
        pose proof (isdist_le adj s t (D t) _ (proj2 Ht) H). lia.
  - symmetry. apply list_sum_0. intros w _. destruct (D w =? S (D v)) eqn:Ew; auto.
    apply Nat.eqb_eq in Ew. unfold thr. destruct (Nat.leb_spec (D w) (D t)); auto. lia.
Qed.

(** The dependency of [s] on [v]. *)
Definition dep (v : nat) : Q := qsum (map (fun t => if t =? v then 0%Q else share n adj s t v) (seq 0 n)).

Lemma dep_unreach v : v < n -> (forall k, W k s v = 0) -> (dep v == 0)%Q.
Proof.
  intros Hv Hz. unfold dep. apply qsum_0. intros t Ht. apply in_seq in Ht.
  destruct (t =? v); [reflexivity|]. rewrite share_thr; auto; [|lia].
  unfold sig at 1. rewrite Hz. change (qnat 0) with 0%Q. unfold Qdiv. ring.
Qed.

Lemma dep_rec v : reach v ->
  (dep v == qsum (map (fun w => qnat (sig v) / qnat (sig w) * (1 + dep w)) (succs v)))%Q.
Proof.
  intros Hv. unfold dep.
  assert (E1 : (qsum (map (fun t => if t =? v then 0%Q else share n adj s t v) (seq 0 n)) ==
    qsum (map (fun t => qsum (map (fun w => qnat (sig v) * (if t =? v then 0%Q else qnat (thr w t) / qnat (sig t))) (succs v))) (seq 0 n)))%Q).
  { apply qsum_ext. intros t Ht. apply in_seq in Ht. rewrite qsum_mull. destruct (t =? v) eqn:Et.
    - rewrite (qsum_0 _ (succs v)); [ring|]. intros; reflexivity.
    - apply Nat.eqb_neq in Et. rewrite share_thr; [|apply Hv|lia].
      destruct (HD t) as [Hdt|(Hz & _)]; [lia| |].
      + rewrite (thr_rec v t); [|auto|split; [lia|auto]|auto]. rewrite qnat_sum.
        unfold Qdiv. rewrite <- Qmult_assoc. rewrite (Qmult_comm (qsum _)). rewrite <- qsum_mull.
        apply Qmult_comp; [reflexivity|]. apply qsum_ext. intros w _. ring.
      + assert (Es : sig t = 0) by apply Hz. rewrite Es. change (qnat 0) with 0%Q. rewrite qdiv_0.
        rewrite (qsum_0 _ (succs v)); [ring|]. intros. apply qdiv_0. }
  rewrite E1. rewrite qsum_swap. apply qsum_ext. intros w Hw.
  unfold succs in Hw. apply filter_In in Hw. destruct Hw as (Hw & Ew). apply Nat.eqb_eq in Ew.
  destruct (reach_edge v w Hv Hw) as (Hrw & _).
  rewrite qsum_mull.
  assert (Ew2 : (qsum (map (fun t => if t =? v then 0 else qnat (thr w t) / qnat (sig t)) (seq 0 n))
     == (1 / qnat (sig w)) * (1 + qsum (map (fun t => if t =? w then 0 else share n adj s t w) (seq 0 n))))%Q).
  { assert (E3 : (qsum (map (fun t => if t =? v then 0 else qnat (thr w t) / qnat (sig t)) (seq 0 n))
      == qsum (map (fun t => (if t =? w then 1 / qnat (sig w) else 0) +
                  (1 / qnat (sig w)) * (if t =? w then 0 else share n adj s t w)) (seq 0 n)))%Q).
    { apply qsum_ext. intros t Ht. apply in_seq in Ht. destruct (t =? v) eqn:Et.
      - apply Nat.eqb_eq in Et. subst t. destruct (v =? w) eqn:Evw; [apply Nat.eqb_eq in Evw; subst w; lia|].
        rewrite share_thr; [|apply Hrw|lia]. unfold thr. destruct (Nat.leb_spec (D w) (D v)); [lia|].
        change (qnat 0) with 0%Q. unfold Qdiv. ring.
      - destruct (t =? w) eqn:Etw.
        + apply Nat.eqb_eq in Etw. subst t. rewrite thr_self. change (qnat 1) with 1%Q. ring.
        + rewrite share_thr; [|apply Hrw|lia]. assert (Hnz : ~ (qnat (sig w) == 0)%Q) by (apply qnat_nz, sig_pos; auto).
          assert (Ea : (0 + 1 / qnat (sig w) * (qnat (sig w) * qnat (thr w t) / qnat (sig t))
            == (qnat (sig w) * / qnat (sig w)) * (qnat (thr w t) / qnat (sig t)))%Q) by (unfold Qdiv; ring).
          rewrite Ea, (Qmult_inv_r _ Hnz). ring. }
    rewrite E3. rewrite qsum_plus, qsum_mull.
    rewrite (qsum_single (fun t => if t =? w then 1 / qnat (sig w) else 0)%Q (seq 0 n) w).
    - rewrite Nat.eqb_refl. ring.
    - apply seq_NoDup.
    - apply in_seq. destruct Hrw. lia.
    - intros x _ Hx. destruct (x =? w) eqn:E; [apply Nat.eqb_eq in E; contradiction|reflexivity]. }
  rewrite Ew2. unfold Qdiv. ring.
Qed.

End Dep.
