(** C11: the priority queue of variables. *)
Require Import List Arith Bool Verif.HeapModel Verif.HeapSpec Verif.HeapProofs.
Import ListNotations.

(** Membership test: exactly the elements inserted and not removed. *)
Theorem C11_membership : forall cap lt S h n, uses cap lt S h -> (inHeap h n = true <-> S n).
Proof. exact uses_member. Qed.
Print Assumptions C11_membership.

(** size() counts them, without duplicates. *)
Theorem C11_size : forall cap lt S h, uses cap lt S h ->
  exists l, NoDup l /\ (forall x, In x l <-> S x) /\ hsize h = length l.
Proof. exact uses_size. Qed.
Print Assumptions C11_size.

(** removeMin on a non-empty queue returns a member that no member precedes. *)
Theorem C11_removeMin_minimal : forall cap lt S h y, uses cap lt S h -> S y ->
  exists x h', removeMin lt h = Some (x, h') /\ S x /\ forall z, S z -> lt z x = false.
Proof. exact uses_removeMin. Qed.
Print Assumptions C11_removeMin_minimal.

(** No permitted call reads or writes out of bounds, fails an assertion or loops. *)
Theorem C11_defined : forall cap lt S h n lt' ns, uses cap lt S h ->
  (n < cap -> ~ S n -> hinsert lt n h <> None) /\
  (S n -> decrease lt' n h <> None) /\
  (S n -> increase lt' n h <> None) /\
  (n < cap -> hupdate lt' n h <> None) /\
  (NoDup ns -> (forall x, In x ns -> x < cap) -> hbuild lt' ns h <> None) /\
  hclear h <> None.
Proof. exact uses_defined. Qed.
Print Assumptions C11_defined.

(** Priorities 5 3 4 1 2 0 for the elements 0..5: build, drop the priority of 0 below the others,
    remove twice. *)
Definition C11_prio (first : nat) (x y : nat) : bool :=
  Nat.ltb (nth x [first; 3; 4; 1; 2; 9] 0) (nth y [first; 3; 4; 1; 2; 9] 0).
Example C11_case : exists cap S h, uses cap (C11_prio 0) S h /\ S 4 /\
  option_map fst (removeMin (C11_prio 0) h) = Some 3.
Proof.
  assert (W : forall k, strict_weak_order (C11_prio k)).
  { intros k. unfold C11_prio. constructor; intros *; rewrite ?Nat.ltb_lt, ?Nat.ltb_ge.
    - apply Nat.le_refl.
    - apply Nat.lt_trans.
    - intros H1 H2. apply Nat.le_trans with (2 := H1). exact H2. }
  pose proof (use_grow _ _ _ _ 7 (use_new (C11_prio 5) (W 5))) as U0.
  pose proof (fun P Q h E => use_build _ _ _ _ (C11_prio 5) [4; 3; 2; 1; 0] h U0 (W 5) P Q E) as U1.
  vm_compute in U1.
  specialize (U1 ltac:(repeat constructor; simpl; intuition discriminate)
                 ltac:(simpl; intuition; subst; repeat constructor) _ eq_refl).
  pose proof (fun P Q h E => use_insert _ _ _ _ 5 h U1 P Q E) as U2. vm_compute in U2.
  specialize (U2 ltac:(repeat constructor) ltac:(intuition discriminate) _ eq_refl).
  pose proof (fun P Q R h E => use_decrease _ _ _ _ 0 (C11_prio 0) h U2 P (W 0) Q R E) as U3.
  specialize (U3 ltac:(intuition)).
  assert (Q : only_priority_of 0 (C11_prio 5) (C11_prio 0)).
  { intros x y Hx Hy. unfold C11_prio. destruct x as [|x]; [congruence|]. destruct y as [|y]; [congruence|]. reflexivity. }
  specialize (U3 Q). assert (R : forall y, C11_prio 5 y 0 = false -> C11_prio 0 y 0 = false) by (intros y; destruct y; reflexivity).
  specialize (U3 R _ eq_refl).
  pose proof (use_removeMin _ _ _ _ 0 _ U3 eq_refl) as U4.
  do 3 eexists. split; [exact U4|]. split; [|vm_compute; reflexivity].
  split; [intuition|discriminate].
Qed.
