(** Specification of sums of distances. *)
Require Import List Arith.
Require Import Verif.Base Verif.DistSpec.
Import ListNotations.

Definition reached (o : option nat) : nat := match o with Some k => k | None => 0 end.
(** the sum of the distances from u to all nodes that it reaches *)
Definition sum_from (n : nat) (adj : nat -> list nat) (u m : nat) : Prop :=
  exists ds, length ds = n /\ (forall v, v < n -> is_distance adj u v (nth v ds None)) /\ m = list_sum (map reached ds).
(** the sum of the distances to v from all nodes that reach it *)
Definition sum_to (n : nat) (adj : nat -> list nat) (v m : nat) : Prop :=
  exists ds, length ds = n /\ (forall u, u < n -> is_distance adj u v (nth u ds None)) /\ m = list_sum (map reached ds).
