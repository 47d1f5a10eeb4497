(** Specification of the distribution of distances. *)
Require Import List Arith Bool QArith.
Require Import Verif.Base Verif.DistSpec.
Import ListNotations.
Open Scope nat_scope.

(** exactly m pairs of nodes have the distance k *)
Definition pairs_at (n : nat) (adj : nat -> list nat) (k m : nat) : Prop :=
  exists l, NoDup l /\ (forall i j, In (i, j) l <-> i < n /\ j < n /\ is_distance adj i j (Some k)) /\ length l = m.
(** the distances of all pairs of nodes with a walk between them add up to m *)
Definition total_distance (n : nat) (adj : nat -> list nat) (m : nat) : Prop :=
  exists l, NoDup l /\ (forall i j k, In (i, j, k) l <-> i < n /\ j < n /\ is_distance adj i j (Some k)) /\ list_sum (map snd l) = m.
