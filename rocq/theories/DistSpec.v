(** Specification of distances in a graph given by the lists of successors. *)
Require Import List Arith Bool.
Require Import Verif.Base Verif.GraphSpec.
Import ListNotations.

(** there is a walk with k edges from s to t *)
Inductive walk (adj : nat -> list nat) (s : nat) : nat -> nat -> Prop :=
| walk_nil : walk adj s 0 s
| walk_step k x y : walk adj s k x -> In y (adj x) -> walk adj s (S k) y.
(** the length of a shortest walk; None if there is no walk at all *)
Definition is_distance (adj : nat -> list nat) (s t : nat) (r : option nat) : Prop :=
  match r with
  | Some k => walk adj s k t /\ forall j, walk adj s j t -> k <= j
  | None => forall k, ~ walk adj s k t
  end.
(** the successors of nodes are nodes *)
Definition closed (n : nat) (adj : nat -> list nat) : Prop := forall x y, x < n -> In y (adj x) -> y < n.
(** how many entries are k *)
Definition occurrences (k : nat) (ds : list (option nat)) : nat := length (filter (fun o => match o with Some j => j =? k | None => false end) ds).

(** from the variable x to the variable y in k steps, each between two variables of one clause *)
Inductive chain (cls : list (bool * clause)) (x : var) : nat -> var -> Prop :=
| chain_nil : chain cls x 0 x
| chain_step k y z : chain cls x k y -> together cls y z -> chain cls x (S k) z.
Definition nearest (cls : list (bool * clause)) (x y : var) (r : option nat) : Prop :=
  match r with
  | Some k => chain cls x k y /\ forall j, chain cls x j y -> k <= j
  | None => forall k, ~ chain cls x k y
  end.
