(** Words used to say which proofs the checker accepts (C50). *)
Require Import List NArith Verif.Base Verif.DbModel.
Import ListNotations.

(** the clauses that the lines of a proof add *)
Fixpoint lemmas (ls : list cline) : formula :=
  match ls with [] => [] | CAdd c :: r => c :: lemmas r | CDel _ :: r => lemmas r end.

(** a clause over the first [n] variables that names no variable twice and has less than 65536 literals *)
Definition proper (n : nat) (c : clause) : Prop :=
  NoDup (map lvar c) /\ (forall l, In l c -> lvar l < n) /\ (N.of_nat (length c) < 65536)%N.
