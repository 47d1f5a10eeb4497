(** Specification for VEProps: clause databases after any number of rounds of simplification. *)
Require Import List Arith Bool NArith.
Require Import Verif.Base Verif.Outcome Verif.TrailModel Verif.DbModel Verif.SimpModel Verif.SimpSpec.
Import ListNotations.

(** [simplified d0 d s e]: starting with the clauses of [d0], rounds of subsumption and variable
    elimination, in any order, have led to the clauses of [d] and the elimination record [e].  The
    trail may be a different one in each round. *)
Inductive simplified (d0 : db) : db -> sdb -> ve -> Prop :=
| sm_start : simplified d0 d0 (sdb_init d0) ve_new
| sm_subsume ptr is d s e d' s' cnt : simplified d0 d s e ->
    subsume_list ptr is d s cnt0 = Ok (true, d', s', cnt) -> simplified d0 d' s' e
| sm_cleanup d s e : simplified d0 d s e -> simplified d0 d (sdb_cleanup s) e
| sm_eliminate active lim cand t d s e k d' s' e' t' : simplified d0 d s e -> nvt t = nv d0 ->
    eliminate active lim cand d s e t = Ok (true, k, d', s', e', t') -> simplified d0 d' s' e'.

(** the variables eliminated so far *)
Definition eliminated (e : ve) (v : var) : Prop := In v (ev e).

(** the assignment on the trail makes every clause of [F] true *)
Definition trail_satisfies (t : trail_t) (F : formula) : Prop :=
  forall c, In c F -> exists l, In l c /\ value t l = Some true.
(** the assignment on the trail gives a value to exactly the variables below [n] with [P] *)
Definition assigns (t : trail_t) (n : nat) (P : var -> Prop) : Prop :=
  forall v, v < n -> (vvalue t v <> None <-> P v).
