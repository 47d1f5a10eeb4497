(** Specification for SimpProps: the clause databases a solver can build, what their clauses mean,
    and the relation between two clauses that a subsumption test has to recognise. *)
Require Import List Arith Bool NArith Permutation.
Require Import Verif.Base Verif.Outcome Verif.TrailModel Verif.DbModel Verif.PropSpec.
Import ListNotations.

(** [dreach d]: the database [d] is the result of a history of database operations. *)
Inductive dreach : db -> Prop :=
| dr_new : dreach db_new
(** a problem with [n] variables is loaded *)
| dr_load d n cs d' : dreach d -> Forall (clause_ok (max n (nv d))) cs -> db_init n cs true d = Ok d' -> dreach d'
(** a clause is learnt or created by a simplification *)
| dr_create d ls lbd c d' : dreach d -> clause_ok (nv d) ls -> createClause ls lbd false d = Ok (c, d') -> dreach d'
| dr_remove d c : dreach d -> dreach (removeClause c d)
| dr_strengthen d c l c' d' : dreach d -> strengthenClause c l d = Ok (c', d') -> dreach d'
| dr_empty d : dreach d -> dreach (emptyClause d)
(** propagation permutes the literals of clauses *)
| dr_permute d a : dreach d -> length a = length (arena d) ->
    (forall c, Permutation (clits d c) (clits (with_arena d a) c) /\ cwt (with_arena d a) c = cwt d c) ->
    dreach (with_arena d a)
(** the LBD of a clause is re-estimated *)
| dr_lbd d c w : dreach d -> In c (cls d) -> 3 <= length (clits d c) -> dreach (with_arena d (set_wt c w (arena d)))
| dr_reorganize d : dreach d -> dreach (reorganize d).

(** no clause in the clause vector is marked as deleted *)
Definition no_deleted (d : db) : Prop := forall c, In c (cls d) -> isDeleted d c = false.

(** the clauses that are not deleted, and those among them that the solver never deletes because it
    regards them as too good *)
Definition live_formula (d : db) : formula := map (clits d) (filter (fun c => negb (isDeleted d c)) (cls d)).
Definition kept_formula (d : db) : formula := map (clits d) (filter (fun c => isPersistent d c) (cls d)).

(** [c] with exactly the literal [l] replaced by its negation is a subset of [d] *)
Definition subset_but (l : lit) (c d : clause) : Prop :=
  In l c /\ (forall m, In m (map (fun x => if x =? l then lneg l else x) c) -> In m d).
