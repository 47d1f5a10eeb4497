(** Clausal proofs whose added clauses may be resolution asymmetric tautologies (RAT), for C50. *)
Require Import List Arith Verif.Base Verif.DbModel Verif.CertSpec.
Import ListNotations.

(** [found P c]: the clause [c] is a tautology, or unit propagation refutes its negation *)
Definition found (P : formula) (c : clause) : Prop := (exists l, In l c /\ In (lneg l) c) \/ rup P c.

(** [rat_on R P p c]: every resolvent of [c] on its literal [p] with a clause of [R] is [found] for the clauses [P] *)
Definition rat_on (R P : formula) (p : lit) (c : clause) : Prop :=
  In p c /\ forall d, In d R -> In (lneg p) d -> found P (c ++ filter (fun m => negb (m =? lneg p)) d).

(** [drat_proof P ls Q]: the lines [ls] start with the clauses [P] and end with the clauses [Q]; every added clause is
    [rup] for the clauses that are present or is [rat_on] one of its literals for them, every deleted clause is present *)
Inductive drat_proof : formula -> list cline -> formula -> Prop :=
| dp_nil P : drat_proof P [] P
| dp_add P c ls Q : rup P c \/ (exists p, rat_on P P p c) -> drat_proof (c :: P) ls Q -> drat_proof P (CAdd c :: ls) Q
| dp_del P1 c' P2 c ls Q : same_lits c c' -> drat_proof (P1 ++ P2) ls Q -> drat_proof (P1 ++ c' :: P2) (CDel c :: ls) Q.

(** The same with two more demands on a clause that is added as [rat_on] a literal [p]: the negation of [p] occurs in a clause that
    is present, and the resolvents with the clauses deleted before are found too ([A]: all clauses that were ever present). *)
Inductive strict_proof : formula -> formula -> list cline -> formula -> Prop :=
| sp_nil A P : strict_proof A P [] P
| sp_add A P c ls Q : rup P c \/ (exists p, rat_on A P p c /\ exists d, In d P /\ In (lneg p) d) ->
    strict_proof (c :: A) (c :: P) ls Q -> strict_proof A P (CAdd c :: ls) Q
| sp_del A P1 c' P2 c ls Q : same_lits c c' -> strict_proof A (P1 ++ P2) ls Q -> strict_proof A (P1 ++ c' :: P2) (CDel c :: ls) Q.
