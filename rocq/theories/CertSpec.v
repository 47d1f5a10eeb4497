(** Clausal proofs by unit propagation, as a DRUP checker reads them. *)
Require Import List Verif.Base Verif.DbModel.
Import ListNotations.

(** [up P A l]: unit propagation on the clauses [P] makes [l] true when the literals [A] are true *)
Inductive up (P : formula) (A : list lit) : lit -> Prop :=
| up_assumed l : In l A -> up P A l
| up_unit c l : In c P -> In l c -> (forall m, In m c -> m <> l -> up P A (lneg m)) -> up P A l.

(** [rup P c]: unit propagation falsifies some clause of [P] when all literals of [c] are false *)
Definition rup (P : formula) (c : clause) : Prop :=
  exists d, In d P /\ forall m, In m d -> up P (map lneg c) (lneg m).

Definition same_lits (c c' : clause) : Prop := forall l, In l c <-> In l c'.

(** [derivation P ls Q]: the proof lines [ls], read from the first to the last, start with the clauses
    [P] and end with the clauses [Q]; every added clause is [rup] for the clauses present at that point
    and every deleted clause is present, with its literals in some order *)
Inductive derivation : formula -> list cline -> formula -> Prop :=
| d_nil P : derivation P [] P
| d_add P c ls Q : rup P c -> derivation (c :: P) ls Q -> derivation P (CAdd c :: ls) Q
| d_del P1 c' P2 c ls Q : same_lits c c' -> derivation (P1 ++ P2) ls Q -> derivation (P1 ++ c' :: P2) (CDel c :: ls) Q.

(** [rat P c]: every resolvent of [c] on its first literal is [rup] *)
Definition rat (P : formula) (c : clause) : Prop :=
  exists p r, c = p :: r /\ forall d, In d P -> In (lneg p) d -> rup P (c ++ filter (fun m => negb (Nat.eqb m (lneg p))) d).

(** the same as [derivation], with added clauses that are [rup] or [rat] *)
Inductive drat_derivation : formula -> list cline -> formula -> Prop :=
| dr_nil P : drat_derivation P [] P
| dr_add P c ls Q : rup P c \/ rat P c -> drat_derivation (c :: P) ls Q -> drat_derivation P (CAdd c :: ls) Q
| dr_del P1 c' P2 c ls Q : same_lits c c' -> drat_derivation (P1 ++ P2) ls Q -> drat_derivation (P1 ++ c' :: P2) (CDel c :: ls) Q.
