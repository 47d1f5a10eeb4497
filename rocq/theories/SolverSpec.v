(** Histories of a solver object. *)
Require Import List Arith Bool NArith ZArith.
Require Import Verif.Base Verif.Outcome Verif.TrailModel Verif.DbModel Verif.PropSpec Verif.SolverModel.
Import ListNotations.

(** The public operations of SolverInterface that change the solver.  [SSolve O fuel] is a call of
    solve() with arbitrary answers [O] of the branching heuristic, the restart policy, the termination
    callback, the sort algorithm and the memory layout. *)
Inductive sop :=
| SInit (n : nat) (cs : list clause) (lemma : bool)
| SAssume (ls : list lit)
| SCallback (cb : option Z)
| SSolve (O : oracle) (fuel : nat).

Definition nvars (s : solver) : nat := nv (sv_d s).
Definition assumptions (s : solver) : list lit := assum (sv_t s).

(** [sreach C ok F s]: a new solver with configuration [C] reaches [s] by operations that satisfy
    [ok]; [F] are the clauses added so far.  As after CNFProblem::readClause, no clause has two
    literals of one variable; assumptions are known variables.  An operation that returned an error
    (out of fuel, a clause of more than 65535 literals, undefined behaviour) ends the history. *)
Inductive sreach (C : cfg) (ok : sop -> Prop) : formula -> solver -> Prop :=
| sr_new : sreach C ok [] (solver_new C)
| sr_init F s n cs lemma s' : sreach C ok F s -> ok (SInit n cs lemma) -> Forall (clause_ok (max n (nvars s))) cs ->
    solver_init n cs lemma s = Ok s' -> sreach C ok (F ++ cs) s'
| sr_assume F s ls : sreach C ok F s -> ok (SAssume ls) -> (forall l, In l ls -> lvar l < nvars s) ->
    sreach C ok F (solver_assume ls s)
| sr_callback F s cb : sreach C ok F s -> ok (SCallback cb) -> sreach C ok F (setLearntCallback cb s)
| sr_solve F s O fuel x s' : sreach C ok F s -> ok (SSolve O fuel) -> solve C O fuel s = Ok (x, s') -> sreach C ok F s'.

(** every operation *)
Definition any_op (o : sop) : Prop := True.
(** clauses are loaded as problem clauses (the default) *)
Definition problem_op (o : sop) : Prop := match o with SInit _ _ lemma => lemma = true | _ => True end.
(** the same, before the first solve *)
Definition loading_op (o : sop) : Prop := match o with SInit _ _ lemma => lemma = true | SSolve _ _ => False | _ => True end.

(** the reported model (a list of values, CandySolverResult) makes a literal, a clause, a formula true *)
Definition model_lit (m : list (option bool)) (l : lit) : Prop := nth (lvar l) m None = Some (negb (lsign l)).
Definition model_clause (m : list (option bool)) (c : clause) : Prop := exists l, In l c /\ model_lit m l.
Definition model_sat (m : list (option bool)) (F : formula) : Prop := forall c, In c F -> model_clause m c.
(** every variable has a value *)
Definition model_total (n : nat) (m : list (option bool)) : Prop := forall v, v < n -> nth v m None <> None.

(** a literal in the format of the callback: variable number from 1, negative if negated *)
Definition external (l : lit) : Z := if lsign l then (- (1 + Z.of_nat (lvar l)))%Z else (1 + Z.of_nat (lvar l))%Z.
