(** Histories of the solver with its restart policy. *)
Require Import List Arith Bool NArith ZArith.
Require Import Verif.Base Verif.Outcome Verif.ContainersModel Verif.TrailModel Verif.DbModel Verif.PropSpec Verif.SimpSpec Verif.SolverModel Verif.SolverSpec Verif.RestartModel.
Import ListNotations.

(** as [sreach] (SolverSpec), with the state of the restart policy: queues of [nl] LBDs and of [nt] trail sizes, which a
    solver keeps from one call of solve to the next *)
Inductive rreach (C : cfg) (nl nt : nat) : formula -> rst -> solver -> Prop :=
| rr_new : rreach C nl nt [] (rst_new nl nt) (solver_new C)
| rr_init F q s n cs s' : rreach C nl nt F q s -> Forall (clause_ok (max n (nvars s))) cs ->
    solver_init n cs true s = Ok s' -> rreach C nl nt (F ++ cs) q s'
| rr_assume F q s ls : rreach C nl nt F q s -> (forall l, In l ls -> lvar l < nvars s) -> rreach C nl nt F q (solver_assume ls s)
| rr_callback F q s cb : rreach C nl nt F q s -> rreach C nl nt F q (setLearntCallback cb s)
| rr_solve F q s O bl fuel x q' s' : rreach C nl nt F q s -> rsolve C O bl fuel q s = Ok (x, q', s') -> rreach C nl nt F q' s'.

(** the number of conflicts so far *)
Definition conflicts (s : solver) : N := sv_conf s.
(** the same oracle, but for the restarts *)
Definition with_restart (f : nat -> bool) (O : oracle) : oracle :=
  mkOracle (o_term O) f (o_pick O) (o_ptr O) (o_vars O) (o_cands O).
(** [k] restarts of one solve: the states in which a search begins *)
Inductive restarts (C : cfg) (O : oracle) (bl : N -> bool) (fuel : nat) (q : rst) (s : solver) : nat -> rst -> solver -> Prop :=
| rs_none : restarts C O bl fuel q s 0 q s
| rs_more k q1 s1 cs q2 s2 : restarts C O bl fuel q s k q1 s1 -> o_term O (sv_clk s1) = false ->
    rsolve_iter C O bl fuel q1 (tick s1) = Ok (None, cs, q2, s2) -> restarts C O bl fuel q s (S k) q2 s2.
