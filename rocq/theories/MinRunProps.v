(** C67: the minimiser ends (Minimizer.cc), with the restart policy of its solver.  [O] and [bl] are arbitrary choices of heuristics and comparisons,
    [G] arbitrary options of the gate analyser. *)
Require Import List Arith Bool NArith Lia.
Require Import Verif.Base Verif.Outcome Verif.CNFModel Verif.GateModel Verif.GateSpec Verif.GateMore Verif.GateCases Verif.SolverModel Verif.SolverSpec Verif.RestartModel Verif.RestartSpec Verif.RestartProofs Verif.MinModel Verif.MinSpec
  Verif.MinProps Verif.MinRunModel Verif.MinRunProofs.
Import ListNotations.

(** Full statement: for every model of a problem the minimiser returns, the kept literals are a part of the model, and without pruning and
    projection they are a minimal implicant.  Missing: problems with 65535 variables or more (a fifth of it with the option for a minimum, whose counter has variables
    of its own), for which clauses can be too long for the header of a clause. *)
Theorem C67_returns_partial : forall C O bl nl nt G p m pruning minimal project,
  (0 < c_inc C)%N -> 1 <= nl -> 1 <= nt -> (forall k i, o_term (O k) i = false) ->
  wf_problem (variables p) (problem p) -> model_sat m (problem p) -> model_total (variables p) m ->
  (N.of_nat (variables p) < 65535)%N -> (minimal = true -> (N.of_nat (5 * variables p) < 65535)%N) ->
  exists N0 mm, (forall fuel, N0 <= fuel -> rmimimizeModel C O bl nl nt G fuel p m pruning minimal project = Ok mm) /\
    (forall l, In l (getModelLiterals mm) -> model_lit m l) /\
    (pruning = false -> project = false -> prime_implicant (getModelLiterals mm) (problem p)).
Proof. exact rmin_returns. Qed.
Print Assumptions C67_returns_partial.

(** It is the minimiser of C38: for some restarts that one gives the same result. *)
Theorem C67_refines : forall C O bl nl nt G fuel p m pruning minimal project mm,
  rmimimizeModel C O bl nl nt G fuel p m pruning minimal project = Ok mm ->
  exists f, mimimizeModel C (fun j => with_restart (f j) (O j)) G fuel p m pruning minimal project = Ok mm.
Proof. exact rmin_refine. Qed.
Print Assumptions C67_refines.

(** The counter of the option for a minimum has at most five times as many variables as the problem. *)
Theorem C67_counter_size : forall n, let (outputs, counter) := genParCounter n (map (fun v => mkLit v false) (seq 0 n)) cnf_empty in
  variables counter <= 5 * n /\ forall l, In l outputs -> lvar l < 5 * n.
Proof. exact counter_bound'. Qed.
Print Assumptions C67_counter_size.

(** ** A case *)
Example C67_case : (0 < c_inc default_cfg)%N /\ (forall k i, o_term (min_oracle 0 k) i = false) /\ wf_problem (variables min_case) (problem min_case) /\
  model_sat [Some true; Some true; Some true; Some true] (problem min_case) /\ model_total (variables min_case) [Some true; Some true; Some true; Some true] /\
  (N.of_nat (5 * variables min_case) < 65535)%N /\
  exists mm, rmimimizeModel default_cfg (min_oracle 0) (fun _ _ => false) 50 5000 patterns_only 100 min_case [Some true; Some true; Some true; Some true] false true false = Ok mm /\ getModelLiterals mm = [0; 2].
Proof.
  destruct C38_case as (A & B & D & E & _). split; [reflexivity|]. split; [exact E|]. split; [exact A|]. split; [exact B|]. split; [exact D|]. split; [vm_compute; reflexivity|].
  eexists. split; [vm_compute; reflexivity|reflexivity].
Qed.
Print Assumptions C67_case.
(** With too little fuel the model says so: the bound is needed. *)
Example C67_fuel_case : rmimimizeModel default_cfg (min_oracle 0) (fun _ _ => false) 50 5000 patterns_only 2 min_case [Some true; Some true; Some true; Some true] false false false = Err Fuel.
Proof. vm_compute. reflexivity. Qed.
