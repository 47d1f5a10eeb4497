(** C45: cnf2aig translates a CNF problem to an and-inverter graph. *)
Require Import List Arith Bool.
Require Import Verif.Base Verif.Outcome Verif.CNFModel Verif.GateModel Verif.GateSpec Verif.AigModel Verif.AigSpec Verif.AigPrint Verif.AigCases.
Import ListNotations.

(** The circuit, when it is built: an evaluation that makes the root true is a model of the problem, and every model of the
    problem, restricted to the inputs, extends to an evaluation that makes the root true.
    Partial: the construction is undefined for the problems that C45_circuit_defined names. *)
Theorem C45_circuit_partial : forall cfg p a, wf_problem (variables p) (problem p) -> (forall c, In c (problem p) -> c <> []) -> problem p <> [] ->
  cnf2aig_circuit cfg p = Ok a ->
  (forall x, evaluation a x -> lit_val x (aig_root a) = true -> sat x (problem p)) /\
  (forall m, sat m (problem p) -> exists x, evaluation a x /\ lit_val x (aig_root a) = true /\ forall v, In v (aig_inputs a) -> x v = m v).
Proof. exact circuit_models. Qed.
Print Assumptions C45_circuit_partial.

(** The circuit is built if no recognised gate is used with negated output, and a write past the end of a vector happens
    otherwise. *)
Theorem C45_circuit_defined : forall cfg p, wf_problem (variables p) (problem p) -> (forall c, In c (problem p) -> c <> []) -> problem p <> [] ->
  exists g, analyze cfg p = Ok g /\
  (((forall v o, g_out (nth v (gates g) gate_none) = Some o -> ~ gate_uses (problem p) g (lneg o)) /\ exists a, cnf2aig_circuit cfg p = Ok a) \/
   ((exists v o, g_out (nth v (gates g) gate_none) = Some o /\ gate_uses (problem p) g (lneg o)) /\ cnf2aig_circuit cfg p = Err UB)).
Proof. exact circuit_defined. Qed.
Print Assumptions C45_circuit_defined.

(** The circuit can be printed only if it has no variables besides those of the problem and the root. *)
Theorem C45_print_defined : forall cfg p a, wf_problem (variables p) (problem p) -> (forall c, In c (problem p) -> c <> []) -> problem p <> [] ->
  cnf2aig_circuit cfg p = Ok a -> S (variables p) <= aig_vars a /\
  ((aig_vars a = S (variables p) /\ exists f, printAIG a = Ok f) \/ (S (variables p) < aig_vars a /\ printAIG a = Err UB)).
Proof. exact print_main. Qed.
Print Assumptions C45_print_defined.

(** The printed file: an assignment of the inputs that makes the output true extends to a model of the problem.  If the first
    variable occurs in no clause, the file is well formed, and a model of the problem gives inputs that make the output true.
    Partial: see the refutations below. *)
Theorem C45_file_partial : forall cfg p f, wf_problem (variables p) (problem p) -> cnf2aig cfg p = Ok f ->
  (forall x, aiger_evaluation f x -> lit_val x (f_output f) = true -> exists m, sat m (problem p) /\ forall v, In (mkLit v false) (f_inputs f) -> m v = x v) /\
  ((forall c l, In c (problem p) -> In l c -> lvar l <> 0) ->
   aiger_format f /\ forall m, sat m (problem p) -> exists x, aiger_evaluation f x /\ lit_val x (f_output f) = true /\ forall v, In (mkLit v false) (f_inputs f) -> x v = m v).
Proof. exact file_main. Qed.
Print Assumptions C45_file_partial.

Example C45_case : wf_problem (variables acase) (problem acase) /\ (forall c, In c (problem acase) -> c <> []) /\
  (forall c l, In c (problem acase) -> In l c -> lvar l <> 0) /\
  cnf2aig_circuit acfg acase = Ok (mkAig 8 [3; 5; 6] 14 [(14, 4, None); (4, 6, Some 8); (8, 10, Some 12)]) /\
  cnf2aig acfg acase = Ok (mkAiger 8 3 0 1 3 [6; 10; 12] 14 [(14, 4, 1); (4, 6, 8); (8, 10, 12)]).
Proof. exact a_case. Qed.

(** The first variable of the problem is printed as the constant false. *)
Theorem C45_first_variable_refuted : exists cfg p f, wf_problem (variables p) (problem p) /\ satisfiable (problem p) /\ cnf2aig cfg p = Ok f /\ ~ aiger_satisfiable f.
Proof. exact constant_refuted. Qed.
Print Assumptions C45_first_variable_refuted.

(** A single clause of two literals needs a fresh variable, which printing looks up past the end of a vector. *)
Theorem C45_print_refuted : exists cfg p a, wf_problem (variables p) (problem p) /\ (forall c, In c (problem p) -> c <> []) /\ (forall c l, In c (problem p) -> In l c -> lvar l <> 0) /\
  cnf2aig_circuit cfg p = Ok a /\ cnf2aig cfg p = Err UB.
Proof. exact fresh_refuted. Qed.
Print Assumptions C45_print_refuted.

(** An exclusive or of a gate uses the gate in both polarities. *)
Theorem C45_negated_gate_refuted : exists cfg p, wf_problem (variables p) (problem p) /\ (forall c, In c (problem p) -> c <> []) /\ (forall c l, In c (problem p) -> In l c -> lvar l <> 0) /\
  cnf2aig_circuit cfg p = Err UB.
Proof. exact negated_refuted. Qed.
Print Assumptions C45_negated_gate_refuted.
