(** C56: the test for miters. *)
Require Import List Arith Bool Permutation.
Require Import Verif.Base Verif.Outcome Verif.CNFModel Verif.GateModel Verif.GateSpec Verif.SimProp Verif.GateCases Verif.MiterModel Verif.MiterSpec Verif.MiterProofs Verif.MiterCases.
Import ListNotations.
Open Scope nat_scope.

(** For the gates the analysis found, the test ends with an answer, whatever the order in which the set of border gates is iterated,
    and the answer is whether the structure is miter-like in the sense of MiterSpec.v. *)
Theorem C56_verdict : forall cfg p g order, wf_problem (variables p) (problem p) -> analyze cfg p = Ok g -> (forall l, Permutation (order l) l) ->
  exists b, hasPossiblyMiterStructure order (problem p) (gates g) (root_lits p g) = Ok b /\ (b = true <-> miter_like (problem p) (gates g) (root_lits p g)).
Proof. intros cfg p g order WF AN OR. exact (miter_ok cfg p g (root_lits p g) order WF AN OR). Qed.
Print Assumptions C56_verdict.

(** A border gate that passes the test for XOR gates and has two input variables really is one, in the direction that its nesting needs:
    its forward clauses say that the output implies the exclusive or of two literals of these variables. *)
Theorem C56_xor : forall cfg p g v o, wf_problem (variables p) (problem p) -> analyze cfg p = Ok g ->
  g_out (nth v (gates g) gate_none) = Some o -> two_input_variables (gates g) v -> isBinaryXORGate (problem p) (nth v (gates g) gate_none) = true ->
  exists a b, lvar a <> lvar b /\ (forall i, In i (inputs_of (gates g) v) -> lvar i = lvar a \/ lvar i = lvar b) /\
    forall x, holds (problem p) x (g_fwd (nth v (gates g) gate_none)) <-> (lit_holds x o -> xorb (lit_val x a) (lit_val x b) = true).
Proof.
  intros cfg p g v o WF AN EO T X. apply xor_gate_ok in X. destruct (xor_meaning cfg p g WF AN v o EO T X) as (a & b & H1 & H2 & _ & H3). exists a, b. exact (conj H1 (conj H2 H3)).
Qed.
Print Assumptions C56_xor.

(** The test for XOR gates never changes the answer: where it succeeds, the test for pairs of AND gates succeeds as well. *)
Theorem C56_aig_decides : forall cfg p g order b, wf_problem (variables p) (problem p) -> analyze cfg p = Ok g -> (forall l, Permutation (order l) l) ->
  hasPossiblyMiterStructure order (problem p) (gates g) (root_lits p g) = Ok b ->
  (b = true <-> (exists v, border (gates g) (root_lits p g) v) /\ next_to_nonmonotonous (gates g) (root_lits p g) /\
                (forall v, border (gates g) (root_lits p g) v -> two_input_variables (gates g) v) /\ aig_inputs (gates g) (root_lits p g)).
Proof. intros cfg p g order b WF AN OR. exact (miter_aig cfg p g (root_lits p g) order WF AN OR b). Qed.
Print Assumptions C56_aig_decides.

(** The comparison of x1 and x2 (an XOR gate over two AND gates) is accepted. *)
Example C56_case : wf_problem 5 mcase /\ analyze patterns_only (mkCnf mcase 5) = Ok mcase_g /\ root_lits (mkCnf mcase 5) mcase_g = [0] /\
  hasPossiblyMiterStructure (@rev var) mcase (gates mcase_g) [0] = Ok true /\ miter_like mcase (gates mcase_g) [0] /\ border (gates mcase_g) [0] 0 /\
  g_out (nth 0 (gates mcase_g) gate_none) = Some 0 /\ two_input_variables (gates mcase_g) 0 /\ xor_clauses mcase (nth 0 (gates mcase_g) gate_none) /\ inputs_of (gates mcase_g) 0 = [2; 3; 4; 5].
Proof. exact mcase_ok. Qed.

(** The test for pairs of AND gates does not look for pairs: a structure is accepted although no border gate is an XOR gate and no two
    border gates have the same input variables. *)
Theorem C56_pairs_refuted : exists p g, wf_problem (variables p) (problem p) /\ analyze patterns_only p = Ok g /\
  (forall order, (forall l, Permutation (order l) l) -> hasPossiblyMiterStructure order (problem p) (gates g) (root_lits p g) = Ok true) /\
  (forall v, border (gates g) (root_lits p g) v -> ~ xor_clauses (problem p) (nth v (gates g) gate_none)) /\
  (forall u v, border (gates g) (root_lits p g) u -> border (gates g) (root_lits p g) v ->
     (forall i, In i (inputs_of (gates g) u) -> exists j, In j (inputs_of (gates g) v) /\ lvar j = lvar i) -> u = v).
Proof. exact pairs_refuted. Qed.
Print Assumptions C56_pairs_refuted.

(** isBinaryXORGate, documented for arbitrary gates, accepts a gate that is no XOR of any two literals. *)
Theorem C56_xor_test_refuted : exists cs g, isBinaryXORGate cs g = true /\ g_out g = Some 0 /\
  forall a b, lvar a <> lvar b -> exists x, lit_holds x 0 /\ holds cs x (g_fwd g) /\ xorb (lit_val x a) (lit_val x b) = false.
Proof. exact xor_test_refuted. Qed.
Print Assumptions C56_xor_test_refuted.
