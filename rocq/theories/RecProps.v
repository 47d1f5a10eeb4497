(** C57: the recursive clause order. *)
Require Import List Arith Bool NArith.
Require Import Verif.Base Verif.Outcome Verif.CNFModel Verif.GateModel Verif.GateSpec Verif.BranchSpec.
Require Import Verif.SimModel Verif.SimSpec Verif.SimHist Verif.SimProp Verif.SimCases Verif.RecModel Verif.RecSpec Verif.RecCases.
Import ListNotations.

(** With and without the filter: exactly the selected gates are evaluated, each after the gates that feed it; the inputs are the
    variables without a gate that feed the gates below the roots, each once; a gate is evaluated only once if no root literal of a
    gate is preceded by one from which the gate is reached, without the filter exactly then. *)
Theorem C57_order : forall cfg p g, wf_problem (variables p) (problem p) -> analyze cfg p = Ok g -> forall filtered,
  exists ord, readGatesRec filtered (problem p) g (root_lits p g) = Ok ord /\
  (forall v, In v (outputs ord) <-> selected filtered (gates g) (root_lits p g) v) /\
  (forall a v b c, outputs ord = a ++ v :: b -> child (fun _ => false) (gates g) v c -> In c a) /\
  NoDup (o_inputs ord) /\ (forall v, In v (o_inputs ord) <-> defined (gates g) v = false /\ exists u, reachable (fun _ => false) (gates g) (root_lits p g) u /\ exists i, In i (g_inp (nth u (gates g) gate_none)) /\ lvar i = v) /\
  (forall v, reachable (fun _ => false) (gates g) (root_lits p g) v \/ In v (o_inputs ord) -> v < o_amount ord) /\
  (roots_apart (gates g) (root_lits p g) -> NoDup (outputs ord)) /\ (filtered = false -> NoDup (outputs ord) -> roots_apart (gates g) (root_lits p g)).
Proof. exact rec_order. Qed.
Print Assumptions C57_order.

(** Also where gates are evaluated repeatedly, every simulated assignment gives the inputs the values drawn for them and satisfies
    the clauses of every selected gate. *)
Theorem C57_simulation : forall cfg p g, wf_problem (variables p) (problem p) -> analyze cfg p = Ok g ->
  forall filtered K, backward_covered (problem p) (gates g) -> forall ord, readGatesRec filtered (problem p) g (root_lits p g) = Ok ord ->
  forall fills init, wf_vectors K (o_amount ord) init -> (forall fill v, In fill fills -> In v (o_inputs ord) -> wf_vec K (fill v)) ->
  exists hist, sim_steps K ord fills init = Ok hist /\ (forall vs, In vs hist -> wf_vectors K (o_amount ord) vs) /\
    Forall2 (fun (fill : var -> vec) vs => forall v, In v (o_inputs ord) -> nth v vs [] = fill v) fills hist /\
    (forall a v, simulated K hist a -> selected filtered (gates g) (root_lits p g) v -> holds (problem p) a (gate_clauses (nth v (gates g) gate_none))).
Proof. exact rec_sim. Qed.
Print Assumptions C57_simulation.

(** A complete run in which no gate is evaluated twice. *)
Theorem C57_run : forall cfg p g, wf_problem (variables p) (problem p) -> analyze cfg p = Ok g ->
  forall filtered K sched ord fills init, 1 <= K -> backward_covered (problem p) (gates g) -> readGatesRec filtered (problem p) g (root_lits p g) = Ok ord -> roots_apart (gates g) (root_lits p g) ->
  wf_vectors K (o_amount ord) init -> fills <> [] -> (forall f v, In f fills -> In v (o_inputs ord) -> wf_vec K (f v)) -> (N.of_nat (o_amount ord) <= 2 ^ 28)%N ->
  (forall hist, sim_steps K ord fills init = Ok hist -> no_collisions K (outputs ord) hist) ->
  exists hist cls bbs, run K sched ord fills init = Ok (hist, (cls, bbs)) /\ length hist = length fills /\
    (forall a v, simulated K hist a -> In v (outputs ord) -> holds (problem p) a (gate_clauses (nth v (gates g) gate_none))) /\
    (forall l, In l bbs <-> In (lvar l) (outputs ord) /\ always K hist l) /\
    (forall l m, In (lvar l) (outputs ord) -> In (lvar m) (outputs ord) -> lvar l <> lvar m ->
       (alike K hist l m <-> (exists c, In c cls /\ ((In l c /\ In m c) \/ (In (lneg l) c /\ In (lneg m) c))) \/
                             (In l bbs /\ In m bbs) \/ (In (lneg l) bbs /\ In (lneg m) bbs))) /\
    good_conjectures (o_amount ord) cls bbs.
Proof. exact rec_run. Qed.
Print Assumptions C57_run.

(** Otherwise a literal can be reported as equivalent to itself. *)
Theorem C57_double_refuted : exists p g ord K fills init hist cls bbs c l, wf_problem (variables p) (problem p) /\ analyze plain_cfg p = Ok g /\ backward_covered (problem p) (gates g) /\
  readGatesRec false (problem p) g (root_lits p g) = Ok ord /\ wf_vectors K (o_amount ord) init /\ (forall f v, In f fills -> wf_vec K (f v)) /\ fills <> [] /\ no_collisions K (outputs ord) hist /\
  run K log_sched ord fills init = Ok (hist, (cls, bbs)) /\ In c cls /\ c = [l; l].
Proof. exact double_refuted. Qed.
Print Assumptions C57_double_refuted.

(** The hypotheses are met: o = a xor b, a = x xor y, b = x and y; only a and b are not nested monotonically. *)
Example C57_case : wf_problem 5 xcase /\ analyze plain_cfg (mkCnf xcase 5) = Ok xcase_g /\ backward_covered xcase (gates xcase_g) /\ roots_apart (gates xcase_g) (root_lits (mkCnf xcase 5) xcase_g) /\
  map (fun gt => g_notMono gt) (gates xcase_g) = [false; true; true; false; false] /\
  (forall filtered, readGatesRec filtered xcase xcase_g (root_lits (mkCnf xcase 5) xcase_g) = Ok (xcase_ord filtered)) /\ outputs (xcase_ord false) = [1; 2; 0] /\ outputs (xcase_ord true) = [1; 2] /\
  wf_vectors 2 5 (repeat [0; 0]%N 5) /\ (forall f v, In f sfills -> wf_vec 2 (f v)) /\ no_collisions 2 (outputs (xcase_ord true)) xhist /\
  run 2 log_sched (xcase_ord true) sfills (repeat [0; 0]%N 5) = Ok (xhist, ([], [])).
Proof. exact xcase_ok. Qed.
