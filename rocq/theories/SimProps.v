(** C40: random simulation finds exactly the gate outputs that never differed. *)
Require Import List Arith Bool NArith.
Require Import Verif.Base Verif.Outcome Verif.CNFModel Verif.GateModel Verif.GateSpec Verif.BranchSpec.
Require Import Verif.SimModel Verif.SimSpec Verif.SimHist Verif.SimProp Verif.SimCases.
Import ListNotations.

(** Whatever vectors were simulated, for every compression schedule and if fingerprints do not collide: the backbones are exactly
    the output literals that were true in every simulated assignment, two literals of different outputs have always been equal
    exactly if they share a class (or their negations do) or are both backbones (or their negations are), classes hold at least
    two literals and no constant ones, and no variable occurs twice. *)
Theorem C40_conjectures : forall K size outs sched hist, 1 <= K -> hist <> [] -> (forall vs, In vs hist -> wf_vectors K size vs) -> wf_outputs outs size -> no_collisions K outs hist ->
  exists st cls bbs, updates sched outs (0, []) hist = Ok st /\ getConjectures outs (snd st) = Ok (cls, bbs) /\
    (forall l, In l bbs <-> In (lvar l) outs /\ always K hist l) /\
    (forall l m, In (lvar l) outs -> In (lvar m) outs -> lvar l <> lvar m ->
       (alike K hist l m <-> (exists c, In c cls /\ ((In l c /\ In m c) \/ (In (lneg l) c /\ In (lneg m) c))) \/
                             (In l bbs /\ In m bbs) \/ (In (lneg l) bbs /\ In (lneg m) bbs))) /\
    (forall c, In c cls -> 2 <= length c /\ forall l, In l c -> In (lvar l) outs /\ ~ always K hist l /\ ~ always K hist (lneg l)) /\
    good_conjectures size cls bbs.
Proof. exact partition_correct. Qed.
Print Assumptions C40_conjectures.

(** The order in which the gates are evaluated covers every gate below the roots once, its inputs are the variables without a gate. *)
Theorem C40_order : forall cfg p g, wf_problem (variables p) (problem p) -> analyze cfg p = Ok g ->
  exists ord, readGates None (problem p) (gates g) (root_lits p g) = Ok ord /\
  NoDup (outputs ord) /\ (forall v, In v (outputs ord) <-> reachable (fun _ => false) (gates g) (root_lits p g) v) /\
  NoDup (o_inputs ord) /\ (forall v, In v (o_inputs ord) <-> defined (gates g) v = false /\ exists u, reachable (fun _ => false) (gates g) (root_lits p g) u /\ exists i, In i (g_inp (nth u (gates g) gate_none)) /\ lvar i = v) /\
  (forall v, In v (outputs ord) \/ In v (o_inputs ord) -> v < o_amount ord).
Proof. exact order_correct. Qed.
Print Assumptions C40_order.

(** Every simulated assignment gives the inputs the values drawn for them and satisfies the clauses of every gate below the roots. *)
Theorem C40_simulation : forall cfg p g, wf_problem (variables p) (problem p) -> analyze cfg p = Ok g ->
  forall K, backward_covered (problem p) (gates g) -> forall ord, readGates None (problem p) (gates g) (root_lits p g) = Ok ord ->
  forall fills init, wf_vectors K (o_amount ord) init -> (forall fill v, In fill fills -> In v (o_inputs ord) -> wf_vec K (fill v)) ->
  exists hist, sim_steps K ord fills init = Ok hist /\ (forall vs, In vs hist -> wf_vectors K (o_amount ord) vs) /\
    Forall2 (fun (fill : var -> vec) vs => forall v, In v (o_inputs ord) -> nth v vs [] = fill v) fills hist /\
    (forall a v, simulated K hist a -> reachable (fun _ => false) (gates g) (root_lits p g) v -> holds (problem p) a (gate_clauses (nth v (gates g) gate_none))).
Proof. exact sim_steps_ok. Qed.
Print Assumptions C40_simulation.

(** A complete run. *)
Theorem C40_run : forall cfg p g, wf_problem (variables p) (problem p) -> analyze cfg p = Ok g ->
  forall K sched ord fills init, 1 <= K -> backward_covered (problem p) (gates g) -> readGates None (problem p) (gates g) (root_lits p g) = Ok ord ->
  wf_vectors K (o_amount ord) init -> fills <> [] -> (forall f v, In f fills -> In v (o_inputs ord) -> wf_vec K (f v)) -> (N.of_nat (o_amount ord) <= 2 ^ 28)%N ->
  (forall hist, sim_steps K ord fills init = Ok hist -> no_collisions K (outputs ord) hist) ->
  exists hist cls bbs, run K sched ord fills init = Ok (hist, (cls, bbs)) /\ length hist = length fills /\
    (forall a v, simulated K hist a -> In v (outputs ord) -> holds (problem p) a (gate_clauses (nth v (gates g) gate_none))) /\
    (forall l, In l bbs <-> In (lvar l) (outputs ord) /\ always K hist l) /\
    (forall l m, In (lvar l) (outputs ord) -> In (lvar m) (outputs ord) -> lvar l <> lvar m ->
       (alike K hist l m <-> (exists c, In c cls /\ ((In l c /\ In m c) \/ (In (lneg l) c /\ In (lneg m) c))) \/
                             (In l bbs /\ In m bbs) \/ (In (lneg l) bbs /\ In (lneg m) bbs))) /\
    (forall c, In c cls -> 2 <= length c /\ forall l, In l c -> In (lvar l) (outputs ord) /\ ~ always K hist l /\ ~ always K hist (lneg l)) /\
    good_conjectures (o_amount ord) cls bbs.
Proof. exact run_correct. Qed.
Print Assumptions C40_run.

(** A collision of fingerprints loses a class: outputs 0 and 1 had the same values throughout but are not reported. *)
Theorem C40_collision_refuted : exists K size outs hist ps, 1 <= K /\ hist <> [] /\ (forall vs, In vs hist -> wf_vectors K size vs) /\ wf_outputs outs size /\
  updates log_sched outs (0, []) hist = Ok ps /\ In 0 outs /\ In 1 outs /\ alike K hist (mkLit 0 false) (mkLit 1 false) /\ getConjectures outs (snd ps) = Ok ([], [mkLit 2 false]).
Proof. exact collision_refuted. Qed.
Print Assumptions C40_collision_refuted.
(** A literal can collide with its own negation: then the partition writes outside its array. *)
Theorem C40_self_collision_refuted : exists K size outs hist, 1 <= K /\ hist <> [] /\ (forall vs, In vs hist -> wf_vectors K size vs) /\ wf_outputs outs size /\
  updates log_sched outs (0, []) hist = Err UB.
Proof. exact self_collision_refuted. Qed.
Print Assumptions C40_self_collision_refuted.
(** Without the condition on backward clauses every simulation of the problem can read outside the simulation vectors. *)
Theorem C40_outside_refuted : exists p g ord, wf_problem (variables p) (problem p) /\ analyze plain_cfg p = Ok g /\ readGates None (problem p) (gates g) (root_lits p g) = Ok ord /\
  forall K fills init, 1 <= K -> fills <> [] -> wf_vectors K (o_amount ord) init -> (forall f v, In f fills -> wf_vec K (f v)) -> sim_steps K ord fills init = Err UB.
Proof. exact outside_refuted. Qed.
Print Assumptions C40_outside_refuted.
(** With a gate filter (whose enabled variables are never collected) no gate is simulated at all. *)
Theorem C40_filter_refuted : exists p g, wf_problem (variables p) (problem p) /\ analyze plain_cfg p = Ok g /\ (exists v, reachable (fun _ => false) (gates g) (root_lits p g) v) /\
  exists ord, readGates (Some []) (problem p) (gates g) (root_lits p g) = Ok ord /\ o_steps ord = [].
Proof. exact filter_refuted. Qed.
Print Assumptions C40_filter_refuted.

(** The hypotheses are met: three gates of which all are equal, two steps of 128 assignments. *)
Example C40_case : wf_problem 5 scase /\ analyze plain_cfg (mkCnf scase 5) = Ok scase_g /\ backward_covered scase (gates scase_g) /\
  readGates None scase (gates scase_g) (root_lits (mkCnf scase 5) scase_g) = Ok scase_ord /\ outputs scase_ord = [2; 1; 0] /\ o_inputs scase_ord = [3; 4] /\ o_amount scase_ord = 5 /\
  wf_vectors 2 5 (repeat [0; 0]%N 5) /\ (forall f v, In f sfills -> wf_vec 2 (f v)) /\
  sim_steps 2 scase_ord sfills (repeat [0; 0]%N 5) = Ok shist /\ no_collisions 2 [2; 1; 0] shist /\
  run 2 log_sched scase_ord sfills (repeat [0; 0]%N 5) = Ok (shist, ([[5; 3; 1]], [])).
Proof. exact scase_ok. Qed.
