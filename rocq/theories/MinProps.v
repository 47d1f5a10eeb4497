(** C38: minimised models (Minimizer.cc).  The minimiser runs the solver of SolverModel.v; [O] are arbitrary decisions of its
    heuristics and callbacks, [C] and [G] arbitrary options of the solver and of the gate analyser. *)
Require Import List Arith Bool NArith ZArith Lia.
Require Import Verif.Base Verif.Outcome Verif.CNFModel Verif.GateModel Verif.GateSpec Verif.GateMore Verif.GateCases Verif.SolverModel Verif.SolverSpec Verif.MinModel Verif.MinSpec Verif.MinMore Verif.MinCard.
Import ListNotations.

(** Without pruning and projection.  With them the property is false, see below. *)
Theorem C38_implicant_partial : forall C O G fuel p m minimal mm,
  wf_problem (variables p) (problem p) -> model_sat m (problem p) -> model_total (variables p) m ->
  mimimizeModel C O G fuel p m false minimal false = Ok mm -> implicant (getModelLiterals mm) (problem p).
Proof. exact min_implicant. Qed.
Print Assumptions C38_implicant_partial.

(** No kept literal can be given up, unless the solver is interrupted; and the option to compute a minimum changes nothing. *)
Theorem C38_prime : forall C O G fuel p m minimal mm,
  wf_problem (variables p) (problem p) -> model_sat m (problem p) -> model_total (variables p) m ->
  (forall k i, o_term (O k) i = false) -> mimimizeModel C O G fuel p m false minimal false = Ok mm ->
  prime_implicant (getModelLiterals mm) (problem p) /\ mimimizeModel C O G fuel p m false false false = Ok mm.
Proof. exact min_prime. Qed.
Print Assumptions C38_prime.

(** The kept literals are a part of the model, for all options. *)
Theorem C38_part_of_model : forall C O G fuel p m pruning minimal project mm,
  wf_problem (variables p) (problem p) -> model_sat m (problem p) -> model_total (variables p) m ->
  mimimizeModel C O G fuel p m pruning minimal project = Ok mm -> forall l, In l (getModelLiterals mm) -> model_lit m l.
Proof. exact min_subset. Qed.
Print Assumptions C38_part_of_model.

(** With pruning, the kept literals satisfy the roots, the clauses outside of gates and the clauses of the visited gates. *)
Theorem C38_pruned_partial : forall C O G fuel p m minimal mm g,
  wf_problem (variables p) (problem p) -> model_sat m (problem p) -> model_total (variables p) m ->
  mimimizeModel C O G fuel p m true minimal false = Ok mm -> analyze G p = Ok g ->
  exists ids, getPrunedProblem (problem p) g m = Ok ids /\ incl (roots g ++ remainder g) ids /\
    implicant (getModelLiterals mm) (map (cl (problem p)) ids).
Proof. exact min_pruned. Qed.
Print Assumptions C38_pruned_partial.

Theorem C38_defined : forall C O G fuel p m pruning minimal project,
  wf_problem (variables p) (problem p) -> model_total (variables p) m ->
  mimimizeModel C O G fuel p m pruning minimal project <> Err UB.
Proof. exact min_defined. Qed.
Print Assumptions C38_defined.

(** ** Cases *)
Definition min_oracle (l : lit) : nat -> oracle := fun _ =>
  mkOracle (fun _ => false) (fun _ => false) (fun _ => l) (fun _ _ => Nat.ltb) (fun _ => []) (fun _ => []).
Definition min_case : cnf := readClauses cnf_empty [[0; 2]; [0; 4]; [3; 0; 7]; [2; 4; 6]].
Ltac total_tac := intros v Hv; vm_compute in Hv; repeat (destruct v as [|v]; [discriminate|]); exfalso; lia.
Ltac msat_tac l := intros c Hc; vm_compute in Hc;
  repeat (destruct Hc as [<-|Hc]; [vm_compute; first [exists 0; split; [tauto|reflexivity] | exists 2; split; [tauto|reflexivity] | exists 4; split; [tauto|reflexivity] | exists 6; split; [tauto|reflexivity]
     | exists 7; split; [tauto|reflexivity] | exists 8; split; [tauto|reflexivity] | exists 1; split; [tauto|reflexivity] | exists 3; split; [tauto|reflexivity]]|]); destruct Hc.
Example C38_case : wf_problem (variables min_case) (problem min_case) /\ model_sat [Some true; Some true; Some true; Some true] (problem min_case) /\
  model_total (variables min_case) [Some true; Some true; Some true; Some true] /\
  (forall k i, o_term (min_oracle 0 k) i = false) /\
  exists mm, mimimizeModel default_cfg (min_oracle 0) patterns_only 100 min_case [Some true; Some true; Some true; Some true] false false false = Ok mm /\ getModelLiterals mm = [0; 2].
Proof.
  split; [apply wf_check; reflexivity|]. split; [msat_tac 0|]. split; [total_tac|]. split; [reflexivity|]. eexists. split; [vm_compute; reflexivity|reflexivity].
Qed.

(** ** Refutations *)
(** x4 and x4 -> (x0 or x1) and x0 = (x2 and x3), in the model x1, x2, x4 *)
Definition min_gate : cnf := readClauses cnf_empty [[8]; [9; 0; 2]; [1; 4]; [1; 6]; [5; 7; 0]].
Definition min_gate_model : model := [Some false; Some true; Some true; Some false; Some true].
Lemma min_gate_ok : wf_problem (variables min_gate) (problem min_gate) /\ model_sat min_gate_model (problem min_gate) /\ model_total (variables min_gate) min_gate_model.
Proof. split; [apply wf_check; reflexivity|]. split; [msat_tac 0|total_tac]. Qed.
Lemma not_implicant k f a : forallb (lit_val a) k = true -> satb a f = false -> ~ implicant k f.
Proof.
  intros H1 H2 H. assert (HS : sat a f) by (apply H; intros l Hl; rewrite forallb_forall in H1; apply H1; auto). apply satb_spec in HS. congruence.
Qed.
(** with pruning, x1 and x4 are kept: x0 may be true and x2 false *)
Theorem C38_pruning_refuted : exists p m mm, wf_problem (variables p) (problem p) /\ model_sat m (problem p) /\ model_total (variables p) m /\
  mimimizeModel default_cfg (min_oracle 0) patterns_only 100 p m true false false = Ok mm /\ ~ implicant (getModelLiterals mm) (problem p).
Proof.
  destruct min_gate_ok as (H1 & H2 & H3). exists min_gate, min_gate_model. eexists. split; [exact H1|]. split; [exact H2|]. split; [exact H3|].
  split; [vm_compute; reflexivity|]. apply (not_implicant _ _ (fun v => negb (v =? 2))); vm_compute; reflexivity.
Qed.
Print Assumptions C38_pruning_refuted.
(** with projection, the root x4 itself is given up *)
Theorem C38_projection_refuted : exists p m mm, wf_problem (variables p) (problem p) /\ model_sat m (problem p) /\ model_total (variables p) m /\
  mimimizeModel default_cfg (min_oracle 0) patterns_only 100 p m false false true = Ok mm /\ ~ implicant (getModelLiterals mm) (problem p).
Proof.
  destruct min_gate_ok as (H1 & H2 & H3). exists min_gate, min_gate_model. eexists. split; [exact H1|]. split; [exact H2|]. split; [exact H3|].
  split; [vm_compute; reflexivity|]. apply (not_implicant _ _ (fun v => v <? 3)); vm_compute; reflexivity.
Qed.
Print Assumptions C38_projection_refuted.
(** with the option to compute a minimum, two literals are kept where one is enough *)
Theorem C38_minimum_refuted : exists p m mm small, wf_problem (variables p) (problem p) /\ model_sat m (problem p) /\ model_total (variables p) m /\
  mimimizeModel default_cfg (min_oracle 1) patterns_only 100 p m false true false = Ok mm /\
  (forall l, In l small -> model_lit m l) /\ implicant small (problem p) /\ length small < length (getModelLiterals mm).
Proof.
  exists (readClauses cnf_empty [[0; 2]; [0; 4]]), [Some true; Some true; Some true]. eexists. exists [0].
  split; [apply wf_check; reflexivity|]. split; [msat_tac 0|]. split; [total_tac|]. split; [vm_compute; reflexivity|].
  split; [intros l [<-|[]]; reflexivity|]. split; [|vm_compute; lia].
  intros a Ha c Hc. exists 0. split; [|apply Ha; left; auto]. vm_compute in Hc. destruct Hc as [<-|[<-|[]]]; left; auto.
Qed.
Print Assumptions C38_minimum_refuted.

(** ** The cardinality constraint of the option for a minimum (Minimizer.h:55-136) *)
(** The constraint called "less than k" admits exactly the numbers up to k, k reduced to the width of the counter. *)
Theorem C38_less_than : forall a outs k, sat a (lessThan outs k []) <-> number a outs <= k mod 2 ^ length outs.
Proof. exact less_than_value. Qed.
Print Assumptions C38_less_than.
(** so it does not exclude k itself *)
Theorem C38_less_than_refuted : exists a outs k, sat a (lessThan outs k []) /\ ~ number a outs < k.
Proof. exists (fun v => v =? 0), [0; 2], 1. split; [apply less_than_value; vm_compute; lia|vm_compute; lia]. Qed.
Print Assumptions C38_less_than_refuted.
(** The clauses of the adders say that the sum bit is set if the number of true inputs is odd and the carry if it is at least two. *)
Theorem C38_adders : forall a x y c sum carry,
  (sat a (fullAdder x y c sum carry) <-> (Nat.odd (bit a x + bit a y + bit a c) = true -> lit_holds a sum) /\ (2 <= bit a x + bit a y + bit a c -> lit_holds a carry)) /\
  (sat a (halfAdder x c sum carry) <-> (Nat.odd (bit a x + bit a c) = true -> lit_holds a sum) /\ (2 <= bit a x + bit a c -> lit_holds a carry)).
Proof. intros. split; [apply full_adder_meaning|apply half_adder_meaning]. Qed.
Print Assumptions C38_adders.
(** The number at the outputs of a chain of adders is at least the sum of both numbers and the carry, unless the second number is
    longer than the first: its further bits are lost. *)
Theorem C38_addition : forall a xs ys c p o k p', Forall (PropSpec.clause_ok (variables p)) (problem p) -> add_bits xs ys c p = (o, k, p') -> sat a (problem p') ->
  sat a (problem p) /\ length o = length xs /\ number a xs + number a (firstn (length xs) ys) + bit a c <= number a (o ++ [k]).
Proof. exact adder_number. Qed.
Print Assumptions C38_addition.
(** Missing: other numbers of inputs, for which bits can be lost. *)
Theorem C38_counter_partial : forall a k ins outs p, length ins = 2 ^ k -> genParCounter (length ins) ins cnf_empty = (outs, p) -> sat a (problem p) ->
  length outs = S k /\ count_true a ins <= number a outs.
Proof. exact counter_lower. Qed.
Print Assumptions C38_counter_partial.
(** The variables of the counter are not new: with three inputs x0, x1, x2, no assignment with x1 but not x0 is left. *)
Theorem C38_counter_variables_refuted : exists n outs p (x : assignment), genParCounter n (inputs_of n) cnf_empty = (outs, p) /\ forall a, (forall v, v < n -> a v = x v) -> ~ sat a (problem p).
Proof. exact counter_excludes. Qed.
Print Assumptions C38_counter_variables_refuted.
(** Nor is the count right: with four inputs of which only the last is true the counter shows at least three. *)
Theorem C38_counter_refuted : exists n outs p, genParCounter n (inputs_of n) cnf_empty = (outs, p) /\
  (exists a, sat a (problem p) /\ count_true a (inputs_of n) = 1) /\ forall a, sat a (problem p) -> a 3 = true -> count_true a (inputs_of n) = 1 -> 3 <= number a outs.
Proof. exact counter_double. Qed.
Print Assumptions C38_counter_refuted.
(** The hypotheses are met. *)
Example C38_counter_case : exists a outs p, length (inputs_of 4) = 2 ^ 2 /\ genParCounter 4 (inputs_of 4) cnf_empty = (outs, p) /\ sat a (problem p) /\ count_true a (inputs_of 4) = 2.
Proof. exists (fun v => (v =? 0) || (v =? 3) || (v =? 4) || (v =? 5) || (v =? 6) || (v =? 7)). eexists. eexists. split; [reflexivity|]. split; [vm_compute; reflexivity|]. split; [apply sat_iff; vm_compute; reflexivity|vm_compute; reflexivity]. Qed.
