(** C33-C37: gate recognition. *)
Require Import List Arith Bool NArith Lia Permutation.
Require Import Verif.Base Verif.Outcome Verif.CNFModel Verif.GateModel Verif.GateSpec Verif.BlockMore Verif.GateProofs Verif.GateMore Verif.DfsProofs Verif.GateCases.
Import ListNotations.

(** ** C33: the block list *)
(** The occurrence list of a literal is exactly the set of present clauses that contain it. *)
Theorem C33_occurrences : forall cs n ops R o, wf_problem n cs -> history cs ops R -> Forall (bop_ok cs n) ops -> o < 2 * n ->
  NoDup (occs (block_state cs n ops) o) /\ forall c, In c (occs (block_state cs n ops) o) <-> In c R /\ In o (cl cs c).
Proof. exact (fun cs n ops R o WF => occs_spec cs n WF ops R o). Qed.
Print Assumptions C33_occurrences.

(** The counter is the number of blocked clauses, in 16 bits. *)
Theorem C33_count : forall cs n ops R o, wf_problem n cs -> history cs ops R -> Forall (bop_ok cs n) ops -> o < 2 * n ->
  exists k, count_is (fun c => In c R /\ In o (cl cs c) /\ blocked cs R o c) k /\
            fst (getNumBlocked cs o (block_state cs n ops)) = (N.of_nat k mod 65536)%N.
Proof. exact (fun cs n ops R o WF => num_spec cs n WF ops R o). Qed.
Print Assumptions C33_count.

(** A set reported blocked is blocked; a blocked set of fewer than 65536 clauses is reported blocked. *)
Theorem C33_blocked_set : forall cs n ops R o, wf_problem n cs -> history cs ops R -> Forall (bop_ok cs n) ops -> o < 2 * n ->
  (fst (isBlockedSet cs o (block_state cs n ops)) = true -> forall c, In c R -> In o (cl cs c) -> blocked cs R o c) /\
  (forall k, count_is (fun c => In c R /\ In o (cl cs c)) k -> (N.of_nat k < 65536)%N ->
     (forall c, In c R -> In o (cl cs c) -> blocked cs R o c) -> fst (isBlockedSet cs o (block_state cs n ops)) = true).
Proof. exact (fun cs n ops R o WF => set_spec cs n WF ops R o). Qed.
Print Assumptions C33_blocked_set.

(** With 65536 occurrences the counter has wrapped: a blocked set is not recognised. *)
Theorem C33_overflow_refuted : exists cs n o, wf_problem n cs /\ o < 2 * n /\
  (forall c, In c (seq 0 (length cs)) -> In o (cl cs c) -> blocked cs (seq 0 (length cs)) o c) /\
  fst (isBlockedSet cs o (block_state cs n [])) = false.
Proof. exact overflow_refuted. Qed.
Print Assumptions C33_overflow_refuted.

(** stripUnblockedClauses returns exactly the present clauses that are not blocked on the literal (and, by [history], removes
    exactly those). *)
Theorem C33_strip : forall cs n ops R o, wf_problem n cs -> history cs ops R -> Forall (bop_ok cs n) ops -> o < 2 * n ->
  let r := fst (stripUnblockedClauses cs o (block_state cs n ops)) in
  NoDup r /\ forall c, In c r <-> In c R /\ In o (cl cs c) /\ ~ blocked cs R o c.
Proof. exact (fun cs n ops R o WF => strip_spec cs n WF ops R o). Qed.
Print Assumptions C33_strip.

(** getMinimallyUnblockedLiteral returns a literal with an unblocked clause, the least number of them among the literals
    that have any; it returns none only if every clause is blocked on every literal (below the range of the counter). *)
Theorem C33_minimal_literal : forall cs n ops R, wf_problem n cs -> history cs ops R -> Forall (bop_ok cs n) ops ->
  match fst (getMinimallyUnblockedLiteral cs n (block_state cs n ops)) with
  | Some o => o < 2 * n /\ (exists c, In c R /\ In o (cl cs c) /\ ~ blocked cs R o c) /\
     ((forall l k, l < 2 * n -> count_is (fun c => In c R /\ In l (cl cs c)) k -> (N.of_nat k < 65536)%N) ->
      forall k l j, unblocked_count cs R o k -> l < 2 * n -> unblocked_count cs R l j -> j = 0 \/ k <= j)
  | None => (forall l k, l < 2 * n -> count_is (fun c => In c R /\ In l (cl cs c)) k -> (N.of_nat k < 65535)%N) ->
      forall c l, In c R -> In l (cl cs c) -> blocked cs R l c
  end.
Proof. exact (fun cs n ops R WF => min_spec cs n WF ops R). Qed.
Print Assumptions C33_minimal_literal.

(** An and-gate with a further clause: a history with all operations, and the answers. *)
Example C33_case :
  let ops := [BNum 0; BRemove [4]; BSet 0; BMin; BStrip 0; BNum 1] in
  wf_problem 4 bcase /\ Forall (bop_ok bcase 4) ops /\ history bcase ops [0; 1; 2] /\
  fst (getNumBlocked bcase 0 (block_state bcase 4 [])) = 0%N /\
  fst (isBlockedSet bcase 0 (block_state bcase 4 [BNum 0; BRemove [4]])) = false /\
  fst (stripUnblockedClauses bcase 0 (block_state bcase 4 [BNum 0; BRemove [4]])) = [3] /\
  fst (isBlockedSet bcase 0 (block_state bcase 4 ops)) = true.
Proof. exact bcase_ok. Qed.

(** ** C34: partition *)
(** Without empty clauses, analysis ends for every option setting, timeout and solver behaviour, and every clause is in
    exactly one of the three parts. *)
Theorem C34_partition : forall cfg p, wf_problem (variables p) (problem p) -> (forall c, In c (problem p) -> c <> []) ->
  exists g, analyze cfg p = Ok g /\
    Permutation (roots g ++ flat_map (fun gt => g_fwd gt ++ g_bwd gt) (gates g) ++ remainder g) (seq 0 (length (problem p))).
Proof. exact partition_full. Qed.
Print Assumptions C34_partition.

(** In general, exactly the empty clauses are in none of them. *)
Theorem C34_partition_nonempty : forall cfg p, wf_problem (variables p) (problem p) ->
  exists g, analyze cfg p = Ok g /\
    Permutation (roots g ++ flat_map (fun gt => g_fwd gt ++ g_bwd gt) (gates g) ++ remainder g)
                (filter (fun c => negb (length (cl (problem p) c) =? 0)) (seq 0 (length (problem p)))).
Proof. exact partition_ok. Qed.
Print Assumptions C34_partition_nonempty.

(** The counts of gates and of monotonic gates are exact. *)
Theorem C34_counts : forall cfg p g, wf_problem (variables p) (problem p) -> analyze cfg p = Ok g ->
  count_is (fun v => defined (gates g) v = true) (gate_count g) /\ count_is (fun v => defined (gates g) v = true /\ g_notMono (nth v (gates g) gate_none) = false) (monoton_gate_count g).
Proof. exact counts_ok. Qed.
Print Assumptions C34_counts.

(** The output of every gate occurs when the gates are unfolded from the roots, and the gate counts as not nested monotonically
    exactly if the negated output occurs there, too. *)
Theorem C34_monotone : forall cfg p g v o, wf_problem (variables p) (problem p) -> analyze cfg p = Ok g -> g_out (nth v (gates g) gate_none) = Some o ->
  occurs (flat_map (cl (problem p)) (roots g)) (gates g) o /\
  (g_notMono (nth v (gates g) gate_none) = true <-> occurs (flat_map (cl (problem p)) (roots g)) (gates g) (lneg o)).
Proof. exact monotone_ok. Qed.
Print Assumptions C34_monotone.

(** So the parts of an unsatisfiable problem can be empty. *)
Theorem C34_empty_clause_refuted : exists p, p = readClauses cnf_empty [[]] /\ unsat (problem p) /\ forall cfg, exists g,
  analyze cfg p = Ok g /\ roots g = [] /\ flat_map (fun gt => g_fwd gt ++ g_bwd gt) (gates g) = [] /\ remainder g = [].
Proof. exact empty_refuted. Qed.
Print Assumptions C34_empty_clause_refuted.

Example C34_case : wf_problem 7 acase /\ exists g, analyze patterns_only (mkCnf acase 7) = Ok g /\
  roots g = [0; 9] /\ map (fun gt => (g_out gt, g_fwd gt, g_bwd gt, g_notMono gt)) (firstn 2 (gates g)) = [(Some 0, [1; 2], [3; 4], false); (Some 2, [5; 6], [7], true)] /\ gate_count g = 3 /\
  exists g1, analyze (mkCfg 1 true false false (fun _ => false) (fun _ _ => false)) (mkCnf acase 7) = Ok g1 /\ roots g1 = [0] /\ remainder g1 = [8; 9].
Proof. exact acase_ok. Qed.

(** ** C35: gates are definitions *)
(** Every gate: the clauses allow at least one value of the output, whatever the inputs are. *)
Theorem C35_left_total : forall cfg p g v o, wf_problem (variables p) (problem p) -> analyze cfg p = Ok g ->
  g_out (nth v (gates g) gate_none) = Some o -> lvar o = v /\ left_total (problem p) o (gate_clauses (nth v (gates g) gate_none)).
Proof. exact gates_left_total. Qed.
Print Assumptions C35_left_total.

(** Every gate reported as not monotonic: exactly one value (or, for a gate found by the holistic test, at most one in every
    model of the problem), provided that a gate with equally many forward and backward clauses has complete clauses when
    patterns are used.  Missing for the property as stated: see the refutation below. *)
Theorem C35_functional_partial : forall cfg p g v o, wf_problem (variables p) (problem p) -> analyze cfg p = Ok g ->
  let gt := nth v (gates g) gate_none in
  g_out gt = Some o -> g_notMono gt = true -> sound_solver cfg ->
  (usePatterns cfg = true -> length (g_fwd gt) = length (g_bwd gt) -> complete_clauses (problem p) gt) ->
  functional (problem p) o (gate_clauses gt) \/
  (useHolistic cfg = true /\ forall x, ~ (sat (make_true x o) (problem p) /\ sat (make_true x (lneg o)) (problem p))).
Proof. exact gates_functional. Qed.
Print Assumptions C35_functional_partial.

(** The clauses of a gate are clauses with the output or its negation, and the inputs are the other literals of the forward
    clauses. *)
Theorem C35_shape : forall cfg p g v o, wf_problem (variables p) (problem p) -> analyze cfg p = Ok g ->
  let gt := nth v (gates g) gate_none in g_out gt = Some o ->
  g_fwd gt <> [] /\ (forall c, In c (g_fwd gt) -> In (lneg o) (cl (problem p) c)) /\ (forall c, In c (g_bwd gt) -> In o (cl (problem p) c)) /\
  (forall l, In l (g_inp gt) <-> exists c, In c (g_fwd gt) /\ In l (cl (problem p) c) /\ l <> lneg o).
Proof. exact gates_shape. Qed.
Print Assumptions C35_shape.

(** A gate reported as not monotonic, found by its pattern, whose output is not determined by the inputs. *)
Theorem C35_pattern_refuted : exists g, analyze patterns_only (readClauses cnf_empty odd_gate) = Ok g /\
  let p := readClauses cnf_empty odd_gate in
  let gt := nth 1 (gates g) gate_none in
  wf_problem (variables p) (problem p) /\ g_out gt = Some 2 /\ g_notMono gt = true /\
  exists x, holds (problem p) (make_true x 2) (gate_clauses gt) /\ holds (problem p) (make_true x (lneg 2)) (gate_clauses gt).
Proof. exact pattern_refuted. Qed.
Print Assumptions C35_pattern_refuted.

Example C35_case : exists g, analyze patterns_only (mkCnf acase 7) = Ok g /\ let gt := nth 1 (gates g) gate_none in
  g_notMono gt = true /\ functional acase 2 (gate_clauses gt).
Proof. exact acase_functional. Qed.

(** ** C36: traversal *)
Theorem C36_traversal : forall prune gs root_lits, in_range gs root_lits -> exists es, traverseDFS prune gs root_lits = Ok es /\
  (NoDup (backtracked es) /\ (forall v, In v (backtracked es) <-> reachable prune gs root_lits v) /\
   (acyclic prune gs -> forall u v, In u (backtracked es) -> child prune gs u v -> before v u (backtracked es))) /\
  (NoDup (collected es) /\ forall v, In v (collected es) <-> reachable prune gs root_lits v) /\
  (NoDup (input_vars es) /\ forall v, In v (input_vars es) <->
     defined gs v = false /\ exists u, reachable prune gs root_lits u /\ exists i, In i (g_inp (nth u gs gate_none)) /\ lvar i = v).
Proof. exact (fun prune gs root_lits _ => dfs_ok prune gs root_lits). Qed.
Print Assumptions C36_traversal.

(** The topological order: every gate reachable from the roots once, after the gates of its inputs. *)
Theorem C36_topological_order : forall gs root_lits, in_range gs root_lits -> exists order, getTopoOrder gs root_lits = Ok order /\
  NoDup order /\ (forall v, In v order <-> reachable (fun _ => false) gs root_lits v) /\
  (acyclic (fun _ => false) gs -> forall u v, In u order -> child (fun _ => false) gs u v -> before v u order).
Proof. exact topo_ok. Qed.
Print Assumptions C36_topological_order.

(** The gates that an analysis recognises never depend on each other in a circle, so for them the order always exists. *)
Theorem C36_acyclic : forall cfg p g, wf_problem (variables p) (problem p) -> analyze cfg p = Ok g ->
  (forall prune, acyclic prune (gates g)) /\
  (forall root_lits, (forall l, In l root_lits -> lvar l < variables p) -> in_range (gates g) root_lits).
Proof. exact analyze_acyclic. Qed.
Print Assumptions C36_acyclic.
Theorem C36_analysis_order : forall cfg p g root_lits, wf_problem (variables p) (problem p) -> analyze cfg p = Ok g -> (forall l, In l root_lits -> lvar l < variables p) ->
  exists order, getTopoOrder (gates g) root_lits = Ok order /\ NoDup order /\ (forall v, In v order <-> reachable (fun _ => false) (gates g) root_lits v) /\
    forall u v, In u order -> child (fun _ => false) (gates g) u v -> before v u order.
Proof. exact analyze_order. Qed.
Print Assumptions C36_analysis_order.

Example C36_case : in_range dcase [0] /\ acyclic (fun _ => false) dcase /\ getTopoOrder dcase [0] = Ok [3; 2; 1; 0] /\
  exists es, traverseDFS (fun v => v =? 1) dcase [0] = Ok es /\ backtracked es = [3; 2; 0] /\ input_vars es = [5].
Proof. exact dcase_ok. Qed.

(** ** C37: gate builder *)
Theorem C37_and : forall x o a b, sat x (and_gate o a b true) <-> lit_val x o = lit_val x a && lit_val x b.
Proof. exact and_full. Qed.
Print Assumptions C37_and.
Theorem C37_or : forall x o a b, sat x (or_gate o a b true) <-> lit_val x o = lit_val x a || lit_val x b.
Proof. exact or_full. Qed.
Print Assumptions C37_or.
Theorem C37_xor : forall x o a b, sat x (xor_gate o a b true) <-> lit_val x o = xorb (lit_val x a) (lit_val x b).
Proof. exact xor_full. Qed.
Print Assumptions C37_xor.
(** the one-sided variants: the output implies the function *)
Theorem C37_half : forall x o a b,
  (sat x (and_gate o a b false) <-> implb (lit_val x o) (lit_val x a && lit_val x b) = true) /\
  (sat x (or_gate o a b false) <-> implb (lit_val x o) (lit_val x a || lit_val x b) = true) /\
  (sat x (xor_gate o a b false) <-> implb (lit_val x o) (xorb (lit_val x a) (lit_val x b)) = true).
Proof. exact (fun x o a b => conj (and_half x o a b) (conj (or_half x o a b) (xor_half x o a b))). Qed.
Print Assumptions C37_half.
Example C37_case : and_gate 0 2 5 true = [[1; 2]; [1; 5]; [0; 3; 4]] /\ satb (fun v => v =? 1) (and_gate 0 2 5 true) = false /\ satb (fun v => v <? 2) (and_gate 0 2 5 true) = true.
Proof. vm_compute. auto. Qed.
