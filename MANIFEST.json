{
 "claims": [
  {
   "property": "C01",
   "status": "proved",
   "theorems": [
    "C01_encoding",
    "C01_equality",
    "C01_inequality",
    "C01_order",
    "C01_adjacent",
    "C01_nat_literals_agree",
    "C01_beyond_bound_refuted"
   ],
   "note": "int32/bit-level model; the bound 2^30 is shown sharp by C01_beyond_bound_refuted."
  },
  {
   "property": "C02",
   "status": "proved",
   "theorems": [
    "C02_kleene",
    "C02_constructors"
   ],
   "note": "All four byte values lbool can hold are covered."
  },
  {
   "property": "C03",
   "status": "proved",
   "theorems": [
    "C03_models",
    "C03_stored_are_input",
    "C03_input_is_stored",
    "C03_nvars"
   ],
   "note": ""
  },
  {
   "property": "C04",
   "status": "proved",
   "theorems": [
    "C04_true_iff",
    "C04_false",
    "C04_defined",
    "C04_accepted_is_model",
    "C04_setModel",
    "C04_getModelLiterals",
    "C04_short_model_refuted"
   ],
   "note": "For partial results that leave a variable of an unsatisfied clause out of range the diagnostic output reads out of bounds (C04_short_model_refuted)."
  },
  {
   "property": "C05",
   "status": "proved",
   "theorems": [
    "C05_roundtrip"
   ],
   "note": "For every problem built by readClauses, any initial buffer content; fewer than 65536 literals per clause, fewer than 2^31 clauses."
  },
  {
   "property": "C06",
   "status": "partial",
   "theorems": [
    "C06_exact_partial",
    "C06_out_of_range_partial",
    "C06_negative_header_partial",
    "C06_misspelled_header_partial",
    "C06_boundary_refuted",
    "C06_long_line_refuted",
    "C06_no_newline_refuted",
    "C06_garbage_refuted"
   ],
   "note": "Exact for every text whose lines fit the buffer (clauses may span lines in files shorter than the buffer). False beyond: C06_boundary_refuted (0 read twice at the buffer boundary gives an empty clause), C06_long_line_refuted, C06_no_newline_refuted, C06_garbage_refuted (missing return instead of exception), overflow of 2*abs in C06_out_of_range_partial. A header line with a negative count, or that does not begin with \"p cnf\", is rejected (C06_negative_header_partial, C06_misspelled_header_partial)."
  },
  {
   "property": "C07",
   "status": "proved",
   "theorems": [
    "C07_renaming",
    "C07_models"
   ],
   "note": ""
  },
  {
   "property": "C08",
   "status": "partial",
   "theorems": [
    "C08_faithful_partial",
    "C08_stored_size",
    "C08_long_clause_refuted"
   ],
   "note": "Proved for clauses of fewer than 65536 literals; for longer ones the uint16_t length wraps: C08_stored_size gives the exact result for every length, C08_long_clause_refuted a satisfiable clause taken for the empty clause."
  },
  {
   "property": "C09",
   "status": "proved",
   "theorems": [
    "C09_stamp_is_a_set",
    "C09_stamp_defined"
   ],
   "note": "Any counter width, including Stamp<bool> (M = 1)."
  },
  {
   "property": "C10",
   "status": "proved",
   "theorems": [
    "C10_window",
    "C10_pop_refuted"
   ],
   "note": "push/fastclear histories (the operations used by Restart); pop() breaks the queue discipline (C10_pop_refuted)."
  },
  {
   "property": "C11",
   "status": "proved",
   "theorems": [
    "C11_membership",
    "C11_size",
    "C11_removeMin_minimal",
    "C11_defined"
   ],
   "note": ""
  },
  {
   "property": "C12",
   "status": "proved",
   "theorems": [
    "C12_history",
    "C12_pointers_stable",
    "C12_reallocate",
    "C12_import_absorb",
    "C12_database"
   ],
   "note": "Word-level memory model; single thread. C12_database links it to the abstract clause database of the solver theorems. Clauses have fewer than 65536 literals (see C08)."
  },
  {
   "property": "C13",
   "status": "proved",
   "theorems": [
    "C13_no_variable_twice",
    "C13_values",
    "C13_levels",
    "C13_backtrack_restores",
    "C13_defined",
    "C13_propagate_true_twice_refuted"
   ],
   "note": ""
  },
  {
   "property": "C14",
   "status": "proved",
   "theorems": [
    "C14_propagate_defined",
    "C14_propagate_reasons",
    "C14_propagate_entailed",
    "C14_propagate_conflict"
   ],
   "note": ""
  },
  {
   "property": "C15",
   "status": "proved",
   "theorems": [
    "C15_propagate_complete"
   ],
   "note": ""
  },
  {
   "property": "C16",
   "status": "proved",
   "theorems": [
    "C16_handle_conflict_defined",
    "C16_learnt_entailed"
   ],
   "note": "Over all states of the search loop (decisions, propagation, conflict analysis, learning, restarts, clause deletion, incremental clauses)."
  },
  {
   "property": "C17",
   "status": "proved",
   "theorems": [
    "C17_learnt_asserting",
    "C17_learn_step"
   ],
   "note": "The second literal has the backtrack level; asserting after backtracking is stated with backtrack itself."
  },
  {
   "property": "C18",
   "status": "proved",
   "theorems": [
    "C18_lbd",
    "C18_stamp_index_refuted",
    "C18_stamp_index"
   ],
   "note": ""
  },
  {
   "property": "C19",
   "status": "proved",
   "theorems": [
    "C19_final_clause",
    "C19_failed_core"
   ],
   "note": "Solver level (C19_failed_core: any configuration, any incremental history, any heuristics) and analyzeFinal on search states (C19_final_clause)."
  },
  {
   "property": "C20",
   "status": "partial",
   "theorems": [
    "C20_model_history_partial",
    "C20_model_first_partial",
    "C20_defined_history_partial",
    "C20_defined_first_partial",
    "C20_defined_unsat_partial",
    "C20_incremental_elimination_refuted",
    "C20_first_elimination_refuted",
    "C20_incremental_preprocessing_refuted",
    "C20_inprocessing_refuted"
   ],
   "note": "Proved without inprocessing: any history without preprocessing; the first solve with preprocessing and variable elimination (default options). Every other case is refuted: preprocessing in a later solve (C20_incremental_elimination_refuted, C20_incremental_preprocessing_refuted: wrong models, with and without variable elimination) and inprocessing in the first solve (C20_inprocessing_refuted). C20_first_elimination_refuted: write behind the trail, so the first-solve theorem speaks about runs that end."
  },
  {
   "property": "C21",
   "status": "proved",
   "theorems": [
    "C21_unsat_correct"
   ],
   "note": "All configurations, including preprocessing, inprocessing and variable elimination, any history, any heuristics."
  },
  {
   "property": "C22",
   "status": "partial",
   "theorems": [
    "C22_codes",
    "C22_unsat",
    "C22_failed",
    "C22_model_partial",
    "C22_model_first_partial",
    "C22_defined_partial",
    "C22_no_model",
    "C22_model_gone",
    "C22_unknown_assumption_refuted",
    "C22_default_model_refuted",
    "C22_val_before_solve_refuted"
   ],
   "note": "Answer 20 and failed(): any configuration and any call sequence. Answer 10 and val(): any session without pre- and inprocessing, and the first solve of any session without inprocessing (default options included); refuted for later solves with the default configuration (C22_default_model_refuted). Assuming a variable that occurs in no clause is UB (C22_unknown_assumption_refuted)."
  },
  {
   "property": "C23",
   "status": "proved",
   "theorems": [
    "C23_learn_callback"
   ],
   "note": "All configurations and histories."
  },
  {
   "property": "C24",
   "status": "proved",
   "theorems": [
    "C24_vsids",
    "C24_lrb",
    "C24_rsil",
    "C24_rsil_init",
    "C24_rsil_advice",
    "C24_rsil_backbone",
    "C24_solver_choice",
    "C24_vsids_defined",
    "C24_lrb_defined",
    "C24_vsids_max",
    "C24_exact_arithmetic",
    "C24_lrb_max_refuted",
    "C24_activity_refuted",
    "C24_extra_bump_refuted",
    "C24_stale_refuted"
   ],
   "note": "VSIDS, VSIDSC, LRB and all RSIL variants, over abstract arithmetic (so for IEEE doubles, including NaN). Maximality of the picked activity is proved for VSIDS with order-respecting arithmetic (exact rationals shown to be an instance) and refuted for LRB and for setActivity; the extra-bump option is refuted (out-of-bounds read)."
  },
  {
   "property": "C25",
   "status": "proved",
   "theorems": [
    "C25_removed_clauses",
    "C25_other_clauses",
    "C25_at_most_half_rounded",
    "C25_worst_first",
    "C25_median",
    "C25_nothing_locked",
    "C25_at_most_half_refuted"
   ],
   "note": "'At most half' holds up to rounding (C25_at_most_half_rounded) and is refuted literally (C25_at_most_half_refuted)."
  },
  {
   "property": "C26",
   "status": "proved",
   "theorems": [
    "C26_subsumed",
    "C26_strengthens",
    "C26_unrelated",
    "C26_resolvent",
    "C26_tautology_refuted"
   ],
   "note": ""
  },
  {
   "property": "C27",
   "status": "proved",
   "theorems": [
    "C27_subsumption_defined",
    "C27_subsumption_models",
    "C27_problem_clauses_kept",
    "C27_clauses_wellformed",
    "C27_deleted_clauses_refuted"
   ],
   "note": ""
  },
  {
   "property": "C28",
   "status": "proved",
   "theorems": [
    "C28_elimination_defined",
    "C28_models_kept",
    "C28_contradiction",
    "C28_models_extend",
    "C28_models_extend_kept",
    "C28_variables_gone",
    "C28_frozen"
   ],
   "note": ""
  },
  {
   "property": "C29",
   "status": "proved",
   "theorems": [
    "C29_reduction_defined",
    "C29_models",
    "C29_contradiction",
    "C29_problem_clauses_kept",
    "C29_clauses_wellformed"
   ],
   "note": ""
  },
  {
   "property": "C30",
   "status": "proved",
   "theorems": [
    "C30_checker_sound",
    "C30_checker_defined",
    "C30_unknown_variable_refuted",
    "C30_file_sound"
   ],
   "note": "Proved for every problem and every list of parsed proof lines; lines over unknown variables are memory errors (refuted theorem), lemmas with 65536 or more literals are outside (C08)."
  },
  {
   "property": "C31",
   "status": "partial",
   "theorems": [
    "C31_proof_valid_partial",
    "C31_first_valid_partial",
    "C31_ends_with_empty",
    "C31_proof_refutes",
    "C31_strengthen_order",
    "C31_later_preprocessing_refuted",
    "C31_first_elimination_refuted",
    "C31_correction_refuted",
    "C31_learnt_refuted"
   ],
   "note": "Proved for every history of loading, assuming, solving (learning, reduction, restarts, interruption) without preprocessing, where inprocessing may subsume, strengthen and reduce clauses but not eliminate variables; and for the first solve of every configuration without variable elimination, preprocessing included: the lines written are a derivation in which each added clause is RUP and each deleted clause present. For all configurations: UNSAT without failed assumptions ends with the empty clause, a strengthened clause is written before its parent is deleted. The remaining configurations are refuted: variable elimination by three witnesses (a unit clause from a clause that was already deleted; correction clauses written again; a learnt clause derived from deleted clauses that are still watched), preprocessing in a second solve by a fourth (C31_later_preprocessing_refuted: a clause already deleted is deleted again and then used)."
  },
  {
   "property": "C32",
   "status": "partial",
   "theorems": [
    "C32_separated_partial",
    "C32_allocator_reads",
    "C32_one_rebuild",
    "C32_collect_refuted",
    "C32_late_ready_refuted"
   ],
   "note": "Proved for all schedules: the allocator's own reads never touch a freed page and at most one thread rebuilds. The full claim is proved for schedules in which no thread is between reading the shared pages and announcing itself while another rebuilds them (C32_separated_partial), and refuted by two schedules without that (use after free). Not modelled: the vector of unit clauses, read without the lock."
  },
  {
   "property": "C33",
   "status": "proved",
   "theorems": [
    "C33_occurrences",
    "C33_count",
    "C33_blocked_set",
    "C33_overflow_refuted",
    "C33_strip",
    "C33_minimal_literal"
   ],
   "note": "Counts are exact modulo 65536 for every history; blocked sets reported are always blocked; complete below 65536 occurrences and refuted at 65536 (uint16_t counter)."
  },
  {
   "property": "C34",
   "status": "proved",
   "theorems": [
    "C34_partition",
    "C34_partition_nonempty",
    "C34_counts",
    "C34_monotone",
    "C34_empty_clause_refuted"
   ],
   "note": "Proved for problems without empty clauses and all options, timeouts and solver behaviours, including termination; exactly the empty clauses are in no part (refuted for them). The two gate counters are exact (C34_counts), and a gate counts as not nested monotonically exactly if its output occurs in both polarities when the gates are unfolded (C34_monotone)."
  },
  {
   "property": "C35",
   "status": "partial",
   "theorems": [
    "C35_left_total",
    "C35_functional_partial",
    "C35_shape",
    "C35_pattern_refuted"
   ],
   "note": "Functional for or/and/equivalence patterns, for complete 2^n tables and for the semantic test; refuted for the 2^n pattern in general."
  },
  {
   "property": "C36",
   "status": "proved",
   "theorems": [
    "C36_traversal",
    "C36_topological_order",
    "C36_acyclic",
    "C36_analysis_order"
   ],
   "note": "Every reachable gate exactly once, gates of the inputs first when acyclic, inputs exactly once, with pruning."
  },
  {
   "property": "C37",
   "status": "proved",
   "theorems": [
    "C37_and",
    "C37_or",
    "C37_xor",
    "C37_half"
   ],
   "note": "The builder has two-input gates only; both full and one-sided encodings."
  },
  {
   "property": "C38",
   "status": "partial",
   "theorems": [
    "C38_implicant_partial",
    "C38_prime",
    "C38_part_of_model",
    "C38_pruned_partial",
    "C38_defined",
    "C38_pruning_refuted",
    "C38_projection_refuted",
    "C38_minimum_refuted",
    "C38_less_than",
    "C38_less_than_refuted",
    "C38_adders",
    "C38_addition",
    "C38_counter_partial",
    "C38_counter_variables_refuted",
    "C38_counter_refuted"
   ],
   "note": "Without pruning and projection the kept literals are an implicant, prime unless the solver is interrupted; for all options they are a part of the model. With pruning they satisfy the roots, the clauses outside of gates and those of the visited gates (C38_pruned_partial). With pruning or projection the full claim is false (C38_pruning_refuted, C38_projection_refuted); the option for a minimum does not give one (C38_minimum_refuted). The clauses of the cardinality constraint are characterised exactly: \"less than k\" admits k, the counter reuses variables of the problem and counts the last input repeatedly (C38_less_than_refuted, C38_counter_variables_refuted, C38_counter_refuted)."
  },
  {
   "property": "C39",
   "status": "proved",
   "theorems": [
    "C39_injective",
    "C39_range",
    "C39_nonzero"
   ],
   "note": ""
  },
  {
   "property": "C40",
   "status": "proved",
   "theorems": [
    "C40_conjectures",
    "C40_order",
    "C40_simulation",
    "C40_run",
    "C40_collision_refuted",
    "C40_self_collision_refuted",
    "C40_outside_refuted",
    "C40_filter_refuted"
   ],
   "note": "Gate order, propagation, partition and conjectures proved for every run under no fingerprint collisions and backward clauses over inputs; both conditions shown necessary by refutations."
  },
  {
   "property": "C41",
   "status": "partial",
   "theorems": [
    "C41_verdict",
    "C41_verdict_correct",
    "C41_model_partial",
    "C41_definite",
    "C41_exit",
    "C41_locked_model",
    "C41_locked_exit",
    "C41_model_refuted",
    "C41_missing_model_refuted",
    "C41_late_result_refuted"
   ],
   "note": "The verdict is that of some thread for all interleavings. The model printed is that of a thread that answered SAT in every run without an interruption, and in every run whose publications are atomic; refuted with an interruption (C41_model_refuted). Also refuted: SAT without a model, INDETERMINATE with exit code 10."
  },
  {
   "property": "C42",
   "status": "proved",
   "theorems": [
    "C42_chunks",
    "C42_empty_chunk_refuted",
    "C42_hash",
    "C42_text_injective",
    "C42_empty_clause_refuted",
    "C42_dimacs_refuted"
   ],
   "note": ""
  },
  {
   "property": "C43",
   "status": "proved",
   "theorems": [
    "C43_iteration",
    "C43_addresses",
    "C43_sort",
    "C43_page_size_refuted"
   ],
   "note": ""
  },
  {
   "property": "C44",
   "status": "partial",
   "theorems": [
    "C44_defined",
    "C44_value_partial",
    "C44_invariant_partial",
    "C44_order_refuted"
   ],
   "note": "Partial: order independence without unit clauses; refuted in general."
  },
  {
   "property": "C45",
   "status": "partial",
   "theorems": [
    "C45_circuit_partial",
    "C45_circuit_defined",
    "C45_print_defined",
    "C45_file_partial",
    "C45_first_variable_refuted",
    "C45_print_refuted",
    "C45_negated_gate_refuted",
    "C45_program_partial",
    "C45_malformed"
   ],
   "note": "Circuit and file are correct whenever they are produced, the file if the first variable occurs in no clause; the exact conditions for the circuit and for printing to be defined are theorems; the full statement is refuted in three ways. C45_program_partial states it for the program from the bytes of the DIMACS file to the bytes printed. On malformed input nothing is printed (C45_malformed)."
  },
  {
   "property": "C46",
   "status": "proved",
   "theorems": [
    "C46_propagate_defined",
    "C46_propagate_reasons",
    "C46_propagate_entailed",
    "C46_propagate_conflict",
    "C46_propagate_complete",
    "C46_watched",
    "C46_detach",
    "C46_agree"
   ],
   "note": "Histories as for C14/C15 with StaticPropagate in place of Propagate."
  },
  {
   "property": "C47",
   "status": "proved",
   "theorems": [
    "C47_implications",
    "C47_meaning",
    "C47_delta",
    "C47_backbones",
    "C47_backbone_delta",
    "C47_opposite_backbones_refuted"
   ],
   "note": "Precondition: the variables of a conjecture are different; with opposite backbones refuted."
  },
  {
   "property": "C48",
   "status": "proved",
   "theorems": [
    "C48_defined",
    "C48_sound",
    "C48_complete",
    "C48_harmless",
    "C48_assumptions",
    "C48_guards",
    "C48_enabled"
   ],
   "note": "Precondition: all variables of the equivalences are different, so are those of the backbones, and all are smaller than the new variables."
  },
  {
   "property": "C49",
   "status": "partial",
   "theorems": [
    "C49_unsat",
    "C49_unsat_assuming",
    "C49_model_history_partial",
    "C49_model_first_partial",
    "C49_one_solve",
    "C49_program_unsat",
    "C49_program_model",
    "C49_program_runs",
    "C49_assumptions_refuted",
    "C49_default_options_refuted",
    "C49_few_gates_refuted"
   ],
   "note": "Unsatisfiable answers for all histories and configurations; models under the conditions of C20; the caller's assumptions are refuted, as are the default options of the program."
  },
  {
   "property": "C50",
   "status": "partial",
   "theorems": [
    "C50_accepts_valid_partial",
    "C50_accepts_solver_partial",
    "C50_own_proof_refuted",
    "C50_preprocessing_refuted",
    "C50_deletion_refuted",
    "C50_repeated_refuted",
    "C50_accepts_rat_partial",
    "C50_pure_refuted",
    "C50_extension_refuted",
    "C50_unit_deletion_refuted",
    "C50_second_deletion_refuted"
   ],
   "note": "Proofs by unit propagation with deletions, when the problem has no contradictory unit clauses and no lemma of two or more literals is false by unit clauses alone; both conditions are needed (refuted theorems). RAT lemmas when the negation of the pivot occurs in a present clause and the resolvents with deleted clauses are found too; for pure literals (extended resolution), after the deletion of a unit clause and after a second deletion the statement is refuted. The proof that a first solve without simplification writes is accepted for all choices of the heuristics; with preprocessing it may be rejected (refuted)."
  },
  {
   "property": "C51",
   "status": "partial",
   "theorems": [
    "C51_values",
    "C51_defaults",
    "C51_unambiguous",
    "C51_unknown_flag",
    "C51_help",
    "C51_stdin",
    "C51_file",
    "C51_input_partial",
    "C51_range_refuted",
    "C51_number_refuted",
    "C51_long_text_refuted",
    "C51_file_name_refuted",
    "C51_stdin_refuted"
   ],
   "note": "Values, defaults, order, unknown flags and help for all argument lists. The choice of the input depends on an uninitialised variable (partial and refuted theorems, with an exact condition); ranges, malformed numbers, long texts and file names with --help are refuted. The value of a double option is the text given to strtod. The default values and ranges are pinned by C51_defaults."
  },
  {
   "property": "C52",
   "status": "partial",
   "theorems": [
    "C52_text",
    "C52_written",
    "C52_solver_file_partial",
    "C52_no_newline_refuted"
   ],
   "note": "All texts in the format whose lines fit the buffer; the written text of every list with variables below 2^30 and fewer than 65536 literals per line. The file of a first solve is accepted without simplification and without contradictory units (partial). A file without a final newline is refuted."
  },
  {
   "property": "C53",
   "status": "partial",
   "theorems": [
    "C53_malformed",
    "C53_unsat",
    "C53_sat_partial",
    "C53_values",
    "C53_exit_code",
    "C53_verified",
    "C53_model_test_partial",
    "C53_proof_test_partial",
    "C53_defined_partial",
    "C53_answers_partial",
    "C53_ends_partial",
    "C53_tested_partial",
    "C53_lines_partial",
    "C53_one_result",
    "C53_missing_file",
    "C53_default_crash_refuted",
    "C53_inprocessing_refuted",
    "C53_queue_refuted",
    "C53_proof_test_refuted",
    "C53_lrb_line_refuted"
   ],
   "note": "One thread, every combination of options that the model covers (others are the outcome Unmodelled). Unsatisfiable answers, values, exit codes, verified results and the result line in full; models and self test without inprocessing, definedness without elimination, that the program answers without elimination, that it answers or crashes with the default options, and that both self tests succeed without simplification (partial). Default options, inprocessing, contradictory units, -use-lrb and -szLBDQueue=0 are refuted. On malformed input the program prints the text of the exception and no result (C53_malformed)."
  },
  {
   "property": "C54",
   "status": "partial",
   "theorems": [
    "C54_terminates_partial",
    "C54_decides_partial",
    "C54_decides_first_partial",
    "C54_ends_partial",
    "C54_default_decides_partial",
    "C54_preprocessing_ends",
    "C54_refines",
    "C54_restart_gap",
    "C54_policy_defined"
   ],
   "note": "Termination with a bound that depends on the state only, decision, refinement to the solver of C19-C23, distance of restarts, definedness of the policy. Preprocessing always ends; with variable elimination a solve returns or has undefined behaviour, and the first one is right if it returns. Missing: inprocessing, incReduceDB = 0, 65535 or more variables, the wrap of the 32-bit reduction limit."
  },
  {
   "property": "C55",
   "status": "proved",
   "theorems": [
    "C55_defined",
    "C55_steps_sound",
    "C55_steps_complete",
    "C55_last",
    "C55_probe",
    "C55_shared_refuted",
    "C55_filter"
   ],
   "note": "Construction and all steps are defined; soundness and completeness of the assumptions after any number of steps; nothing left behind the last limit; probe; filter of the advice. Conjectures must be over different variables (C55_shared_refuted otherwise)."
  },
  {
   "property": "C56",
   "status": "proved",
   "theorems": [
    "C56_verdict",
    "C56_xor",
    "C56_aig_decides",
    "C56_pairs_refuted",
    "C56_xor_test_refuted"
   ],
   "note": "Exact verdict for all analysed problems and iteration orders; meaning of accepted XOR gates; the XOR test is redundant. That an accepted structure compares two circuits is false (C56_pairs_refuted)."
  },
  {
   "property": "C57",
   "status": "proved",
   "theorems": [
    "C57_order",
    "C57_simulation",
    "C57_run",
    "C57_double_refuted"
   ],
   "note": "Order, simulation and complete runs with and without the filter. That every gate is listed once is false (exact condition in C57_order, C57_double_refuted)."
  },
  {
   "property": "C58",
   "status": "partial",
   "theorems": [
    "C58_picks",
    "C58_no_conjectures",
    "C58_random_nonzero",
    "C58_schedule",
    "C58_vanished",
    "C58_vanishing_full_partial",
    "C58_halflife_refuted",
    "C58_budget",
    "C58_budget_full",
    "C58_init_again",
    "C58_refill_refuted",
    "C58_generate",
    "C58_max_var",
    "C58_count_equivalences",
    "C58_builder_partial",
    "C58_builder_refuted"
   ],
   "note": "Partial because three parts of the statement are false of the code: the half-life is counted in calls, not decisions (C58_halflife_refuted; C58_vanishing_full_partial holds for half as many decisions), every init fills the budgets again (C58_refill_refuted), and the builder exchanges the two restricted variants (C58_builder_refuted; C58_builder_partial covers the other cases). The rest is proved."
  },
  {
   "property": "C59",
   "status": "partial",
   "theorems": [
    "C59_words",
    "C59_simple",
    "C59_cyclic",
    "C59_direction",
    "C59_direction_refuted",
    "C59_alternate_refuted",
    "C59_default_refuted",
    "C59_undefined",
    "C59_rounds",
    "C59_run",
    "C59_open",
    "C59_forever",
    "C59_fresh"
   ],
   "note": "Partial because two documented parts are false of the code: the direction of the bias is reversed (C59_direction_refuted; C59_direction holds of the code for all parameters), and an alternating strategy never uses its second part (C59_alternate_refuted, C59_default_refuted). The rest is proved; exactness assumes, like C40, that fingerprints do not collide."
  },
  {
   "property": "C60",
   "status": "proved",
   "theorems": [
    "C60_graph",
    "C60_component",
    "C60_component_refuted",
    "C60_empty_clause_refuted"
   ],
   "note": "The graph for all clauses that are not empty; components for clauses that repeat no variable (C60_component_refuted shows the need), the number of edges as well. Both evaluation orders."
  },
  {
   "property": "C61",
   "status": "partial",
   "theorems": [
    "C61_betweenness",
    "C61_not_a_number",
    "C61_sample",
    "C61_small_sample_refuted",
    "C61_component_sources",
    "C61_component_refuted"
   ],
   "note": "Without a sample in the scope FULL, and with a sample in both scopes, the values are exact (numbers are fractions, not floating point). Partial because in the scope of the largest component without a sample the sources are not the nodes of the component (C61_component_refuted; C61_component_sources says which they are), and a sample that rounds down to nothing gives no values (C61_small_sample_refuted)."
  },
  {
   "property": "C62",
   "status": "partial",
   "theorems": [
    "C62_activities",
    "C62_bumps",
    "C62_not_a_number",
    "C62_no_edges",
    "C62_once",
    "C62_incremental_refuted"
   ],
   "note": "Exact for the clauses the calculation saw. Partial because in incremental use variables added later are read out of bounds (C62_incremental_refuted). Rescaling of activities and the heap are modelled in BranchModel, not here."
  },
  {
   "property": "C63",
   "status": "partial",
   "theorems": [
    "C63_malformed",
    "C63_verified_model",
    "C63_verified_proof",
    "C63_solution",
    "C63_skip",
    "C63_no_solution_partial",
    "C63_false_alarm",
    "C63_no_exception",
    "C63_complete_refuted"
   ],
   "note": "Everything reported as verified is right, satisfiable problems never cause a complaint, and what is skipped is exact, for all files and all heuristics. Partial because correct answers that there is no solution are reported as not verified unless the file has an empty clause (C63_no_solution_partial gives the exact result, C63_complete_refuted a witness): the proof is written nowhere. On malformed input nothing is verified (C63_malformed)."
  },
  {
   "property": "C64",
   "status": "partial",
   "theorems": [
    "C64_configuration",
    "C64_gate_configuration",
    "C64_one_at_a_time",
    "C64_unsat",
    "C64_model_partial",
    "C64_model_refuted"
   ],
   "note": "The configuration read by each thread is proved in closed form for every interleaving, and a printed UNSATISFIABLE is right for all options, schedules and heuristics. Partial because models are proved only for the first thread without interruption (C64_model_partial); all other threads inprocess, and C64_model_refuted gives a run in which the portfolio prints a wrong model of the second thread."
  },
  {
   "property": "C65",
   "status": "proved",
   "theorems": [
    "C65_occurrences",
    "C65_greatest",
    "C65_no_literal",
    "C65_vsids_defined",
    "C65_lrb_defined",
    "C65_vsids",
    "C65_lrb",
    "C65_first_problem"
   ],
   "note": "In exact arithmetic, for both heuristics and all histories; a database without any literal, where the occurrences are 0/0, is a separate theorem."
  },
  {
   "property": "C66",
   "status": "partial",
   "theorems": [
    "C66_minimised_partial",
    "C66_same",
    "C66_unsat",
    "C66_exit_code",
    "C66_defined_partial",
    "C66_modes",
    "C66_pruned_refuted",
    "C66_project_refuted",
    "C66_minimum_refuted"
   ],
   "note": "Proved without the option inprocessing, for which C53_inprocessing_refuted holds. With pruning or projection the kept literals are still a part of a solution, but not every completion is one (refuted by computed runs)."
  },
  {
   "property": "C67",
   "status": "partial",
   "theorems": [
    "C67_program_partial",
    "C67_program_refines",
    "C67_printed_partial",
    "C67_returns_partial",
    "C67_refines",
    "C67_counter_size"
   ],
   "note": "Proved for problems with fewer than 65535 variables (13107 with the option for a minimum), where no clause is too long. The minimiser runs its solver without preprocessing and inprocessing, as the program does. The program: without preprocessing and inprocessing, one thread, no limits; the step bound depends on what the program meets."
  },
  {
   "property": "C68",
   "status": "partial",
   "theorems": [
    "C68_report",
    "C68_other",
    "C68_gates",
    "C68_counts",
    "C68_clauses",
    "C68_histograms_partial",
    "C68_calls_refuted"
   ],
   "note": "Everything is proved except that the histograms count each call of the solver: at most once in general, exactly once unless both semantic tests are used (C68_calls_refuted)."
  },
  {
   "property": "C69",
   "status": "proved",
   "theorems": [
    "C69_listing",
    "C69_normalized_refuted",
    "C69_normalized_longer"
   ],
   "note": "For the gates as the analysis leaves them; after normalizeRoots the listing always writes outside its array (C69_normalized_refuted); with one more element it would be complete (C69_normalized_longer)."
  },
  {
   "property": "C70",
   "status": "proved",
   "theorems": [
    "C70_distance",
    "C70_all_distances",
    "C70_totals",
    "C70_variables"
   ],
   "note": "For every graph whose lists of successors contain nodes only; the totals for a table with at least as many places as there are nodes."
  },
  {
   "property": "C71",
   "status": "partial",
   "theorems": [
    "C71_distribution",
    "C71_average",
    "C71_sample_refuted",
    "C71_full_sample_refuted"
   ],
   "note": "Proved without sampling (scope FULL). The sentence about sampling is false for every graph with at least two nodes (C71_sample_refuted, C71_full_sample_refuted)."
  },
  {
   "property": "C72",
   "status": "proved",
   "theorems": [
    "C72_edge",
    "C72_added",
    "C72_around",
    "C72_triangles",
    "C72_wedges",
    "C72_variables"
   ],
   "note": "Scope FULL. Triangles and wedges for undirected graphs without loops, which the graph of clauses without repeated variables is (C72_variables)."
  },
  {
   "property": "C73",
   "status": "proved",
   "theorems": [
    "C73_sum",
    "C73_table",
    "C73_totals"
   ],
   "note": "Scope FULL, without sampling."
  },
  {
   "property": "C74",
   "status": "partial",
   "theorems": [
    "C74_inside",
    "C74_outside",
    "C74_order",
    "C74_reversed",
    "C74_order_refuted",
    "C74_no_components_refuted"
   ],
   "note": "Proved for the nodes of the largest component when the components were computed (C74_inside, C74_order). For other nodes C74_outside gives the value and C74_reversed shows that the order is the opposite one; so the statement is false for them (also C74_order_refuted, C74_no_components_refuted)."
  }
 ]
}