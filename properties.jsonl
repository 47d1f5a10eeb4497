{"id": "C01", "title": "Literal encoding is a bijection", "statement": "For every variable index v with 0 <= v < 2^30 and sign s, the literal Lit(v,s) reports var()==v and sign()==s, fits in int32, ~ is an involution that flips only the sign, and the integer order on literals groups the two literals of a variable next to each other (x and ~x adjacent, no third literal between them). Literals are equal iff variable and sign are equal.", "quantifier": "all variable indices below 2^30, both signs, all pairs of literals", "why_tests_cant": "the range has 2^31 values and pairs of them; the readClause tautology test relies on adjacency for every pair", "anchors": ["src/candy/core/SolverTypes.h: Lit, Var, operator~, operator<"]}
{"id": "C02", "title": "Lifted booleans are Kleene three-valued logic", "statement": "For every stored byte an lbool can hold, ==, ^, && and || behave as Kleene's strong three-valued connectives, where bytes 2 and 3 both mean undefined.", "quantifier": "all lbool byte representations reachable from the constructors and operators", "why_tests_cant": "tests sample True/False/Undef constants, not every representation the bit-twiddled operators can produce (e.g. value 3)", "anchors": ["src/candy/core/SolverTypes.h: lbool"]}
{"id": "C03", "title": "Adding clauses never changes the meaning of the problem", "statement": "After any sequence of readClause calls, an assignment satisfies the stored problem iff it satisfies every clause that was passed in: only duplicate literals and tautological clauses are dropped. nVars() is larger than every variable that occurred in any passed clause.", "quantifier": "all finite sequences of clauses over all literals, all assignments", "why_tests_cant": "universally quantified over formulas and assignments", "anchors": ["src/candy/core/CNFProblem.h: readClause, nVars", "src/candy/core/CNFProblem.cc: readClause"]}
{"id": "C04", "title": "checkResult accepts exactly the satisfying models", "statement": "CNFProblem::checkResult(result) returns true iff every stored clause contains a literal that the result assigns true.", "quantifier": "all problems and all (also partial) result assignments", "why_tests_cant": "a test checks a few formula/model pairs; soundness must hold for all", "anchors": ["src/candy/core/CNFProblem.cc: checkResult", "src/candy/core/CandySolverResult.h: satisfies, setModelValue"]}
{"id": "C05", "title": "Printing then parsing DIMACS is the identity", "statement": "For every problem whose variables are below 2^30, parsing the text produced by printDIMACS yields a problem with the same list of clauses as literal sequences and the same nVars (if nVars is the maximal used variable).", "quantifier": "all problems, all clause sizes below the representable limit", "why_tests_cant": "quantifies over all problems and over the decimal rendering of all literals", "anchors": ["src/candy/core/CNFProblem.cc: printDIMACS, readDimacs", "src/candy/utils/StreamBuffer.h"]}
{"id": "C06", "title": "DIMACS parsing reads exactly the listed clauses, independent of buffering", "statement": "For every well-formed DIMACS text, whatever its whitespace and comment lines and however the input is split into buffer refills, the parsed problem has exactly the clauses listed in the text. Ill-formed numbers are rejected with an exception rather than accepted as another literal.", "quantifier": "all byte sequences, all positions of the buffer boundary", "why_tests_cant": "the defect class depends on where a 16 MB buffer boundary falls and on adversarial digits; no test suite enumerates them", "anchors": ["src/candy/utils/StreamBuffer.h", "src/candy/utils/StreamBuffer.cc", "src/candy/core/CNFProblem.cc: readDimacs"]}
{"id": "C07", "title": "Variable normalisation is an injective renaming", "statement": "normalizeVariableNames renames variables injectively to 0..k-1 where k is the number of variables that occur; the renamed problem has a model iff the original does, and models correspond through the renaming.", "quantifier": "all problems", "why_tests_cant": "equisatisfiability quantifies over assignments", "anchors": ["src/candy/core/CNFProblem.cc: normalizeVariableNames"]}
{"id": "C08", "title": "Clauses of every accepted length are represented faithfully", "statement": "A clause handed to the solver has, after being stored in the clause database, the same number of literals as when it was passed in, so a non-empty clause is never taken for the empty clause.", "quantifier": "all clause lengths", "why_tests_cant": "requires clauses with at least 65536 literals", "anchors": ["src/candy/core/clauses/Clause.h: Clause, size, length", "src/candy/core/clauses/ClauseDatabase.h: createClause"]}
{"id": "C09", "title": "Stamp behaves as a set under every history", "statement": "After any history of set, unset, clear and grow calls, stamp[i] is true iff i was set after the last clear and not unset since, including when the internal generation counter wraps around.", "quantifier": "all operation histories of any length, all counter widths (uint8_t, uint16_t, uint32_t)", "why_tests_cant": "wraparound needs up to 2^32 clears; the property is over all histories", "anchors": ["src/candy/mtl/Stamp.h: Stamp"]}
{"id": "C10", "title": "Bounded queue holds the window of the last n values", "statement": "After any history of push, clear and fastclear, sum and average are those of the last min(n, pushes since clear) pushed values and isvalid/full iff n values were pushed since the last clear.", "quantifier": "all histories and all capacities", "why_tests_cant": "unbounded histories; index wraparound", "anchors": ["src/candy/mtl/BoundedQueue.h: bqueue", "src/candy/systems/Restart.h"]}
{"id": "C11", "title": "Heap is a correct priority queue", "statement": "Under every history of insert, removeMin, decrease, increase, update, build and clear, the heap contains exactly the inserted and not removed elements, inHeap is exact, no element is duplicated, and removeMin returns an element that no other element in the heap precedes in the order.", "quantifier": "all histories, all strict weak orders (activities), all element sets", "why_tests_cant": "order-dependent structural invariant over unbounded histories", "anchors": ["src/candy/mtl/Heap.h: Heap"]}
{"id": "C12", "title": "Page allocator hands out disjoint memory and iterates over exactly the live clauses", "statement": "For every sequence of clause allocations the returned blocks are disjoint, lie inside a page, and iterating the allocator visits exactly the allocated clauses in allocation order; reallocate keeps exactly the clauses that are not deleted, with identical content.", "quantifier": "all allocation sequences, all clause sizes that fit a page", "why_tests_cant": "layout invariants over unbounded sequences and page boundaries", "anchors": ["src/candy/core/clauses/ClauseAllocatorMemory.h", "src/candy/core/clauses/ClauseAllocator.h"]}
{"id": "C13", "title": "Trail records a consistent assignment and backtracking restores it exactly", "statement": "After any history of decisions, propagations and backtracks: no variable is assigned twice, value(l)==True iff l is on the trail, value(l)==False iff ~l is, each variable's level is the number of decisions at or before its position, and backtrack(k) restores precisely the assignment that held when level k+1 was opened.", "quantifier": "all histories of trail operations", "why_tests_cant": "history-quantified state invariant", "anchors": ["src/candy/core/Trail.h: Trail, decide, propagate, backtrack, fact, newDecisionLevel"]}
{"id": "C14", "title": "Unit propagation is sound", "statement": "Every literal that propagate() adds to the trail is implied by the clause database together with the literals already on the trail, its reason is a clause of the database whose other literals are false, and a returned conflict clause is a clause of the database whose literals are all false.", "quantifier": "all clause databases with well-formed watches, all trails", "why_tests_cant": "for-all over databases and propagation orders", "anchors": ["src/candy/systems/propagate/Propagate.h", "src/candy/systems/propagate/StaticPropagate.h"]}
{"id": "C15", "title": "Unit propagation is complete", "statement": "When propagate() returns no conflict, no clause of the database is falsified and no clause has exactly one unassigned literal with all others false.", "quantifier": "all clause databases with well-formed watches, all reachable trails, including after backtracking", "why_tests_cant": "the watch invariant depends on all past backtracks; a missed watch shows only on particular histories", "anchors": ["src/candy/systems/propagate/Propagate.h: propagate_watched_clauses, propagate_binary_clauses", "src/candy/systems/propagate/StaticPropagate.h"]}
{"id": "C16", "title": "Learnt clauses are logical consequences", "statement": "Every clause produced by conflict analysis (also after minimisation and binary-resolution strengthening) is implied by the clause database the conflict was found in.", "quantifier": "all conflicts on all reachable trails", "why_tests_cant": "semantic entailment cannot be tested exhaustively", "anchors": ["src/candy/systems/learning/ConflictAnalysis.h: analyze, handle_conflict, litRedundant, minimization"]}
{"id": "C17", "title": "Learnt clauses are asserting", "statement": "The clause learnt from a conflict at level L>0 has exactly one literal of level L, at position 0, all literals are false when it is learnt, and at the returned backtrack level all literals but the first are still false and the first one is unassigned; if it has more than one literal, the second has the backtrack level.", "quantifier": "all conflicts on all reachable trails", "why_tests_cant": "depends on the implication graph's shape", "anchors": ["src/candy/systems/learning/ConflictAnalysis.h", "src/candy/core/Solver.h: search"]}
{"id": "C18", "title": "LBD is the number of distinct decision levels", "statement": "computeLBD over a range of literals returns the number of distinct decision levels among their variables.", "quantifier": "all literal ranges and all trails", "why_tests_cant": "for-all over trails", "anchors": ["src/candy/core/Trail.h: computeLBD"]}
{"id": "C19", "title": "Failed assumptions form a real core", "statement": "When solving under assumptions fails, the reported conflict contains only negated assumptions, and the formula together with the assumptions reported as failed is unsatisfiable.", "quantifier": "all formulas, all assumption lists, all search histories", "why_tests_cant": "entailment over all assignments", "anchors": ["src/candy/systems/learning/ConflictAnalysis.h: analyzeFinal", "src/candy/core/Solver.h: search, solve", "src/candy/ipasir/ipasir.cc: ipasir_failed"]}
{"id": "C20", "title": "SAT answers come with a model", "statement": "Whenever solve() returns true, the reported model satisfies every clause that was added and every assumption of the call.", "quantifier": "all formulas, all assumptions, all branching, restart, reduction and simplification schedules", "why_tests_cant": "universally quantified over formulas and heuristic schedules", "anchors": ["src/candy/core/Solver.h: solve, search", "src/candy/core/CandySolverResult.h"]}
{"id": "C21", "title": "UNSAT answers are correct", "statement": "Whenever solve() returns false, no assignment satisfies all added clauses and all assumptions of the call.", "quantifier": "all formulas, all assumptions, all branching, restart, reduction and simplification schedules", "why_tests_cant": "universally quantified over formulas, assignments and heuristic schedules", "anchors": ["src/candy/core/Solver.h: solve, search"]}
{"id": "C22", "title": "IPASIR session contract", "statement": "For every sequence of ipasir_add, ipasir_assume and ipasir_solve calls, each solve answers about the conjunction of all clauses completed so far and exactly the assumptions made since the previous solve; ipasir_val reports a model after 10 and ipasir_failed a core after 20.", "quantifier": "all call sequences", "why_tests_cant": "history-quantified protocol property", "anchors": ["src/candy/ipasir/ipasircandy.cc", "src/candy/ipasir/ipasir.h"]}
{"id": "C23", "title": "Learn callback exports implied clauses of bounded length", "statement": "Every clause passed to the learn callback is implied by the clauses added so far and has at most the requested number of literals, zero-terminated, in the external literal format.", "quantifier": "all search histories, all length limits", "why_tests_cant": "entailment for all histories", "anchors": ["src/candy/core/Solver.h: setLearntCallback, search", "src/candy/ipasir/ipasir.cc: ipasir_set_learn"]}
{"id": "C24", "title": "Branching is complete", "statement": "pickBranchLit returns no literal only if every decision variable is assigned; otherwise it returns a literal of an unassigned decision variable.", "quantifier": "all reachable heap/trail states and activity histories", "why_tests_cant": "depends on the heap being refilled on every backtrack", "anchors": ["src/candy/systems/branching/VSIDS.h: pickBranchLit, notify_backtracked", "src/candy/systems/branching/LRB.h"]}
{"id": "C25", "title": "Clause-database reduction keeps every protected clause", "statement": "reduce() removes only learnt clauses whose LBD exceeds the persistent limit and which are not locked, never a problem clause nor a clause of size at most two, and at most half of the candidate clauses.", "quantifier": "all clause databases, all activity and LBD values", "why_tests_cant": "for-all over databases", "anchors": ["src/candy/systems/ReduceDB.h: reduce", "src/candy/core/clauses/ClauseDatabase.h"]}
{"id": "C26", "title": "Subsumption test is exact", "statement": "subsumes(c,d) reports 'subsumed' iff every literal of c is in d, reports a literal l iff replacing exactly l by its negation in c makes it a subset of d, and 'no relation' otherwise; the 64-bit signature filter never hides a subsumption.", "quantifier": "all pairs of clauses without duplicate literals", "why_tests_cant": "for-all over clause pairs; hash filter collisions", "anchors": ["src/candy/core/clauses/Clause.h: subsumes, abstraction", "src/candy/simplification/SubsumptionClauseDatabase.h", "src/candy/simplification/Subsumption.h"]}
{"id": "C27", "title": "Subsumption and strengthening preserve all models", "statement": "Running subsumption to completion deletes or shortens clauses such that the set of satisfying assignments of the clause database is unchanged, and it never loses a problem clause in favour of a clause that may later be deleted.", "quantifier": "all clause databases and queue orders", "why_tests_cant": "semantic equivalence over all assignments", "anchors": ["src/candy/simplification/Subsumption.h"]}
{"id": "C28", "title": "Variable elimination preserves satisfiability and models extend", "statement": "Eliminating variables keeps the formula equisatisfiable: every model of the original is a model of the result, and every model of the result is extended by the reconstruction to a model of the original.", "quantifier": "all clause databases, all elimination orders", "why_tests_cant": "equisatisfiability over all assignments and elimination sequences", "anchors": ["src/candy/simplification/VariableElimination.h: eliminate, merge, extendModel / set_value, undo"]}
{"id": "C29", "title": "Asymmetric variable reduction preserves all models", "statement": "Clauses shortened by asymmetric branching are implied by the clause database, so the set of satisfying assignments does not change.", "quantifier": "all clause databases", "why_tests_cant": "semantic equivalence", "anchors": ["src/candy/simplification/AsymmetricVariableReduction.h"]}
{"id": "C30", "title": "The DRAT checker accepts only proofs of unsatisfiability", "statement": "If check_proof returns true for a problem and a proof file, then the problem is unsatisfiable.", "quantifier": "all problems and all proof files", "why_tests_cant": "soundness against adversarial proofs cannot be tested", "anchors": ["src/candy/core/DRATChecker.h", "src/candy/core/DRATChecker.cc"]}
{"id": "C31", "title": "The emitted proof is a valid DRAT derivation", "statement": "Every clause the solver writes as added is a reverse-unit-propagation consequence of the clauses that are present in the proof at that point, and a strengthened clause is written before its parent is deleted.", "quantifier": "all runs", "why_tests_cant": "history-quantified", "anchors": ["src/candy/core/clauses/Certificate.h", "src/candy/core/clauses/ClauseDatabase.h: createClause, removeClause, strengthenClause"]}
{"id": "C32", "title": "Shared allocator never frees a page still in use", "statement": "With several solver threads sharing one global clause allocator, no thread ever uses a clause in a page that has been freed.", "quantifier": "all thread interleavings, any number of threads", "why_tests_cant": "races show under particular schedules only", "anchors": ["src/candy/core/clauses/ClauseAllocator.h: collect, set_ready, everybody_ready, free_phase_out_pages"]}
{"id": "C33", "title": "BlockList counts are exact", "statement": "After any history of append/remove operations, a clause is reported blocked on a literal iff all its resolvents with the remaining occurrences of the negated literal are tautologies.", "quantifier": "all clause sets, all histories", "why_tests_cant": "cached counter coherence over histories", "anchors": ["src/candy/gates/BlockList.h"]}
{"id": "C34", "title": "Gate analysis partitions the formula", "statement": "After analysis every problem clause is in exactly one of: root clauses, the clauses of one gate, or the remainder.", "quantifier": "all problems and analysis options", "why_tests_cant": "for-all over formulas", "anchors": ["src/candy/gates/GateAnalyzer.h", "src/candy/gates/GateAnalyzer.cc", "src/candy/gates/GateProblem.h"]}
{"id": "C35", "title": "Recognised gates are functional definitions", "statement": "For every non-monotonic gate the analyser reports through its pattern check, each assignment of the inputs determines the output: the gate's clauses are satisfied by exactly one value of the output variable.", "quantifier": "all problems, all input assignments", "why_tests_cant": "for-all over assignments", "anchors": ["src/candy/gates/GateAnalyzer.cc: patternCheck, semanticCheck"]}
{"id": "C36", "title": "Gate traversal visits every reachable gate once, inputs first", "statement": "traverseDFS calls backtrack once per reachable gate, after the gates defining its inputs when the gate structure is acyclic.", "quantifier": "all gate structures", "why_tests_cant": "for-all over graphs", "anchors": ["src/candy/gates/GateDFSTraversal.h"]}
{"id": "C37", "title": "Gate builder encodes the named function", "statement": "Clauses produced by the gate builder for and/or/xor are satisfied exactly by the assignments where the output equals the function of the inputs.", "quantifier": "all input lists, all assignments", "why_tests_cant": "arbitrary arity and assignments", "anchors": ["src/candy/gates/GateBuilder.h"]}
{"id": "C38", "title": "Minimised models are implicants", "statement": "After model pruning/minimisation, every assignment that agrees with the kept literals satisfies the problem.", "quantifier": "all problems and models", "why_tests_cant": "quantifies over all extensions", "anchors": ["src/candy/minimizer/Minimizer.cc"]}
{"id": "C39", "title": "Random generator step is a permutation", "statement": "fastNextRand maps 64-bit states injectively and never maps a non-zero state to zero, so a non-zero seed never degenerates.", "quantifier": "all 2^64 states, all pairs", "why_tests_cant": "2^64 states", "anchors": ["src/candy/utils/FastRand.h: fastNextRand"]}
{"id": "C40", "title": "Random simulation conjectures cover all observed equivalences", "statement": "Two gate outputs that took equal (or always opposite) values in every simulated assignment are reported in the same equivalence class or are both reported as backbone; a reported backbone literal was true in every simulated assignment.", "quantifier": "all simulation histories and compression schedules", "why_tests_cant": "hash partition refinement over unbounded histories", "anchors": ["src/candy/randomsimulation/Partition.cc", "src/candy/randomsimulation/Propagation.cc"]}
{"id": "C41", "title": "Portfolio reports a result with its own solver", "statement": "When several solver threads run, the printed verdict is the verdict of some thread and the model printed with a SAT verdict is that of a thread that answered SAT.", "quantifier": "all interleavings, any number of threads", "why_tests_cant": "races", "anchors": ["src/candy/Main.cc: runSolverThread, main"]}
{"id": "C42", "title": "Problem hash does not depend on how the clause stream is chunked", "statement": "The hash of a problem is the digest of the printed clauses and does not depend on how that text is split into update calls.", "quantifier": "all problems, all ways to split the text", "why_tests_cant": "all chunkings", "anchors": ["src/candy/gbd/hash.cpp", "src/candy/gbd/md5/md5.cpp"]}
{"id": "C43", "title": "Array memory pages preserve elements", "statement": "Memory<T>-style paged storage returns under every index the value last pushed there, iteration visits elements in order, and sorting permutes without loss.", "quantifier": "all push histories", "why_tests_cant": "page boundaries and unbounded histories", "anchors": ["src/candy/mtl/Memory.h"]}
{"id": "C44", "title": "The degree hash is defined and independent of order and names", "statement": "The degree hash of every problem is computed without undefined behaviour and does not change when clauses are reordered or literals are renamed.", "quantifier": "all problems, all reorderings and renamings", "why_tests_cant": "quantifies over all problems and permutations", "anchors": ["src/candy/gbd/hash.cpp: degree_hash", "src/candy/gbd/md5/md5.cpp"]}
{"id": "C45", "title": "cnf2aig preserves satisfiability and models", "statement": "For every CNF problem, cnf2aig writes a well-formed ASCII AIGER file whose output can be made true exactly by the input assignments that extend to models of the problem.", "quantifier": "all problems without tautologies and duplicate literals, all options of the gate analysis", "why_tests_cant": "quantifies over all problems and all gate structures that the analysis can recognise in them", "anchors": ["src/candy/cnf2aig.cc: main", "src/candy/gates/AIGProblem.h: AIGProblem", "src/candy/gates/GateProblem.h: normalizeRoots"]}
{"id": "C46", "title": "The static propagator is sound and complete", "statement": "On every history of a solver that uses StaticPropagate, propagate() is defined, adds only literals implied by the clauses and the trail, reports a conflict only if a clause is false, and otherwise leaves no clause unit or false; it finds a conflict in the same states as Propagate, and the same assignment if there is none. Every long clause stays watched by two of its literals, and detaching a clause removes its watcher from all lists and nothing else.", "quantifier": "all problems, all histories of facts, decisions, propagations, backtracking, learning, restarts and added clauses", "why_tests_cant": "quantifies over all formulas and all histories of the watch lists", "anchors": ["src/candy/systems/propagate/StaticPropagate.h: propagate, attachClause, detachClause, init, reset"]}
{"id": "C47", "title": "Removable equivalence and backbone conjectures", "statement": "After any sequence of removals and commits, the implications of an equivalence conjecture are those of one cycle through the literals that were not removed, so they hold exactly if all these literals are equal; a commit reports exactly the implications that appear and disappear, and never more new ones than removed ones. The backbones are those not removed.", "quantifier": "all conjectures over different variables, all histories of removals (also of unknown variables) and commits", "why_tests_cant": "quantifies over all sequences of removals of arbitrary arcs of cycles of any length", "anchors": ["src/candy/rsar/ApproximationState.cc: EquivalenceImplicationsImpl, BackbonesImpl"]}
{"id": "C48", "title": "The refinement strategy encodes the current approximation", "statement": "After initialisation and any number of refinements, all clauses delivered so far together with the current assumption literals are satisfied exactly by the assignments (extended to the assumption variables) in which the remaining literals of every class are equal and the remaining backbones hold; without assumptions the clauses exclude nothing; there is one new variable per clause; the reported number of enabled clauses is that of the current implications and backbones.", "quantifier": "all conjectures over different variables, all choices of the heuristics in all steps", "why_tests_cant": "quantifies over all histories of refinements and all assignments", "anchors": ["src/candy/rsar/Refinement.cc: SimpleRefinementStrategy::init, refine, encode, updateAssumptionLiterals"]}
{"id": "C49", "title": "Abstraction refinement does not change answers", "statement": "ARSolver::solve answers unsatisfiable only if the clauses of the caller (with the caller's assumptions) are unsatisfiable and satisfiable only with a model of them, whatever the conjectures, heuristics and options; so does the program with -rsar-enable.", "quantifier": "all conjectures (also wrong ones), all heuristics, all refinement limits, all histories of the solver object", "why_tests_cant": "quantifies over all formulas, conjectures and heuristics", "anchors": ["src/candy/rsar/ARSolver.cc: solve, initialize", "src/candy/frontend/SolverFactory.h: createRSARSolver", "src/candy/Main.cc: main"]}
{"id": "C50", "title": "The proof checker accepts valid proofs", "statement": "For a problem and a clausal proof in which every added clause follows by unit propagation from the clauses present at that point, every deleted clause is present and the empty clause is added, the proof checker answers that the proof is valid; so -test-proof accepts the proofs the solver writes.", "quantifier": "all problems, all valid proofs of any length, with any deletions", "why_tests_cant": "completeness of the checker ranges over all problems and all valid proofs; tests try only a few proofs the solver happens to write", "anchors": ["src/candy/core/DRATChecker.cc: DRATChecker, check_proof, check_asymm, check_clause_add, check_clause_remove", "src/candy/Main.cc: test_proof"]}
{"id": "C51", "title": "The command line sets exactly the options it names", "statement": "When every argument is a file name or gives an option a value in its documented form (-name, -no-name, -name=value with a value in the documented range), the program runs with exactly these values, the last one of each option, and the defaults for all others; the remaining arguments keep their order and the program reads the first of them, or the standard input if there is none. A flag that no option has ends the program with an error, an argument with --help prints the help; no argument is read by two options.", "quantifier": "all argument lists", "why_tests_cant": "the set of command lines is infinite; that no two of the seventy options read the same argument and that later arguments never disturb other options are claims about all of them", "anchors": ["src/candy/utils/Options.h: parse of BoolOption, IntOption, DoubleOption, StringOption", "src/candy/utils/Options.cc: parseOptions", "src/candy/frontend/CLIOptions.cc", "src/candy/Main.cc: main"]}
{"id": "C52", "title": "Proof files are read as what they say", "statement": "For every text in the DRAT format (a line per clause, d before a deleted clause, numbers ended by 0) the proof checker judges exactly the additions and deletions that the text states, in their order. The text that the solver writes for a list of additions and deletions is such a text and states that list, so the checker reads back what the solver wrote; the file of a first solve without simplification that ends unsatisfiable is accepted.", "quantifier": "all texts in the format whose lines fit the read buffer, all lists of additions and deletions, all buffer contents", "why_tests_cant": "that text and meaning agree for every layout of blanks and every number, and that writing and reading are inverse, ranges over all proofs", "anchors": ["src/candy/core/DRATChecker.cc: check_proof", "src/candy/core/Certificate.h: added, removed, proof", "src/candy/utils/StreamBuffer.h: skipWhitespace, skipString, readInteger"]}
{"id": "C53", "title": "The program with one thread answers correctly", "statement": "When the program is called for a problem in DIMACS format, the line s UNSATISFIABLE is printed only for unsatisfiable problems and s SATISFIABLE only for satisfiable ones; with -model the v line lists one number per variable and these values satisfy the problem; the exit code is 10, 20 or 0 in agreement with the result line; every other line is a comment and there is one result line. A result that a self test (-test-model, -test-proof) reports as verified is correct, and the self tests verify every result. The program does not crash and, if no limit ends it, it answers; a missing file ends with exit code 1.", "quantifier": "all command lines, all input texts in the format, all choices of the heuristics and timeouts", "why_tests_cant": "the claim composes option parsing, input, search, output and self tests for all inputs; tests run a few files with a few options", "anchors": ["src/candy/Main.cc: main, solve, printResult, test_model, test_proof, runSolverThread", "src/candy/frontend/CandyBuilder.cc: build, branchWithLRB", "src/candy/core/CandySolverResult.h: value"]}
{"id": "C54", "title": "Solve returns and decides", "statement": "Every call of solve() returns: whatever the branching heuristic picks, whatever the restart policy's comparisons say, and whatever clause database reductions delete, the search ends. If the termination callback never says stop, the answer is not unknown, and it is satisfiable exactly if the loaded clauses with the assumptions are. Between two restarts of a solve there are at least as many conflicts as the LBD queue is long, and the policy never divides by zero or writes outside of its queues.", "quantifier": "all histories of loading, assuming and solving, all problems, all answers of the heuristics and of the floating point comparisons, all queue sizes from 1, all reduction parameters", "why_tests_cant": "A test that returns shows termination of one run; non-termination would need unbounded observation, and the claim quantifies over all decision sequences and restart patterns.", "anchors": ["src/candy/systems/Restart.h: Restart::process_conflict, Restart::trigger_restart", "src/candy/core/Solver.h: Solver::search, Solver::solve", "src/candy/systems/ReduceDB.h: ReduceDB::trigger_reduce, ReduceDB::reduce"]}
{"id": "C55", "title": "Refinement by input dependencies removes what it says", "statement": "The refinement heuristic built with limits i0, i1, ... from the analysed gates removes in step X exactly the gate outputs that depend on more than iX input variables of the circuit (and those of earlier steps), and in the step behind the last limit all gate outputs. In a refinement strategy the assumptions after k refinements enforce exactly the equivalences and backbones about variables not removed, and none behind the last limit. Its probe answers yes exactly for the variables the current step removes first. The filter for branching advice drops exactly the literals of probed variables and keeps every other literal with its budget.", "quantifier": "all problems and their analysed gate structures, all lists of limits, all disjoint conjectures, any number of refinement steps; all advice tables and heuristics", "why_tests_cant": "The counts are pushed through the circuit in one topological pass with early cut-offs and erased sets; whether a set is complete when it is used depends on the shape of every circuit.", "anchors": ["src/candy/rsar/Heuristics.cc: countInputDependencies, InputDepCountRefinementHeuristic", "src/candy/rsar/Heuristics.h: createInputDepCountRefinementHeuristic", "src/candy/systems/branching/rsil/RSARHeuristicsFilter.h: filterWithRSARHeuristics"]}
{"id": "C56", "title": "Miter detection answers its documented criterion", "statement": "For every analysed problem the test for miters ends with an answer that does not depend on the iteration order of its hash sets and is true exactly if: the monotonously nested region below the roots has a border, a non-monotonously nested gate adjoins it, all border gates have exactly two input variables, and either all their input literals are pairwise distinct and closed under negation or all are XOR gates in two clauses over pairwise different variables. A border gate accepted as XOR gate implies the exclusive or of its two inputs.", "quantifier": "all problems, gate analysis configurations and their analysed gate structures, all iteration orders", "why_tests_cant": "The border is collected in a depth first traversal whose order of visits decides which inputs have been seen at backtracking; the answer must not depend on it nor on hash table order for any circuit.", "anchors": ["src/candy/gates/MiterDetector.cc: hasPossiblyMiterStructure, MonotonousRegionBorderGateCollector, allGatesHaveTwoInputs, allGatesAreAIGXORsWithUniqueInputVars, isBinaryXORGate, allGatesAreBinaryXORsWithUniqueInputVars"]}
{"id": "C57", "title": "The recursive clause order simulates the selected gates correctly", "statement": "For every analysed problem the recursive clause order lists exactly the gates below the roots (with the filter: those of them that are not nested monotonically), each behind the gates that feed it, with exactly the open inputs once each. Simulation with it, even if gates are listed repeatedly, gives the inputs the values drawn and satisfies the clauses of all selected gates in every simulated assignment. If no root gate is reached from an earlier root literal, gates are listed once and the reported conjectures are exactly the literals that never differed.", "quantifier": "all problems, gate analysis configurations and analysed gate structures, with and without the filter, all numbers of steps and words, all drawn values, all initial vectors", "why_tests_cant": "The recursion shares visited sets across roots; order, completeness and duplication depend on how gates are shared in every possible circuit.", "anchors": ["src/candy/randomsimulation/ClauseOrder.cc: RecursiveClauseOrder, createRecursiveClauseOrder, createNonmonotonousGateFilter", "src/candy/randomsimulation/RandomSimulator.cc: BitparallelRandomSimulatorBuilder"]}
{"id": "C58", "title": "The variants of implicit learning keep their promises", "statement": "With conjectures about known variables every variant delivers an unassigned decision variable whenever VSIDS finds one, and without conjectures it is VSIDS. The vanishing variant equals the unrestricted one in its first half-life, then uses implicit learning with a probability halved after each half-life, and after 64 of them it is VSIDS. The budgeted variant deviates from VSIDS on a variable at most as often as the budgets of its conjectures allow, and equals the unrestricted one while no budget can be exhausted. Conjectures are generated once, exactly when the options and limits allow it, agree with the simulation, pass the filters, and concern variables of the problem. The variant used is the one asked for.", "quantifier": "all conjectures, table sizes, budgets, half-lives, sequences of decisions (trail and VSIDS states of any search), problems, options and simulation inputs", "why_tests_cant": "The schedule spans up to 64 half-lives of 2^24 calls, the budgets are spread over a table and shared by all decisions of a search, and the generation depends on every possible circuit and drawn input.", "anchors": ["src/candy/systems/branching/rsil/BranchingHeuristics.h: RSILBranchingHeuristic, RSILVanishingBranchingHeuristic, RSILBudgetBranchingHeuristic, generateConjectures, makeRSILDecision", "src/candy/systems/branching/rsil/BranchingHeuristics.cc: pickBranchLit", "src/candy/randomsimulation/Conjectures.cc", "src/candy/frontend/RandomSimulationFrontend.h: performRandomSimulation", "src/candy/frontend/CandyBuilder.h, CandyBuilder.cc: createSolver"]}
{"id": "C59", "title": "Simulation inputs are drawn as the strategy says, and a run makes the rounds asked for", "statement": "Every strategy gives each input new words from the pseudo random generator and changes nothing else. The biased strategies combine as many numbers per word as the documented bias of the call, and bias in the documented direction; an alternating strategy uses its two parts in turn. A run for n assignments makes the least number of rounds that covers them, unless the heuristic stops it, not before its twelfth round, or the time limit is exceeded, which is reported by an exception. Later runs continue with the same simulator, and the conjectures returned are exact for all rounds it has made. A run without a bound ends exactly if the heuristic stops it.", "quantifier": "all circuits and inputs, numbers of words per vector, strategies and parameters, initial vectors, numbers of assignments, answers of the heuristic and of the clock, sequences of runs", "why_tests_cant": "The words depend on the position of every draw in an unbounded sequence, the answers of clock and heuristic are arbitrary, and exactness must hold for any circuit and any number of rounds and runs.", "anchors": ["src/candy/randomsimulation/Randomization.h, Randomization.cc: SimpleRandomization, RandomizationCyclicallyBiased, AlternatingRandomization", "src/candy/randomsimulation/RandomSimulator.h, RandomSimulator.cc: run, runImpl, ensureInitialized, build", "src/candy/utils/FastRand.h: fastNextRand"]}
{"id": "C60", "title": "The variable graph of VSIDSC is exactly the graph of the clauses", "statement": "For clauses that are not empty and, as all clauses read from a file, repeat no variable: the graph that the branching heuristic with centrality builds has one node for each variable that occurs in a clause with another literal, and an edge between two nodes exactly if their variables occur together in a clause that is not deleted. The translation between variables and nodes is one to one and the reported number of edges is right. In the mode for the largest component, the nodes in scope form a connected component, and no component is larger.", "quantifier": "all lists of clauses with deletion marks and numbers of variables, both orders in which C++ may evaluate function arguments, both scopes", "why_tests_cant": "The graph depends on all pairs of positions of all clauses and on the order in which nodes are numbered; components must be right for graphs of any shape.", "anchors": ["src/candy/systems/branching/VSIDSC.h: init_graph", "src/candy/teexgraph/Graph.cpp: mapNode, addEdge, makeUndirected, sortEdgeList, computeWCC"]}
{"id": "C61", "title": "The centralities of VSIDSC are normalised betweenness values", "statement": "Without a sample, the centrality of each node is its betweenness, the sum over all pairs of other nodes of the share of their shortest paths that pass through it, divided by the largest such value. They are all not a number exactly if every component of the graph is complete. With a sample the same holds with respect to the drawn sources, whose number is the rounded down part of the nodes, all in scope.", "quantifier": "all lists of clauses, evaluation orders, sample sizes and sequences of random numbers, both scopes", "why_tests_cant": "Betweenness is defined over all shortest paths between all pairs of nodes, of which there are exponentially many; the algorithm never enumerates them.", "anchors": ["src/candy/teexgraph/CenGraph.cpp: betweennessCentrality", "src/candy/systems/branching/VSIDSC.h: calcCentrality"]}
{"id": "C62", "title": "Activities and bumps of VSIDSC follow the centralities and stay in bounds", "statement": "When a calculation is due, the activity of every variable that occurs with others becomes its centrality times the factor and no other activity changes. After that, every bump of such a variable adds the increment, weighted by one plus the centrality times the factor, and no sequence of bumps reads outside of the vector of centralities.", "quantifier": "all options, lists of clauses, previous states, sequences of bumped variables and increments", "why_tests_cant": "Variables and nodes are numbered differently and lookups extend the numbering, so an access out of bounds depends on the whole history of lookups and on clauses added after the calculation.", "anchors": ["src/candy/systems/branching/VSIDSC.h: process_reduce, do_centrality, updateActivities, varBumpActivity, init"]}
{"id": "C63", "title": "The fuzzing program reports an answer as verified exactly if it is right", "statement": "For every DIMACS file: if fuzz_ipasir reports that a model was verified, the clauses have a solution in which all literals of the first clause are true; if it reports that a proof was verified, they have none. If there is such a solution the program never complains, if there is none and the solver says so, the proof is verified. Problems with more than 100 variables or without clauses are skipped.", "quantifier": "all files in the DIMACS format, all choices of the solver's heuristics, all contents of the directory", "why_tests_cant": "A fuzzer is run on arbitrary files; that a complaint is never a false alarm has to hold for every problem and every run of the solver.", "anchors": ["src/candy/FuzzIpasir.cc: main", "src/candy/core/clauses/Certificate.h: Certificate", "src/candy/ipasir/ipasircandy.cc"]}
{"id": "C64", "title": "Every thread of the portfolio gets its own configuration, and the portfolio's answer is right", "statement": "For every number of threads, all options of the command line and every interleaving of main and the threads: each thread builds its solver from the configuration that main chose for its number (recalculation of LBD off, variables sorted for even numbers, preprocessing only in thread 0, inprocessing interval increased by the number, asymmetric branching in 6, 7, 14 and 15, and the branching heuristic and decay of its pair), never from that of another thread. A printed UNSATISFIABLE is true, and a printed model satisfies the problem.", "quantifier": "all numbers of threads, all command line options, all interleavings of assignments and reads of options, all choices of the heuristics of all threads", "why_tests_cant": "The options are global variables that are changed while threads start; that no thread sees a half-changed configuration has to hold for every schedule, which a test cannot enumerate.", "anchors": ["src/candy/Main.cc: main, runSolverThread", "src/candy/frontend/CLIOptions.cc", "src/candy/gates/GateAnalyzer.cc: GateAnalyzer::GateAnalyzer", "src/candy/core/Solver.h: Solver::Solver"]}
{"id": "C65", "title": "With sorted variables the first decisions follow the occurrences in the problem", "statement": "With the option sort-variables, the relative occurrence computed for a literal is the sum, over the clauses that contain it, of one divided by the length of the clause, scaled so that the greatest is 1. From the initialisation of VSIDS or LRB until the first conflict, every decision is made on an unassigned decision variable for which the occurrences of both literals together are greatest, and with the literal that occurs less (the positive one if both occur equally often). For the first problem given to a solver the clauses counted are exactly those of the problem.", "quantifier": "all problems over all numbers of variables, all earlier histories of the heuristics, all sequences of decisions, propagations, backtracking and resets without a conflict", "why_tests_cant": "It is a statement about every problem and every sequence of decisions before a conflict; tests see single decisions on single files, and a wrong order would only change running times.", "anchors": ["src/candy/systems/branching/VSIDS.h: VSIDS::init, VSIDS::getLiteralRelativeOccurrences", "src/candy/systems/branching/LRB.h: LRB::init, LRB::getLiteralRelativeOccurrences", "src/candy/core/clauses/ClauseDatabase.h: ClauseDatabase::begin"]}
{"id": "C66", "title": "The minimised model that the program prints is a minimal reason for satisfiability", "statement": "With the option minimize, whenever the program prints \"s SATISFIABLE\", it prints the number of kept literals and, with the option model, the kept literals themselves in the order of the variables, each variable at most once. They are a part of one solution of the clauses in the input; unless pruning or projection is asked for, every assignment that agrees with them satisfies all clauses, and no literal can be given up. Nothing is minimised for an unsatisfiable problem; \"s UNSATISFIABLE\" is printed only for one. The exit code is the one of the program without the option, and minimising never has undefined behaviour.", "quantifier": "all command lines and inputs, all choices inside the solver and inside the solver of the minimiser, all options of the gate analyser", "why_tests_cant": "That every completion of the printed literals is a solution, and that none can be given up, is a statement about all assignments, for all problems and all choices of two solvers.", "anchors": ["src/candy/Main.cc: main", "src/candy/minimizer/Minimizer.cc: Minimizer::mimimizeModel, Minimizer::iterativeMinimization", "src/candy/core/CandySolverResult.h: getMinimizedModelLiterals", "src/candy/core/SolverTypes.h: operator<<"]}
{"id": "C67", "title": "Minimising a model ends", "statement": "For every problem and every model of it, the minimiser returns, with every combination of its options: the number of calls of its solver is bounded, each call ends, and the literals returned are a part of the model. Without pruning and projection they are an implicant of the problem of which no literal can be given up. The program with the option minimize answers: it prints \"s SATISFIABLE\" if and only if the clauses in the input are satisfiable, and \"s UNSATISFIABLE\" if and only if they are not.", "quantifier": "all problems with fewer than 65535 variables (13107 with the option for a minimum), all their models, all options, all choices of branching and of comparisons in the restart policy", "why_tests_cant": "Termination is a statement about all runs of a loop around a search procedure with restarts and deletion of clauses; a test sees some that end.", "anchors": ["src/candy/minimizer/Minimizer.cc: Minimizer::mimimizeModel, Minimizer::iterativeMinimization", "src/candy/minimizer/Minimizer.h: genParCounter, genLessThanConstraint", "src/candy/core/Solver.h: Solver::solve, Solver::search", "src/candy/core/Restart.h", "src/candy/Main.cc: main"]}
{"id": "C68", "title": "The gate statistics are exact", "statement": "With the option gate-stats the program ends with exit code 0 and prints a report about the gates of the problem and nothing else. The numbers of variables, clauses, gates, gates used in one polarity, roots and remaining clauses are those of the analysis; every gate that is used in both polarities is counted under exactly one test, under the patterns exactly if its clauses match one; the histogram of conflicts sums up to the gates that were accepted by a call of the solver, and no call is counted twice.", "quantifier": "all command lines with the option, all problems, all settings of the recognition, every behaviour of clock and solver", "why_tests_cant": "The numbers are kept by increments spread over the recursion of the analysis; that they agree with the gates must hold for every problem, every timeout and every sequence of answers of the solver.", "anchors": ["src/candy/Main.cc: printGateStatistics", "src/candy/gates/GateProblem.h: addGateStats, addUnsuccessfulStats, addGate", "src/candy/gates/GateAnalyzer.cc: GateAnalyzer::isGate, GateAnalyzer::analyze"]}
{"id": "C69", "title": "The listing of the gates is complete", "statement": "After the analysis of a problem, the listing of its gates ends, accesses nothing outside its arrays, and describes every gate that the analysis found exactly once, with its output, its forward clauses and its backward clauses; a gate that occurs in no root clause is described after some gate that uses it.", "quantifier": "all problems, all settings of the recognition, every behaviour of clock and solver", "why_tests_cant": "The listing follows a worklist that grows while it is read; that it ends, leaves out no gate and repeats none must hold for every structure of gates.", "anchors": ["src/candy/gates/GateProblem.h: GateProblem::printGates, GateProblem::normalizeRoots", "src/candy/core/SolverTypes.h: printFormula, printLiteral"]}
{"id": "C70", "title": "Graph distances are shortest", "statement": "The distance that the graph library reports for two nodes is the length of a shortest walk between them, and it reports that there is none exactly if no walk exists; the list of all distances from a node and the version that keeps totals agree with it, and each total grows by the number of nodes at that distance. In the graph of the variables of a formula, the distance is the least number of steps between two variables that occur together in a clause.", "quantifier": "all graphs, all pairs of nodes, all formulas without empty clauses", "why_tests_cant": "Minimality is a statement about all walks of a graph of any size; the search stops early and marks nodes when they enter the queue, which is right only because of the order of the queue.", "anchors": ["src/candy/teexgraph/Graph.cpp: Graph::distance, Graph::alldistances, Graph::distances"]}
{"id": "C71", "title": "The distribution of distances counts every pair once", "statement": "Without sampling, the distribution of distances of a graph with at least two nodes gives for every distance the number of ordered pairs of nodes at that distance, and the average distance is the sum of all these distances divided by the number of ordered pairs of different nodes. With sampling, no node outside the graph is used.", "quantifier": "all graphs, all sample sizes, every sequence of random numbers", "why_tests_cant": "The numbers are sums over all searches of graphs of any size; the sampled case depends on the drawn numbers.", "anchors": ["src/candy/teexgraph/Graph.cpp: Graph::distanceDistribution, Graph::averageDistance"]}
{"id": "C72", "title": "Edges are found exactly and every triangle is counted once", "statement": "Asking a graph for an edge answers yes exactly if the edge was added, whether or not the lists were sorted before, and changes no neighbours. In an undirected graph without loops, the numbers reported for a node are the number of pairs of its neighbours that are neighbours themselves and the number of all pairs of its neighbours; the number of triangles of the graph is the number of sets of three nodes that are pairwise neighbours, each counted once; the number of wedges is the sum of the numbers of pairs.", "quantifier": "all graphs, all pairs of nodes, all clause sets without repeated variables in a clause", "why_tests_cant": "The search depends on the lengths and contents of neighbour lists of any size, and the count divides a sum over all nodes by three, which is right only if every triangle is met from each of its corners.", "anchors": ["src/candy/teexgraph/Graph.cpp: Graph::edge, Graph::edgeSlow, Graph::trianglesWedgesAround, Graph::triangles, Graph::wedges"]}
{"id": "C73", "title": "The sums of distances behind the closeness are exact", "statement": "The sum of distances reported for a node of a graph is the sum of the lengths of shortest walks to all nodes it reaches. Without sampling, the totals from which the closeness centralities of the whole graph are derived hold for every node the sum of the distances to it from all nodes that reach it.", "quantifier": "all graphs and all nodes", "why_tests_cant": "The sums range over all searches in graphs of any size.", "anchors": ["src/candy/teexgraph/CenGraph.cpp: Graph::closenessSum, Graph::closenesses, Graph::closenessCentrality"]}
{"id": "C74", "title": "A greater closeness centrality means smaller distances", "statement": "In an undirected graph with at least two nodes, the closeness centrality reported for a node over the whole graph is the number of nodes divided by the sum of the distances to the node from the nodes that reach it; in particular, of two nodes of one component the one with the smaller sum has the greater value.", "quantifier": "all undirected graphs with at least two nodes and all their nodes", "why_tests_cant": "The values depend on all distances and on the components of graphs of any size.", "anchors": ["src/candy/teexgraph/CenGraph.cpp: Graph::closenessCentrality, Graph::closeness"]}
