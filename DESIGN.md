# Formal model of candy-kingdom in Rocq (Coq 8.16.1)

Sources: `/repo` at the pinned commit, read as text. Everything below is about a *hand-written model* of that code; no tool
links model and C++ text. Each definition of the model carries a comment with the file and lines it models and says where
it simplifies.

## Layout of `/verif/rocq/theories` (flat)

* `Base.v` – literals, clauses, assignments, satisfaction, entailment: the vocabulary of the theorem statements.
* `Outcome.v` – results of functions that can fail: a value, undefined behaviour (`UB`), exhausted loop bound (`Fuel`),
  a clause of 65536 or more literals (`TooLong`).
* `<Component>Model.v` – the code, as total computable functions (no proofs).
* `<Component>Spec.v` – specification notions that the theorems need beyond `Base.v`.
* `<Component>Proofs.v`, `…Lemmas.v`, `…Cases.v`, … – lemmas.
* `<Component>Props.v` – the property theorems `Cnn_…`, each closed by a lemma, with `Print Assumptions` beneath, and
  `Example`s showing that concrete cases meet the hypotheses. Refutations (`…_refuted`) of the parts of a claim that are
  false of the code are there too, each with an explicit witness. `_partial` marks a theorem that covers part of a claim.

Undefined behaviour (out of bounds access, failed assertion, null dereference, missing return, signed overflow) is an
explicit outcome of the model wherever a component can reach it. Loops whose termination is not structural carry fuel;
running out of fuel is a distinct outcome and never counts as an answer. Where C++ leaves an order open (std::sort with
equal keys, order of clauses in memory, random numbers, time, callbacks), the model takes it from an oracle over which the
theorems quantify.

## Trusted base

* Coq's kernel 8.16.1, including its `vm_compute` machine, which evaluates refutation witnesses and example cases.
* Axioms: `Print Assumptions` says "Closed under the global context" for **every** theorem in `*Props*.v`. No axioms of the
  standard library are used. (`ssr.ssrunder`'s module type shows up in `coqchk -o` because the `ssreflect` prelude of the
  standard library is loaded by `lia`; no theorem depends on it.)
* The faithfulness of the model to the C++ (reviewed by hand), in particular the abstractions listed below.
* `properties.jsonl` as the English reading of the theorems; `Base.v` and `*Spec.v` as the reading of their vocabulary.

## What is modelled, per component

| model file | code (`src/candy/…`) | abstractions and omissions |
|---|---|---|
| `LitModel` | `core/SolverTypes.h` Var, Lit, lbool | int32 as `Z` with explicit range; bit operations exact |
| `CNFModel` | `core/CNFProblem.{h,cc}`, `core/CandySolverResult.h` | literals as `nat` (linked to int32 by C01) |
| `DimacsModel` | `utils/StreamBuffer.{h,cc}`, readDimacs, printDIMACS | bytes, buffer of any size B, stale bytes behind the data; gzip and read errors left out |
| `ContainersModel` | `mtl/Stamp.h`, `mtl/BoundedQueue.h`, `utils/FastRand.h` | exact machine widths |
| `HeapModel` | `mtl/Heap.h` | array with index array |
| `MemoryModel` | `mtl/Memory.h` | page addresses abstract, sizes in 32 bits as in the code |
| `AllocModel` | `core/clauses/Clause.h`, `ClauseAllocatorMemory.h`, `ClauseAllocator.h` (one thread) | 32-bit words, offsets |
| `ShareModel` | `ClauseAllocator.h` (several threads), calls in `ClauseDatabase.h` | pages as names; critical sections are atomic; the vector of unit clauses (also shared, read without the lock) is left out |
| `DbModel` | `core/clauses/ClauseDatabase.h`, certificate calls | clause = index; linked to `AllocModel` by C12_database |
| `TrailModel` | `core/Trail.h` | array as list of the used prefix |
| `PropModel` | `systems/propagate/Propagate.h` | in-place permutation and watcher order exact |
| `StaticModel` | `systems/propagate/StaticPropagate.h` | watcher objects as indices, list order exact |
| `ApproxModel` | `rsar/ApproximationState.cc`, `rsar/Refinement.cc` | ordered maps and sets as sorted lists, unordered maps as association lists; what the heuristics mark in a step is arbitrary |
| `ARModel` | `rsar/ARSolver.cc`, `frontend/SolverFactory.h`, one-thread part of `Main.cc` for `-rsar-enable` | the inner solver is `SolverModel`; the heuristic of the caller and the result of gate analysis and simulation are arbitrary |
| `HeurModel` | `rsar/Heuristics.cc`, `systems/branching/rsil/RSARHeuristicsFilter.h` | gate pointers as variables, unordered maps as association lists; on top of `GateModel` (order) and `ApproxModel` (strategy) |
| `MiterModel` | `gates/MiterDetector.cc` | sets of gate pointers as lists of variables, their iteration order a parameter; on top of `GateModel` (traversal) |
| `RecModel` | `randomsimulation/ClauseOrder.cc` (recursive order, filter of gates) | recursion with a depth bound that is shown to suffice; sets as lists; on top of `GateModel` and `SimModel` |
| `RsilModel` | `systems/branching/rsil/BranchingHeuristics.h/.cc` (vanishing and budgeted variants, `init`, `generateConjectures`), `randomsimulation/Conjectures.cc` (filters, `getMaxVar`, count), `frontend/RandomSimulationFrontend.h`, `frontend/CandyBuilder.h/.cc` (choice of the solver type) | on top of `BranchModel`, `SimModel`, `MiterModel`; the gate fraction as a rational, time limits as booleans; the random generator bit by bit; `init` with given conjectures only as far as its table size and half-life |
| `RandModel` | `randomsimulation/Randomization.cc` (all strategies), `randomsimulation/RandomSimulator.cc` (the loop, repeated runs, the default strategy of the builder) | on top of `SimModel`; the generator and the 32-bit counters bit by bit, quotients by zero undefined; the reduction rate (floating point) and the clock are arbitrary answers per step; the step counter does not wrap |
| `GraphModel` | `teexgraph/Graph.cpp`, `teexgraph/CenGraph.cpp` (betweenness), centrality part of `VSIDSC.h` | vectors as functions; numbers are exact fractions with a distinct "not a number"; rand() is a list of numbers; both evaluation orders of `addEdge(mapNode(a), mapNode(b))` |
| `AnalyzeModel` | `systems/learning/ConflictAnalysis.h` | stamps as sets (C09) |
| `ReduceModel` | `systems/ReduceDB.h` | order of equal keys from an oracle |
| `BranchModel` | `systems/branching/VSIDS.h`, `VSIDSC.h` (difference), `LRB.h`, `rsil/*` | floating point numbers are abstract operations; centrality computation in `GraphModel`; polarity from sonification left out |
| `SimpModel` | `simplification/*.h` | wrappers as indices, null wrapper explicit |
| `SolverModel` | `core/Solver.h` | branching, restarts, callbacks, sort orders from an oracle; the stop condition of the preprocessing loop is exact; output and statistics left out |
| `IpasirModel` | `ipasir/ipasircandy.cc` | on top of `SolverModel` |
| `DRATModel`, `DratFileModel` | `core/DRATChecker.{h,cc}` | uses the database, trail and propagation models; file level on bytes |
| `GateModel` | `gates/BlockList.h`, `GateProblem.h`, `GateAnalyzer.{h,cc}`, `GateBuilder.h`, `GateDFSTraversal.h` | clause pointers as indices; the solver of the semantic test and the timeout from oracles |
| `MinModel` | `minimizer/Minimizer.{h,cc}`, `GateProblem::getPrunedProblem` | on top of `SolverModel` and `GateModel` |
| `AigModel` | `cnf2aig.cc`, `gates/AIGProblem.h`, `GateProblem::normalizeRoots` | on top of `GateModel`; the file as a list of numbers |
| `FuzzModel` | `FuzzIpasir.cc` | composes `DimacsModel`, `IpasirModel`, `CNFModel` and `DratFileModel`; the file `cert.drat` is emptied before main starts; assertions are switched off |
| `PfModel` | `Main.cc:246-306` (options of the portfolio threads), `Main.cc:159-176`, `GateAnalyzer.cc:47-50` | every assignment and every read of an option is a step of an arbitrary schedule; composes `SolverModel` and `PortModel` |
| `BadSpec` | specification only: texts that are no DIMACS input (wrong header, negative counts, a number outside of int), for `C53_malformed`, `C63_malformed`, `C45_malformed` | a valid beginning followed by a malformed line, within the buffer |
| `OccModel` | `VSIDS.h:111-119,155-180`, `LRB.h:62-83,102-109` (sort-variables), iteration of `ClauseDatabase.h:153-159` | exact fractions instead of doubles; 0/0 is no number and a separate result |
| `MinMainModel` | `Main.cc:183-392` with `minimize` (the rest of the program is MainModel) | running times and the line "c Minimizing Model" are left out; options of the gate analyser arbitrary |
| `MinRunModel` | `Minimizer.cc:64-174` as in MinModel, on the solver with the restart policy of RestartModel | the loops of MinModel, with the queues of the policy threaded through the calls |
| `MinRunMainModel` | `Main.cc:183-392` with `minimize` as in MinMainModel, with the minimiser of MinRunModel | as MinMainModel |
| `StatsModel` | `GateProblem.h:58-62, 115-132`, `GateAnalyzer.cc:34-46, 63-177` with the statistics, `Main.cc:119-153, 187-222` | the recognition of GateModel with the statistics beside it, the printed lines, the program with the option gate-stats; the clock, the answers and conflicts of the solver and the text of the running time are inputs; unsigned counters are natural numbers |
| `ListGatesModel` | `GateProblem.h:34-42, 237-256, 268-289`, `SolverTypes.h:205-249` (the printing of literals, clauses and formulas) | the listing as a list of bytes, with the arrays and the order of the worklist; nothing in the repository calls it, it belongs to the interface of GateProblem |
| `DistModel` | `teexgraph/Graph.cpp:649-717` (distance, alldistances, distances) | the vector of distances as a function with checked accesses, -1 is None; int and long are natural numbers |
| `DistriModel` | `teexgraph/Graph.cpp:719-788` (averageDistance, distanceDistribution) | for the scope FULL; double is exact, rand() is a list of numbers, the progress on std::clog is left out |
| `TriModel` | `teexgraph/Graph.cpp:94-118, 529-591` (edge, edgeSlow, trianglesWedgesAround, triangles, wedges) | for the scope FULL; int and long are unbounded, the progress on std::clog is left out |
| `CloseModel` | `teexgraph/CenGraph.cpp:15-62, 76, 88-107` (closenessSum, closenesses, the sums of closenessCentrality) | for the scope FULL and without sampling; int and long are unbounded; the divisions at the end of closenessCentrality are in `CloseCenModel` |
| `CloseCenModel` | `teexgraph/CenGraph.cpp:9-12, 66-124`, `Graph.cpp:167-178` (closeness, closenessCentrality) | for the scope FULL and the sample size 1.0; double is exact, the infinite value is None |
| `AigTextModel` | `cnf2aig.cc` from bytes to bytes, `AIGProblem::printAIG` | composes `DimacsModel` and `AigModel`; the text of AIGER is specified as a grammar in `AigTextSpec`, proved unambiguous |
| `SimModel` | `randomsimulation/*` (clause order, propagation, partition, simulator) | word width 64 exact, number of words open; the words drawn for the inputs are arbitrary here (`RandModel` draws them); the recursive order is in `RecModel`, the conjecture filters are in `RsilModel` |
| `HashModel` | `gbd/hash.cpp`, `gbd/md5/*` | bytes and 32-bit words exact |
| `DratTextModel` | text written by `core/Certificate.h` | bytes, on top of `DratFileModel` |
| `MainModel` | `Main.cc` with one thread, `CandyBuilder.cc` | composes `OptModel`, `DimacsModel`, `SolverModel` with `RestartModel`, `DratFileModel`; files, standard input, old memory and the search oracle are a `world`; several threads, `-rsar-enable` (C49), `-static-propagate`, RSIL/VSIDSC, `-minimize` (then MinMainModel), gate statistics and simulation options end in the outcome `Unmodelled`; statistics lines (verbosity) left out |
| `RestartModel` | `systems/Restart.h` and its calls in `Solver.h` | on top of `SolverModel`; the two comparisons of floating point numbers are oracle answers, the queues exact |
| `PortModel` | `Main.cc` portfolio of threads | accesses to the two shared variables take effect in schedule order |

Not modelled: `sonification/`, `rsil/` outside of the branching part, the functions of `teexgraph/` that VSIDSC does not use (strongly
connected components, diameters, closeness and other centralities, files; the distances are modelled),
statistics, `strtod`, `testutils`, the floating point comparisons of `Restart.h`, time and memory limits
(oracle).

## Plan and result per property

| id | what is modelled | how it is proved |
|----|------------------|------------------|
| C01 | `Lit` int32 encoding over `Z` | arithmetic; `Z.lxor` lemmas; the bound 2^30 is sharp |
| C02 | `lbool` byte operators | the byte domain {0..3} is finite and the theorem covers it entirely |
| C03 | `CNFProblem::readClause` (sort, unique, tautology scan) | sortedness invariant + adjacency of complementary literals |
| C04 | `checkResult` on `CandySolverResult` | list induction |
| C05 | `printDIMACS`, number printing, tokeniser | decimal print/parse inverse lemma, induction over clauses, buffer refinement |
| C06 | `StreamBuffer` refill + number scanner | refinement of the buffered reader to the unbuffered one. **Partial**: lines that fit the buffer; four refutations beyond |
| C07 | `normalizeVariableNames` | injectivity of the first-occurrence numbering |
| C08 | `Clause::length : uint16_t` | **Partial**: proved below 65536, refuted at 65536; exact result for every length |
| C09 | `Stamp<T>` with any counter width | history induction, wraparound case |
| C10 | `bqueue<T>` | refinement to "last n of the pushed list" |
| C11 | `Heap<C>` with index array | multiset + heap-order invariants for every operation |
| C12 | clause pages, word offsets | layout invariant over allocation histories; refinement of the abstract database |
| C13 | `Trail` | invariant over histories, exact restore |
| C14, C15 | `Propagate` | soundness and completeness invariants of two watched literals |
| C16, C17 | `ConflictAnalysis` | resolution invariant; trail-order induction; over all states of the search loop |
| C18 | `computeLBD` | stamp refinement + counting distinct levels |
| C19 | `analyzeFinal` | trail induction; solver level over all histories |
| C20 | `Solver::solve/search` | invariants over the state machine, all oracles, all fuels. **Partial**: without inprocessing; with preprocessing and variable elimination for the first solve; refuted for later solves with preprocessing and for inprocessing |
| C21 | the same | all configurations: every step keeps "the clauses follow from the input, up to eliminated variables" |
| C22, C23 | `ipasircandy.cc` on top of the solver | history induction. C22 **partial** for answer 10 (same reason as C20) |
| C24 | `pickBranchLit` + heap | heap invariant "unassigned decision variables are in the heap" |
| C25 | `ReduceDB::reduce` | sortedness and partition lemmas |
| C26, C27 | `SubsumptionClause::subsumes`, `Subsumption` | signature monotonicity; equivalence invariant |
| C28 | `VariableElimination` | resolution completeness, reverse-order reconstruction |
| C29 | `AsymmetricVariableReduction` | uses C14 |
| C30 | `DRATChecker` | RUP/RAT soundness; file level by the parser theorem |
| C31 | `Certificate` calls in `ClauseDatabase` and `Solver` | the lines written are a RUP derivation from the loaded clauses, ending with the empty clause on UNSAT without assumptions. **Partial**: every history without preprocessing and without variable elimination in inprocessing; the first solve with preprocessing but without elimination; three refutations with variable elimination, one with preprocessing in a second solve |
| C32 | page phase-out protocol as interleaving system | invariants for all schedules (allocator's reads, one rebuilder); **partial** for separated schedules; two refuting schedules |
| C33, C34 | `BlockList`, `GateAnalyzer` | counter coherence modulo 2^16; partition invariant; termination |
| C35 | gate patterns and the semantic test | truth-table argument. **Partial**: refuted for the 2^n pattern |
| C36 | `traverseDFS`, clause order | DFS invariant; recognised gates are acyclic |
| C37 | `GateBuilder` | case analysis over assignments |
| C38 | `Minimizer` | hitting-set argument. **Partial**: plain minimisation; refuted with pruning and with projection |
| C39 | `fastNextRand` on 64-bit words | bit-level injectivity of xorshift |
| C40 | gate order, simulation, partition, conjectures | fingerprints are a function of the observed values; conditions shown necessary by refutations |
| C41 | `runSolverThread` and main as interleaving system | invariants for all schedules. **Partial**: model for runs without interruption, or with atomic publication; three refutations |
| C42 | md5 streaming and the printed text | buffering refinement; injectivity of the text |
| C43 | `Memory<T>` | list refinement |
| C44 | degree hash | **Partial**: order independence without unit clauses; refuted with them |
| C45 | cnf2aig | the circuit computes the conjunction of the gates, gates are evaluated in recognition order, monotonicity in the used polarity; the bytes printed are the text of exactly one AIGER file (grammar by induction over lines). **Partial**: three refutations; exact conditions for definedness |
| C46 | `StaticPropagate` | one watcher per clause in the lists of two of its literals, invariants as for C14/C15; agreement with `Propagate` from soundness and completeness of both |
| C47 | `EquivalenceImplicationsImpl`, `BackbonesImpl` | the two maps represent the cycle through the remaining literals; each step of a commit cuts a maximal marked arc |
| C48 | `SimpleRefinementStrategy` | one tag (implication or backbone, alive or not) per assumption variable; alive tags are the current approximation, dead implications mention a removed literal |
| C49 | `ARSolver` over `Solver`, `createRSARSolver` | the internal heuristics empty every first approximation, so a solve is one plain solve; then C20, C21. **Partial**: conditions of C20 for models; assumptions and default options refuted |
| C50 | `DRATChecker`, `test_proof` | completeness: level-0 propagation of the checker reaches every unit the present clauses give; invariant over the lines; for the solver's proofs, an invariant that a learnt clause is never false by unit clauses. for RAT lemmas, an invariant that the checker's clauses lie between the present and the ever added ones. **Partial**: RUP lemmas, RAT lemmas whose pivot's negation occurs and whose resolvents with deleted clauses are found too, first solve without simplification; contradictory units, lemmas false by units, preprocessing, RAT lemmas on pure literals (hence extended resolution), after the deletion of a unit clause and after a second deletion refuted |
| C51 | `Options.h`, `parseOptions`, the table of `CLIOptions.cc`, the input of `main` | matching as prefixes; pairwise separation of all options (computed) lifted to all arguments; induction over the arguments. **Partial**: the input depends on an uninitialised variable |
| C52 | `DRATChecker::check_proof` on text, `Certificate` | a grammar of lines as specification; induction over the derivation with the buffer refinement of C06; print/scan inverse; then C50 for the solver's file. **Partial**: first solve without simplification |
| C53 | `main` with one thread | composition of C51 (options), C06 (input), C20 (result and model), C31, C50, C52 (self tests). **Partial**: models without inprocessing, definedness without elimination; that the program answers (a bound on its steps that holds for all heuristics, with C54) without elimination, that it answers or crashes with the default options, and that both self tests succeed without simplification; five refutations |
| C54 | `solve` with `Restart.h` | a learnt clause is never one of the live clauses (propagation was complete up to the conflict), so conflicts between two reductions are bounded by the number of clauses over the variables; reduction k needs k*k conflicts, so reductions are bounded; restarts need conflicts. A round of preprocessing that eliminates no variable shrinks the clauses by what it counts, so the rounds end, with elimination too. Refinement to `solve` by collecting the answers of the policy. **Partial**: without inprocessing; with elimination a solve returns or has undefined behaviour, the latter in the first solve only for satisfiable problems; incReduceDB at least 1, less than 65535 variables |
| C55 | refinement heuristic that counts input dependencies, in a strategy (C48); filter of the advice | invariant of the loop over the topological order (C36): sets below the limit are exactly the inputs a gate depends on, gates above it are flagged; a variable is in exactly one step; induction over the steps relates what is left of the classes to what the specification keeps. `C55_shared_refuted` for a variable in a class and a backbone |
| C56 | test for miters on analysed gates | every backtrack is preceded by the visit of the same gate and children come before parents (C36), so the border found is the border of the specification; each check is shown equivalent to its specification for every iteration order. `C56_pairs_refuted`, `C56_xor_test_refuted` |
| C57 | recursive clause order, with and without the filter, in the simulation of C40 | invariant of the recursion: what is listed is what was reached, inputs before outputs; repeated evaluation of a gate changes nothing because its inputs have not changed since. The filter is exact because gates below a gate that is not nested monotonically are not either (C34_monotone). `C57_double_refuted` for a gate listed twice |
| C58 | the three variants of implicit learning from `init` over any number of decisions, the generation of their conjectures, the choice between them | vanishing: closed form of the schedule by induction, the generator is a bijection without 0; budgets: the sum of the budgets left for a variable is a potential that pays for each decision that differs from VSIDS; equality with the unrestricted variant while nothing is used up by simulation; generation by composing C40, C56 and C34. `C58_halflife_refuted`, `C58_refill_refuted`, `C58_builder_refuted` for the parts of the full statement that are false |
| C59 | the strategies for drawing inputs and the simulator's loop over any number of runs | closed forms of the words in terms of the generator by induction over inputs and words; cycle of biases by induction over calls; the loop by induction over the steps left, with C40 for the conjectures of all rounds made. `C59_direction_refuted`, `C59_alternate_refuted`, `C59_default_refuted` for the documented parts that are false |
| C60 | `init_graph` for any list of clauses, with deletion marks, both evaluation orders and both scopes | invariant over the pairs added (keys without duplicates, neighbour lists = pairs in both directions), sorting and removal of duplicates; number of edges by double counting; components by an invariant of the search (closed under neighbours, reached from the root). `C60_component_refuted` for clauses that repeat a variable, `C60_empty_clause_refuted` |
| C61 | `betweennessCentrality` on that graph | Brandes' algorithm: breadth first search invariant (distances, numbers of shortest walks, predecessors, order), recursion of dependencies over exact fractions against a specification that enumerates shortest walks; all values are "not a number" iff every component is complete. `C61_small_sample_refuted`, `C61_component_refuted` |
| C62 | `process_reduce`, `updateActivities`, `varBumpActivity` for any sequence of bumps | the keys of the graph stay a prefix of the mapping; induction over variables and bumps. `C62_incremental_refuted` |
| C63 | the fuzzing program from the bytes of the file to its report | the session it plays is legal, so C22 gives model and unsatisfiability; C04 and C30 for the two checks; the proof file is empty, so the check of a proof decides whether the problem has an empty clause. **Partial**: `C63_complete_refuted` |
| C64 | main, threads and global options, interleaved step by step; each thread's solver from what it read | invariant over schedules (one thread at a time is initialised, the global options are those of the closed table); C21, C20 and C41 for the answer. **Partial**: `C64_model_refuted` |
| C65 | relative occurrences as a fold over the database, initialisation of VSIDS and LRB with them | closed form of the fold by induction; heap order from C24 (and anew for LRB) kept by every step without a conflict; database after the first problem by induction |
| C66 | the program of C53 with the minimiser of C38 behind the status line | either the program of C53 or a run with the minimiser (one lemma), then C38 for the solution of C53 and the text of the lines; refutations by computed runs |
| C67 | the minimiser of C38 on the solver of C54, whose restarts are those of the program | every satisfiable call loses a kept variable, every call ends (C54), more fuel changes no result; a result is one of the minimiser of C38 for some restarts, so C38 applies; the size of the counter by induction on its halves; the program of C66 with this minimiser answers as in C53_answers_partial |
| C68 | the option gate-stats: the statistics of the recognition and the lines printed | erasing the statistics gives the recognition of C34; invariant over the recognition: each gate is counted once, the histograms sum up to the accepted tests and to at most the calls of the solver; the text line by line. `C68_calls_refuted`: with both semantic tests a call is in no histogram |
| C69 | the listing of the gates that an analysis found | invariant of the worklist: what is printed is closed under inputs except for what still waits; every gate occurs when the gates are unfolded from the roots (C34_monotone). `C69_normalized_refuted`: after normalizeRoots the listing always writes outside an array; `C69_normalized_longer`: with one more element it would be complete |
| C70 | the distances between nodes of a graph, and between variables of a formula | invariant of the breadth-first search: the queue holds two neighbouring levels, finished nodes have successors at most one level further; every assigned distance plus the number of nodes not reached yet is below the number of nodes, which bounds the table of totals |
| C71 | the distribution of the distances and their average | sum over the sources of the totals of C70; the pairs at distance k as an explicit list. `C71_sample_refuted`, `C71_full_sample_refuted`: with sampling the first source is no node, and a sample as large as the graph divides the numbers |
| C72 | the queries for edges and the number of triangles | the position of the target stays between the bounds of the search; the counted triples are a permutation of three images of the list of triangles. `C72_variables`: for the graph of the clauses |
| C73 | the sums of distances behind the closeness | simulation of the search of C70; the running total is the sum of the distances found so far |
| C74 | the closeness centralities | the values as fractions of the sums of C73 (`C74_inside`, `C74_outside`), and their order (`C74_order`, `C74_reversed`). `C74_order_refuted`, `C74_no_components_refuted`: outside the largest component the order is reversed, and without components all values are negative |

## Findings

Behaviour of the code that contradicts the claim a user would make. The theorem in parentheses has the witness.

1. `Clause::length` is `uint16_t`: a clause of 65536 literals is the empty clause, a satisfiable problem becomes UNSAT
   (C08_long_clause_refuted).
2. Text input: no digit where a number is expected is undefined behaviour (C06_garbage_refuted); a clause that continues on
   the line at the end of the 1 MiB buffer is read wrongly (C06_boundary_refuted); a line longer than the buffer reads before
   its beginning (C06_long_line_refuted); a file without a final newline depends on uninitialised memory
   (C06_no_newline_refuted). Variables from 2^30 overflow `Lit` (C01_beyond_bound_refuted).
3. `setAssumptions` with an unknown variable is out of bounds (C22_unknown_assumption_refuted); `computeLBD` indexes a stamp
   of nVars entries with a decision level that can be as large as the number of assumptions (C18_stamp_index_refuted).
4. Variable elimination: in the very first solve of the default configuration, clauses removed by elimination stay in the
   watch lists and the trail can overflow (C20_first_elimination_refuted); in a second solve models can be wrong
   (C20_incremental_elimination_refuted, C22_default_model_refuted).  Without elimination preprocessing can still lose a
   fact in a later solve: `SubsumptionClauseDatabase::init` wraps clauses that were deleted but not yet collected, and
   `unit_resolution` with such a deleted unit clause removes the live one (C20_incremental_preprocessing_refuted).
   Inprocessing leaves the trail filled while the watch lists are rebuilt, so that shortened clauses are watched at
   literals that are already false and propagated: a wrong model in a single solve (C20_inprocessing_refuted).
5. `ipasir_val` before the first solve reports values (C22_val_before_solve_refuted).
6. The clausal proof is not always a proof: with variable elimination (C31_first_elimination_refuted,
   C31_correction_refuted, C31_learnt_refuted), and without it when a second solve preprocesses clauses that the first one
   has deleted but not collected (C31_later_preprocessing_refuted).
7. The proof checker accesses memory out of bounds for unknown variables (C30_unknown_variable_refuted). It is incomplete:
   a RAT lemma without a clause containing the negated pivot is rejected.
8. VSIDS "extra bump" reads behind `trail_lim` (C24_extra_bump_refuted); LRB and `setActivity` change weights without the
   heap (C24_lrb_max_refuted, C24_activity_refuted); the implicit learning heuristics can use a stale state
   (C24_stale_refuted).
9. `reduce` removes more than half of an odd number of candidates (C25_at_most_half_refuted).
10. `subsumes` on tautological clauses (C26_tautology_refuted); subsumption with deleted clauses in the vector
    (C27_deleted_clauses_refuted).
11. Shared allocator: two schedules in which a thread uses a freed page (C32_collect_refuted, C32_late_ready_refuted).
12. `BlockList` counts in `uint16_t` (C33_overflow_refuted); empty clauses are in no part of the gate analysis
    (C34_empty_clause_refuted); the 2^n pattern accepts a gate that is not functional (C35_pattern_refuted).
13. Minimizer: pruned and projected results are no implicants (C38_pruning_refuted, C38_projection_refuted); the option for
    a minimum does not give one (C38_minimum_refuted).  Its constraint "less than k" admits k (C38_less_than_refuted), its counter
    reuses variables of the problem and so excludes assignments of the inputs (C38_counter_variables_refuted), and it counts the
    last input several times (C38_counter_refuted).
14. Random simulation: collisions lose classes or write out of bounds (C40_collision_refuted, C40_self_collision_refuted);
    gates with backward clauses over other variables are read out of bounds (C40_outside_refuted); with a gate filter nothing
    is simulated (C40_filter_refuted).
15. Portfolio: SAT with the model of a thread that has none (C41_model_refuted), SAT without a model
    (C41_missing_model_refuted), INDETERMINATE with exit code 10 (C41_late_result_refuted).
16. Hashes: an empty update drops pending bytes (C42_empty_chunk_refuted); the hashed text is not DIMACS and the literal x1 is
    printed like the end of a clause (C42_dimacs_refuted, C42_empty_clause_refuted); the degree hash depends on the clause
    order (C44_order_refuted). `Memory<T>` computes its page size in 32 bits (C43_page_size_refuted).
17. cnf2aig: a gate used with negated output makes `remove_copy` write past a vector (C45_negated_gate_refuted); printing reads
    past the vector `negate` as soon as the circuit has a fresh variable, which every clause of two or more literals outside
    of gates needs (C45_print_refuted); the first variable of the problem is printed as the constant false, so that a
    satisfiable problem becomes an unsatisfiable circuit (C45_first_variable_refuted).
18. Abstraction refinement: every solve removes all conjectures before the first call of the inner solver and never refines
    (C49_one_solve) – if it did use an approximation, the loop would report its unsatisfiability; the assumptions of the
    caller are dropped (C49_assumptions_refuted); with `-rsar-enable` and the other options at their defaults every input ends
    in an uncaught exception or a null pointer (C49_default_options_refuted, C49_few_gates_refuted). Two backbones of
    opposite sign: removing the variable removes only one (C47_opposite_backbones_refuted).
19. The proof checker rejects valid proofs, two of them written by the solver: a problem with two contradictory unit clauses
    (C50_own_proof_refuted), or a lemma of two or more literals all of which are false by unit clauses: the checker keeps the
    conflict as if it were propagated (C50_deletion_refuted, C50_repeated_refuted, and C50_preprocessing_refuted for a proof that
    the solver writes with preprocessing).
20. Command line: `argc` is computed from an uninitialised variable (`Options.cc:36,59`), so without a file name the standard input
    is read only by luck (C51_stdin_refuted); ranges are never enforced (C51_range_refuted, the test is `> end && < begin`); a
    value that is no number counts as 0 and numbers are cut to 32 bits (C51_number_refuted); a text of 256 characters has no end
    (C51_long_text_refuted); a file name with `--help` prints the help (C51_file_name_refuted).
21. Whole program: with default options a satisfiable problem can crash (C53_default_crash_refuted); with `-inprocessing` it prints a
    wrong model, and its own self test says so (C53_inprocessing_refuted); `-test-proof` fails on `1 0 -1 0`
    (C53_proof_test_refuted); `-use-lrb` prints a line that is no comment (C53_lrb_line_refuted, `CandyBuilder.cc:66`). `-szLBDQueue=0`,
    which the parser accepts (finding on C51), writes outside of an empty vector at the first conflict (C53_queue_refuted). A proof
    file without a final newline is judged depending on old buffer contents (C52_no_newline_refuted).
22. Seen while modelling, without a theorem: the message of a parser error is printed without `c ` (`Main.cc:202`);
    `-rsil-mode=foo` is an uncaught exception; several solvers of one run open the same certificate file; the sum in
    `BoundedQueue` is 32 bits wide, so that the trail queue of 5000 entries overflows beyond about 859000 assigned variables;
    a learnt clause with LBD 65535 counts as deleted.
23. Seen while modelling, without a theorem: `DRATChecker` deletions also match clauses already deleted; the `Minimizer`
    constructor changes global options; a learnt clause that was deleted can be revived by `setLBD` in conflict analysis;
    `AlternatingRandomization` never alternates; `nbclausesbeforereduce` is an `unsigned int` that grows by incReduceDB
    without bound and wraps after about 3.3 million reductions (C54 is about the number without the wrap).

24. The refinement heuristic takes a variable out of the set of its step when it marks it as a backbone; if the variable is in an
    equivalence class too, the class keeps it for ever (C55_shared_refuted; the conjectures of the simulator never overlap). The
    order of the limits matters: behind the first limit larger numbers are all treated alike, which is right only because the first
    limit already removes them.

25. The test for miters accepts circuits that compare nothing: the check for pairs of AND gates counts literals and never looks for
    pairs (C56_pairs_refuted). The check for XOR gates is wrong for arbitrary gates, for which it is documented
    (C56_xor_test_refuted), right after the check for two input variables (C56_xor), and never changes the answer, because
    the other check accepts these gates too (C56_aig_decides).

26. The recursive clause order does not ask whether a root gate has been visited: a root literal that occurs twice, or a root gate
    below another root, is listed again (C57_order gives the exact condition), and the simulator then reports the literal as
    equivalent to itself (C57_double_refuted).

27. `CandyBuilder.h:56-74` exchanges the two restricted variants: `-rsil-mode=vanishing` builds the budgeted heuristic and
    `-rsil-mode=implicationbudgeted` the vanishing one (C58_builder_refuted).
28. The half-life of the vanishing variant is documented in decisions, but `makeRSILDecision` counts its own calls, one or two for
    each decision, so the probability falls up to twice as fast (C58_halflife_refuted; C58_schedule is the exact schedule).
    `init(conjectures, backbonesEnabled, halflife)` leaves the running counter as it was, so the first period has the length
    of the option. After 64 halvings implicit learning is never used again (C58_vanished).
29. Every `init(problem)` of the budgeted variant fills the budgets again, although the conjectures are generated only once
    (C58_refill_refuted). A budget of 2^31 or more, possible through the C++ interface only, would be stored as a negative number.

30. `AlternatingRandomization` never advances its counter (`Randomization.cc:253-261`), so the second strategy is never used, and
    the default strategy always biases in one direction (C59_alternate_refuted, C59_default_refuted).
31. The strategies "biased to true" set bits of the simulation vectors, but in the simulation a set bit stands for false
    (`Propagation.cc:102-107`, `Partition.cc:242,463`), so the bias is opposite to the documented one: an input that should be true with
    a chance of 31/32 is true in 2 of the first 64 assignments (C59_direction, C59_direction_refuted). A bias of 0, which
    the default cycle reaches at every sixth call, acts like 1.

32. The proof checker rejects valid DRAT proofs: a lemma that is RAT on a literal whose negation occurs nowhere is refused
    (`conflict` keeps the false of the RUP test, `DRATChecker.cc:133-140`), so every extended resolution proof is
    (C50_pure_refuted, C50_extension_refuted). Deletions of unit clauses are ignored (`DRATChecker.cc:162`,
    C50_unit_deletion_refuted), and the second deletion of a clause deletes the object that is deleted already
    (`DRATChecker.cc:163-165`, no test of isDeleted), so the other one stays (C50_second_deletion_refuted).

33. VSIDSC: if every component of the graph of the clauses is complete (for example a single clause, or clauses over disjoint
    variables), the largest betweenness is 0, all centralities are 0/0 and all activities become "not a number" for the rest of the
    run; the order heap then compares nothing (C61_not_a_number, C62_not_a_number).
34. `-vsidsc-lwcc`: without a sample, `CenGraph.cpp:174-182` takes the first nodes of the whole graph as sources, as many as the largest
    component has, not the nodes of the component. If they lie in other components, all values are "not a number"
    (C61_component_refuted).
35. `-vsidsc-sample-size`: a sample that rounds down to no node makes all values "not a number" (C61_small_sample_refuted). With
    `-vsidsc-sample-size-decay` below 1 and recalculation every run gets there.
36. VSIDSC in incremental use: the graph is calculated once (`graph_init`), `init` does not reset it, so the first conflict over a
    variable that was added later reads behind the end of the vector `centrality` (`VSIDSC.h:215`, C62_incremental_refuted). The
    comment at `VSIDSC.h:497` wonders about the same numbers in `updateActivities`: they are the variables that occur with no other.
37. `computeWCC` numbers components from 1 but its arrays have as many positions as nodes, so a graph of one node with a loop leaves them
    (`Graph.cpp:254-269`, C60_component_refuted); clauses read from a file have no repeated variables, so only other users of the
    library meet it. `init_graph` does not finish on an empty clause (`VSIDSC.h:461`, C60_empty_clause_refuted), which inprocessing
    may add before a recalculation (`Solver.h:454-464` with `-vsidsc-dbsize-recalc` of 1 or more).

38. `fuzz_ipasir` creates a `Certificate` of its own for `cert.drat`, but the solver writes its proof to the file of the option
    `certified-output`, which is not set. The proof that is checked is always empty, so every correct answer 20 on a problem without an
    empty clause is reported as "could not be verified" with exit code 1 (C63_no_solution_partial, C63_complete_refuted). Complaints about
    models are impossible (C63_false_alarm). Called with `cert.drat` itself as input, the file is emptied before it is read.

39. Portfolio: every thread reads the configuration of `PfSpec.portfolio` in every interleaving (C64_configuration), and UNSATISFIABLE is
    only printed if it is true (C64_unsat). But `opt_inprocessing` is added to, not set: thread k inprocesses at interval k(k+1)/2, so every
    thread but the first inprocesses, whatever the user asked for, and inherits the wrong models of inprocessing
    (C64_model_refuted prints a wrong model of thread 1). Gate analysis of RSIL threads switches `opt_sort_variables` and
    `opt_preprocessing` off globally (C64_gate_configuration); main sets both again before the next thread, so no other thread sees it.

40. `-sort-variables`: until the first conflict VSIDS and LRB decide on a variable that occurs most (C65_vsids, C65_lrb), but with the sign
    that occurs *less* (`polarity[i] = occ[Lit(i, true)] < occ[Lit(i, false)]` is the sign, not the value, of the decision), so the first
    decision falsifies the more frequent literal. Without any literal in the database the occurrences are 0/0 (C65_no_literal). In
    incremental use all clauses of the database are counted, also learnt ones.

41. `-minimize -model`: no `v` line is printed, only the comment `c Minimized-Model: ...` (C66_minimised_partial), so a reader of the usual
    output finds no values. With `-minimize-pruned` or `-minimize-project` the printed literals have completions that are not
    solutions (C66_pruned_refuted, C66_project_refuted); with `-minimize-minimal` they are not a minimum (C66_minimum_refuted).
42. With the gate recognition method 11 (patterns, semantic and holistic tests), the conflicts of a semantic test that fails are in neither histogram when the
    holistic test follows it: only the last call of the solver is recorded (C68_calls_refuted).
43. `GateProblem::printGates` after `normalizeRoots`: the array of visited variables has one element for each variable of the problem, the artificial root is one
    variable more, so the first step writes outside the array, for every problem (C69_normalized_refuted).
44. `Graph::distanceDistribution` with a sample: the first source is `n`, for which the loop that draws a node is not entered (`done[n]` is false and every number is in the
    scope FULL); the search writes to `d[n]`, outside its array (C71_sample_refuted).  The same loop is in `CenGraph::closenessCentrality` (CenGraph.cpp:93-98), not modelled.
    A sample size of at least `n` is not a sample, but the numbers are divided by it (C71_full_sample_refuted).
45. `Graph::closenessCentrality` with the scope FULL (CenGraph.cpp:116-121): a node of the largest component gets the inverse of an average distance and a node outside it
    the average itself, so that outside the more central node has the smaller value (C74_outside, C74_order_refuted).  If the components were not computed, every value is
    minus the sum of distances, because the size of the component is then -1 (C74_no_components_refuted).

## Wrong programs

`seeded/LOG.jsonl` lists the errors seeded into scratch copies of the model, the theorems that failed and the theorems that
were tightened as a result.
