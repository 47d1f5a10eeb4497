(** C68: the option gate-stats. *)
Require Import List Arith ZArith NArith Lia String Ascii Bool.
Require Import Verif.Base Verif.Outcome Verif.OptModel Verif.OptSpec Verif.DimacsSpec Verif.SolverModel Verif.CNFModel Verif.GateModel Verif.GateSpec Verif.GateMore Verif.GateCases Verif.MainModel Verif.MainSpec
  Verif.MainCases Verif.MainProps Verif.SolverProps Verif.StatsModel Verif.StatsSpec Verif.StatsProofs.
Import ListNotations.
Open Scope list_scope.

(** With the option the program reads the problem, ends with the exit code 0 and prints the report of [reports] about the gates that the analysis of C34 and C35
    finds, and nothing else; whatever the clock shows and whatever its solver does ([gw]).  With the default options the analysis uses the patterns and the
    first of the two tests that call the solver, without a limit. *)
Theorem C68_report : forall B w gw args cs, called_with B w args cs -> (forall a, In a args -> OptSpec.good cli_options a) -> unset args "test-limit" -> switch args "gate-stats" false = true ->
  exists cfg g lines, analyze cfg (readClauses cnf_empty (clauses cs)) = Ok g /\ gs_program B w gw args = Exits 0 lines /\ reports (usePatterns cfg) (readClauses cnf_empty (clauses cs)) g lines /\
  GateModel.solver cfg = gw_solver gw /\ GateModel.timeout cfg = gw_timeout gw /\
  (unset args "gate-recognition-method" -> usePatterns cfg = true /\ useSemantic cfg = true /\ useHolistic cfg = false) /\ (unset args "gate-tries" -> maxTries cfg = 0%nat).
Proof. exact gs_prints. Qed.
Print Assumptions C68_report.
(** Without the option the program is that of C53. *)
Theorem C68_other : forall B w gw args, switch args "gate-stats" false = false -> gs_program B w gw args = program B w args.
Proof. exact gs_other. Qed.
Print Assumptions C68_other.

(** The statistics change nothing about the gates, and they are there whenever the analysis ends. *)
Theorem C68_gates : forall cfg conf p, wf_problem (variables p) (problem p) -> exists g s k, sanalyze cfg conf p = Ok (g, s, k) /\ analyze cfg p = Ok g.
Proof.
  intros cfg conf p WF. destruct (stats_total cfg conf p WF) as (g & s & k & E). exists g, s, k. split; [exact E|]. apply (stats_inv cfg conf p g s k WF E).
Qed.
Print Assumptions C68_gates.

(** Every gate is counted once: those used in one polarity, and the others under the test that accepted them; a test that is switched off accepts none. *)
Theorem C68_counts : forall cfg conf p g s k, wf_problem (variables p) (problem p) -> sanalyze cfg conf p = Ok (g, s, k) ->
  count_is (fun v => defined (gates g) v = true) (gate_count g) /\
  count_is (needs_test g) (st_pat s + st_sem s + st_hol s) /\ gate_count g = (monoton_gate_count g + (st_pat s + st_sem s + st_hol s))%nat /\
  count_is (fun v => needs_test g v /\ usePatterns cfg = true /\ matches (problem p) g v) (st_pat s) /\
  (useSemantic cfg = false -> st_sem s = 0%nat) /\ (useHolistic cfg = false -> st_hol s = 0%nat).
Proof. exact stats_counts. Qed.
Print Assumptions C68_counts.

(** The clauses of a problem without the empty clause: roots, clauses of gates, remaining clauses. *)
Theorem C68_clauses : forall cfg p, wf_problem (variables p) (problem p) -> (forall c, In c (problem p) -> c <> []) -> exists g, analyze cfg p = Ok g /\
  List.length (problem p) = (List.length (roots g) + list_sum (map (fun gt => List.length (g_fwd gt) + List.length (g_bwd gt))%nat (gates g)) + List.length (remainder g))%nat.
Proof. exact clause_sum. Qed.
Print Assumptions C68_clauses.

(** Full statement: the histograms count each of the [k] calls of the solver once, in the class of its conflicts [conf].  Proved: no call is counted more than once; with
    one of the two tests each is counted; accepted gates are in the first histogram; without the tests there is no call. *)
Theorem C68_histograms_partial : forall cfg conf p g s k, wf_problem (variables p) (problem p) -> sanalyze cfg conf p = Ok (g, s, k) ->
  list_sum (st_hist s) = (st_sem s + st_hol s)%nat /\ tidy (st_hist s) /\ tidy (st_fail s) /\
  (forall i c, count_is (fun j => (j < k)%nat /\ conf j = i) c -> (nth i (st_hist s) 0 + nth i (st_fail s) 0 <= c)%nat /\
     (useSemantic cfg && useHolistic cfg = false -> (nth i (st_hist s) 0 + nth i (st_fail s) 0 = c)%nat)) /\
  (useSemantic cfg = false -> useHolistic cfg = false -> k = 0%nat /\ st_hist s = [] /\ st_fail s = []).
Proof. exact stats_histogram. Qed.
Print Assumptions C68_histograms_partial.

(** ** Cases *)
(** unit x, x = o xor y, o = a xor b, y = (c and (d or e)), written so that no pattern matches *)
Definition scase : list clause := [[0]; [1; 2; 4]; [1; 3; 5]; [0; 2; 5]; [0; 3; 4]; [3; 6; 9]; [3; 7; 8]; [2; 6; 8]; [2; 7; 9]; [5; 10]; [5; 12; 14]; [4; 11; 13]; [4; 11; 15]].
Definition scfg (pat sem hol : bool) : GateModel.config := GateModel.mkCfg 0 pat sem hol (fun _ => false) (fun k _ => Nat.eqb k 1).
(** With both tests a call that fails before one that succeeds is in no histogram. *)
Theorem C68_calls_refuted : exists cfg conf p g s k, wf_problem (variables p) (problem p) /\ sanalyze cfg conf p = Ok (g, s, k) /\ (list_sum (st_hist s) + list_sum (st_fail s) < k)%nat.
Proof.
  exists (scfg true true true), (fun k => k + 2)%nat, (readClauses cnf_empty scase). do 3 eexists. split; [apply wf_check; vm_compute; reflexivity|]. split; [vm_compute; reflexivity|]. vm_compute. auto.
Qed.
Print Assumptions C68_calls_refuted.
Example C68_case : wf_problem 8 scase /\
  (exists g k, sanalyze (scfg true true true) (fun k => k + 2)%nat (mkCnf scase 8) = Ok (g, mkGS 1 0 1 [0; 0; 0; 1] [], k) /\ gate_count g = 3%nat /\ monoton_gate_count g = 1%nat) /\
  (exists g k, sanalyze (scfg false true false) (fun k => k + 2)%nat (mkCnf scase 8) = Ok (g, mkGS 0 1 0 [0; 0; 0; 1] [0; 0; 1; 0; 1; 1], k) /\ gate_count g = 2%nat).
Proof. split; [apply wf_check; vm_compute; reflexivity|]. split; do 2 eexists; (split; [vm_compute; reflexivity|auto]). Qed.
Print Assumptions C68_case.
Definition gs_args : list string := ["f.cnf"; "-gate-stats"]%string.
Definition gs_world : gworld := mkGW (fun _ => false) (fun _ _ => true) (fun k => k + 2)%nat (bytes "0").
Example C68_program_case : called_with 64 (a_world scase (SolverProps.w_oracle 0)) gs_args (numbers scase) /\ (forall a, In a gs_args -> OptSpec.good cli_options a) /\ unset gs_args "test-limit" /\ switch gs_args "gate-stats" false = true /\
  unset gs_args "gate-recognition-method" /\ unset gs_args "gate-tries" /\
  gs_program 64 (a_world scase (SolverProps.w_oracle 0)) gs_world gs_args = Exits 0 (map bytes ["c Variables: 8"; "c Clauses: 13"; "c RemainingClauses: 0"; "c Gates: 3"; "c Monoton: 1"; "c Roots: 1";
    "c StatsPatterns: 1"; "c StatsSemantic: 1"; "c StatsHolistic: 0"; "c HistoConflicts:  0:0 1:0 2:1"; "c HistoConflictsUnsuccessful: "; "c Runtime: 0"]%string).
Proof.
  split; [apply a_called; reflexivity|]. split; [intros a [<-|[<-|[]]]; [apply good_file; reflexivity|apply (good_yes "gate-stats" false); reflexivity]|]. split; [apply unset_by; reflexivity|]. split; [reflexivity|]. do 2 (split; [apply unset_by; reflexivity|]). vm_compute. reflexivity.
Qed.
Print Assumptions C68_program_case.
