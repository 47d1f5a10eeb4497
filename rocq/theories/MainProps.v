(** C53: the program as a whole. *)
Require Import List Arith ZArith NArith Lia String Ascii Bool.
Require Import Verif.Base Verif.Outcome Verif.OptModel Verif.OptSpec Verif.OptProofs Verif.OptProps Verif.DimacsModel Verif.DimacsSpec Verif.DimacsMore Verif.SolverModel
  Verif.MainModel Verif.MainSpec Verif.MainOpt Verif.MainProofs Verif.MainMore Verif.MainDef Verif.MainTerm Verif.MainCases Verif.SolverProps.
Import ListNotations.
Open Scope list_scope.

(** [called_with B w args cs]: the program is called with the arguments [args] and its input states the clauses [cs].  [program B w args]
    is how it ends.  The theorems hold for all arguments unless they say otherwise; [Unmodelled] is not [Exits], so they say nothing
    about the modes of the program that are not modelled. *)

(** ** What is true *)
(** "s UNSATISFIABLE" is printed only for a problem without solution, with all options. *)
Theorem C53_unsat : forall B w args cs code lines, called_with B w args cs -> program B w args = Exits code lines ->
  In (bytes "s UNSATISFIABLE") lines -> unsat (clauses cs).
Proof. exact prog_unsat. Qed.
Print Assumptions C53_unsat.

(** Full statement: "s SATISFIABLE" is printed only for a problem with a solution, and the line of values is a solution.  Proved: without the
    option inprocessing; with it the statement is false, see C53_inprocessing_refuted. *)
Theorem C53_sat_partial : forall B w args cs code lines, called_with B w args cs -> unset args "inprocessing" ->
  program B w args = Exits code lines -> In (bytes "s SATISFIABLE") lines ->
  exists a, sat a (clauses cs) /\ forall t, In t lines -> starts "v" t = true -> exists n, last_variable cs n /\ solution_line n a t.
Proof. exact prog_sat. Qed.
Print Assumptions C53_sat_partial.
(** the values are printed when asked for *)
Theorem C53_values : forall B w args cs code lines, called_with B w args cs -> switch args "model" false = true ->
  program B w args = Exits code lines -> In (bytes "s SATISFIABLE") lines -> exists t, In t lines /\ starts "v" t = true.
Proof. exact prog_sat_line. Qed.
Print Assumptions C53_values.

(** The exit code is the usual one when no self test is run. *)
Theorem C53_exit_code : forall B w args cs code lines, called_with B w args cs -> program B w args = Exits code lines ->
  (In (bytes "s SATISFIABLE") lines -> switch args "test-model" false = false -> code = 10%Z) /\
  (In (bytes "s UNSATISFIABLE") lines -> switch args "test-proof" false = false -> code = 20%Z) /\
  (In (bytes "s INDETERMINATE") lines -> code = 0%Z).
Proof.
  intros B w args cs code lines HC E. split; [|split]; intros H.
  - intros T. apply (prog_exit B w args cs code lines (Some true) HC E H); [intros _; exact T|discriminate].
  - intros T. apply (prog_exit B w args cs code lines (Some false) HC E H); [discriminate|intros _; exact T].
  - apply (prog_exit B w args cs code lines None HC E H); discriminate.
Qed.
Print Assumptions C53_exit_code.

(** A self test that succeeds is right, with all options. *)
Theorem C53_verified : forall B w args cs code lines, called_with B w args cs -> program B w args = Exits code lines ->
  (In (bytes "c Result verified by model checker") lines -> satisfiable (clauses cs) /\ code = 0%Z) /\
  (In (bytes "c Result verified by proof checker") lines -> unsat (clauses cs) /\ code = 0%Z).
Proof.
  intros B w args cs code lines HC E. split; [apply (prog_verified_model B w args cs code lines HC E)|apply (prog_verified_proof B w args cs code lines HC E)].
Qed.
Print Assumptions C53_verified.

(** Full statement: no self test fails.  Proved: the test of the model does not fail without the option inprocessing ... *)
Theorem C53_model_test_partial : forall B w args cs code lines, called_with B w args cs -> unset args "inprocessing" ->
  program B w args = Exits code lines -> ~ In (bytes "c Result could not be verified by model checker") lines.
Proof. exact prog_model_test. Qed.
Print Assumptions C53_model_test_partial.
(** ... and the test of the proof does not fail if there is no preprocessing either, the proof can be written and no two clauses of one literal
    contradict each other.  Without the last condition it is false, see C53_proof_test_refuted; for preprocessing see C50. *)
Theorem C53_proof_test_partial : forall w args cs, called_with buffer_size w args cs -> (forall a, In a args -> good cli_options a) ->
  unset args "inprocessing" -> switch args "pre" true = false -> switch args "test-proof" false = true ->
  (forall f, w_writable w f = true) -> List.length (w_junk w 1) = buffer_size -> ~ contradictory_units cs ->
  program buffer_size w args = Silent \/ program buffer_size w args = Unmodelled \/
  exists code lines, program buffer_size w args = Exits code lines /\
    (In (bytes "s UNSATISFIABLE") lines -> In (bytes "c Result verified by proof checker") lines).
Proof. exact prog_proof_test. Qed.
Print Assumptions C53_proof_test_partial.

(** Full statement: the program has no undefined behaviour and no uncaught exception.  Proved: with -no-pre or -no-elim, without the
    options inprocessing and test-proof, and with well-formed option values.  With the default options it is false, see
    C53_default_crash_refuted.  [Silent] is the loop bound of the model, or a learnt clause of more than 65535 literals. *)
Theorem C53_defined_partial : forall B w args cs, called_with B w args cs -> (forall a, In a args -> good cli_options a) ->
  unset args "inprocessing" -> switch args "pre" true = false \/ switch args "elim" true = false -> switch args "test-proof" false = false ->
  program B w args = Silent \/ program B w args = Unmodelled \/ exists code lines, program B w args = Exits code lines.
Proof. exact prog_defined. Qed.
Print Assumptions C53_defined_partial.

(** Full statement: the program answers, and the answer is right.  Proved: with -no-pre or -no-elim, without the options inprocessing and incReduceDB, with
    well-formed option values, for problems with fewer than 65535 variables, when no limit of time or memory ends the run.  The number [N] of
    steps that suffice does not depend on what the program meets, in particular on the branching and the restarts. *)
Theorem C53_answers_partial : forall B args cs, (forall a, In a args -> good cli_options a) -> plain_mode args ->
  unset args "test-limit" -> unset args "inprocessing" -> unset args "incReduceDB" ->
  switch args "pre" true = false \/ switch args "elim" true = false -> switch args "test-proof" false = false ->
  (forall c z, In c cs -> In z c -> (Z.abs z < 65535)%Z) ->
  exists N, forall w, called_with B w args cs -> (forall k, o_term (MainModel.w_oracle w) k = false) -> N <= w_fuel w ->
  exists code lines, program B w args = Exits code lines /\
    (In (bytes "s SATISFIABLE") lines <-> satisfiable (clauses cs)) /\ (In (bytes "s UNSATISFIABLE") lines <-> unsat (clauses cs)).
Proof. exact prog_answers. Qed.
Print Assumptions C53_answers_partial.
(** With the elimination of variables, as with the default options, the program answers, or it crashes and the problem is
    satisfiable (C53_default_crash_refuted); the number of steps depends on the choices inside the solver. *)
Theorem C53_ends_partial : forall B args cs O, (forall a, In a args -> good cli_options a) -> plain_mode args ->
  unset args "test-limit" -> unset args "inprocessing" -> unset args "incReduceDB" -> unset args "cl-lim" -> switch args "test-proof" false = false ->
  (forall c z, In c cs -> In z c -> (Z.abs z < 65535)%Z) -> (forall k, o_term O k = false) ->
  exists N, forall w, called_with B w args cs -> MainModel.w_oracle w = O -> N <= w_fuel w ->
  program B w args = Crashes /\ satisfiable (clauses cs) \/ exists code lines, program B w args = Exits code lines /\
    (In (bytes "s SATISFIABLE") lines <-> satisfiable (clauses cs)) /\ (In (bytes "s UNSATISFIABLE") lines <-> unsat (clauses cs)).
Proof. exact prog_ends. Qed.
Print Assumptions C53_ends_partial.
(** With both self tests, the answer is tested successfully and the exit code is 0, unless two clauses of one literal contradict each other. *)
Theorem C53_tested_partial : forall args cs, (forall a, In a args -> good cli_options a) -> plain_mode args ->
  unset args "test-limit" -> unset args "inprocessing" -> unset args "incReduceDB" -> switch args "pre" true = false ->
  switch args "test-proof" false = true -> switch args "test-model" false = true ->
  (forall c z, In c cs -> In z c -> (Z.abs z < 65535)%Z) -> ~ contradictory_units cs ->
  exists N, forall w, called_with buffer_size w args cs -> (forall f, w_writable w f = true) -> List.length (w_junk w 1) = buffer_size ->
  (forall k, o_term (MainModel.w_oracle w) k = false) -> N <= w_fuel w ->
  exists lines, program buffer_size w args = Exits 0 lines /\
    (In (bytes "s SATISFIABLE") lines /\ In (bytes "c Result verified by model checker") lines /\ satisfiable (clauses cs) \/
     In (bytes "s UNSATISFIABLE") lines /\ In (bytes "c Result verified by proof checker") lines /\ unsat (clauses cs)).
Proof. exact prog_tested. Qed.
Print Assumptions C53_tested_partial.

(** Every line is a comment, a line of values, or a line with the result; there is one result, unless the problem is skipped because of
    the option test-limit or the command line is rejected.  With the option use-lrb the first part is false, see C53_lrb_line_refuted. *)
Theorem C53_lines_partial : forall B w args cs code lines t, called_with B w args cs -> switch args "use-lrb" false = false ->
  program B w args = Exits code lines -> In t lines ->
  starts "c " t = true \/ starts "v " t = true \/ In t [bytes "s SATISFIABLE"; bytes "s UNSATISFIABLE"; bytes "s INDETERMINATE"].
Proof. exact prog_lines. Qed.
Print Assumptions C53_lines_partial.
Theorem C53_one_result : forall B w args cs code lines, called_with B w args cs -> program B w args = Exits code lines ->
  (lines = [] \/ exists t, filter (starts "s ") lines = [t] /\ In t [bytes "s SATISFIABLE"; bytes "s UNSATISFIABLE"; bytes "s INDETERMINATE"]) /\
  ((forall a, In a args -> good cli_options a) -> unset args "test-limit" -> lines <> []).
Proof.
  intros B w args cs code lines HC E. split.
  - destruct (prog_one_status B w args cs code lines HC E) as [->|(b & H)]; [auto|]. right. exists (status_line b). split; [exact H|]. destruct b as [[|]|]; cbn; auto.
  - intros G U ->. apply (done_limit B w args cs code HC G U E).
Qed.
Print Assumptions C53_one_result.

(** A file that cannot be opened: an error message and exit code 1. *)
Theorem C53_missing_file : forall B w args f, (forall a, In a args -> good cli_options a) -> wanted args = File f ->
  main_input (w_garbage w) args (filter (fun a => negb (flag a)) args) = wanted args -> w_files w f = None -> program B w args = Exits 1 [w_what w].
Proof.
  intros B w args f G HW HM HF. destruct (cli_values args G) as (os & E & _). unfold program. rewrite E, HM, HW, HF. reflexivity.
Qed.
Print Assumptions C53_missing_file.

(** ** Cases *)

Lemma good_yes n b : find (fun o => String.eqb (o_name o) n) cli_options = Some (opt_bool n b) -> strstr ("-" ++ n) "--help" = None -> good cli_options ("-" ++ n).
Proof.
  intros F H. split; [apply help_spec; exact H|]. right. exists (opt_bool n b), (SBool true). apply find_some in F. split; [apply F|apply gives_yes].
Qed.
Lemma good_no n b : find (fun o => String.eqb (o_name o) n) cli_options = Some (opt_bool n b) -> strstr ("-no-" ++ n) "--help" = None -> good cli_options ("-no-" ++ n).
Proof.
  intros F H. split; [apply help_spec; exact H|]. right. exists (opt_bool n b), (SBool false). apply find_some in F. split; [apply F|apply gives_no].
Qed.
Lemma good_file f : strstr f "--help" = None -> flag f = false -> good cli_options f.
Proof. intros H F. split; [apply help_spec; exact H|left; exact F]. Qed.
Definition g_args : list string := ["-model"; "g.cnf"]%string.
Example C53_missing_case : (forall a, In a g_args -> good cli_options a) /\ wanted g_args = File "g.cnf" /\
  main_input 0 g_args (filter (fun a => negb (flag a)) g_args) = wanted g_args /\ w_files (a_world [] (SolverProps.w_oracle 0)) "g.cnf" = None.
Proof.
  split; [|split; [reflexivity|split; reflexivity]]. intros a H. destruct H as [<-|[<-|[]]]; [apply (good_yes "model" false); reflexivity|apply good_file; reflexivity].
Qed.
Definition m_args : list string := ["f.cnf"; "-model"; "-no-elim"; "-test-model"]%string.
Lemma m_good : forall a, In a m_args -> good cli_options a.
Proof.
  intros a H. destruct H as [<-|[<-|[<-|[<-|[]]]]].
  - apply good_file; reflexivity.
  - apply (good_yes "model" false); reflexivity.
  - apply (good_no "elim" true); reflexivity.
  - apply (good_yes "test-model" false); reflexivity.
Qed.
Lemma unset_by args n : forallb (fun a => negb (prefix ("-" ++ n ++ "=") a)) args = true -> unset args n.
Proof.
  intros H a t Ha ->. rewrite forallb_forall in H. specialize (H _ Ha). assert (E : prefix ("-" ++ n ++ "=") ("-" ++ n ++ "=" ++ t) = true); [|rewrite E in H; discriminate].
  apply prefix_app. exists t. cbn. rewrite app_assoc_s. reflexivity.
Qed.
Definition m_problem : formula := [[0; 2]; [1; 4]; [3; 5; 0]].
Example C53_sat_case : called_with 64 (a_world m_problem (SolverProps.w_oracle 0)) m_args (numbers m_problem) /\ (forall a, In a m_args -> good cli_options a) /\
  unset m_args "inprocessing" /\ unset m_args "test-limit" /\ switch m_args "model" false = true /\ switch m_args "elim" true = false /\ switch m_args "use-lrb" false = false /\
  program 64 (a_world m_problem (SolverProps.w_oracle 0)) m_args = Exits 0 [bytes "s SATISFIABLE"; bytes "v 1 2 3 0"; bytes "c Result verified by model checker"].
Proof.
  split; [apply a_called; reflexivity|]. split; [exact m_good|]. split; [apply unset_by; reflexivity|]. split; [apply unset_by; reflexivity|].
  split; [reflexivity|]. split; [reflexivity|]. split; [reflexivity|]. vm_compute. reflexivity.
Qed.
Print Assumptions C53_sat_case.
Definition u_args : list string := ["-no-pre"; "f.cnf"; "-test-proof"]%string.
Definition u_problem : formula := [[0; 2]; [1; 2]; [0; 3]; [1; 3]].
Example C53_unsat_case : called_with 64 (a_world u_problem (SolverProps.w_oracle 0)) u_args (numbers u_problem) /\
  program 64 (a_world u_problem (SolverProps.w_oracle 0)) u_args = Exits 0 [bytes "s UNSATISFIABLE"; bytes "c Result verified by proof checker"] /\
  program 64 (a_world u_problem (SolverProps.w_oracle 0)) ["f.cnf"]%string = Exits 20 [bytes "s UNSATISFIABLE"].
Proof. split; [apply a_called; reflexivity|]. split; vm_compute; reflexivity. Qed.
Print Assumptions C53_unsat_case.
(** the hypotheses of C53_proof_test_partial for the same problem, with buffers of the real size *)
Definition big_world (F : formula) (O : oracle) : world :=
  mkWorld 0 (fun f => if String.eqb f "f.cnf" then Some (file_of F) else None) [] (fun _ => true) (fun _ => repeat 57 buffer_size) [] O (fun _ => false) 500.
Example C53_proof_test_case : called_with buffer_size (big_world u_problem (SolverProps.w_oracle 0)) u_args (numbers u_problem) /\
  (forall a, In a u_args -> good cli_options a) /\ unset u_args "inprocessing" /\ switch u_args "pre" true = false /\ switch u_args "test-proof" false = true /\
  List.length (w_junk (big_world u_problem (SolverProps.w_oracle 0)) 1) = buffer_size /\ ~ contradictory_units (numbers u_problem).
Proof.
  split; [|split; [|split; [apply unset_by; reflexivity|split; [reflexivity|split; [reflexivity|split; [apply repeat_length|]]]]]].
  - exists (file_of u_problem). split; [split; reflexivity|]. destruct (a_states (repeat 57 64) u_problem eq_refl eq_refl) as (_ & _ & ml & D1 & D2 & D3).
    assert (HB : 64 < buffer_size) by (unfold buffer_size; lia). split; [lia|]. split; [apply repeat_length|]. exists ml. split; [exact D1|]. split.
    + intros a b E Hb. exfalso. assert (L : List.length (file_of u_problem) < 64) by (apply Nat.ltb_lt; vm_compute; reflexivity). rewrite E, app_length in L. lia.
    + intros HM. specialize (D3 HM). lia.
  - intros a H. destruct H as [<-|[<-|[<-|[]]]].
    + apply (good_no "pre" true); reflexivity.
    + apply good_file; reflexivity.
    + apply (good_yes "test-proof" false); reflexivity.
  - intros (z & c & c' & Hc & _ & (_ & U) & _).
    vm_compute in Hc. repeat (destruct Hc as [<-|Hc]; [assert (U1 := U _ (or_introl eq_refl)); assert (U2 := U _ (or_intror (or_introl eq_refl))); congruence|]). destruct Hc.
Qed.
Print Assumptions C53_proof_test_case.

(** the hypotheses of C53_answers_partial and of C53_tested_partial *)
Lemma plain_by args : forallb (fun a => negb (prefix "-threads=" a)) args = true ->
  forallb (fun n => negb (switch args n false)) ["rsar-enable"; "static-propagate"; "rsil-enable"; "use-vsidsc"; "gate-stats"; "minimize"]%string = true -> plain_mode args.
Proof.
  intros H1 H2. cbn [forallb] in H2. repeat (apply andb_prop in H2; let K := fresh in destruct H2 as (K & H2); apply negb_true_iff in K).
  split; [apply unset_by; exact H1|]. auto 10.
Qed.
Definition n_args : list string := ["-no-pre"; "f.cnf"; "-szLBDQueue=20"]%string.
Definition t_args : list string := ["-no-pre"; "f.cnf"; "-test-proof"; "-test-model"]%string.
Lemma bounded_by F : forallb (forallb (fun z => (Z.abs z <? 65535)%Z)) (numbers F) = true -> forall c z, In c (numbers F) -> In z c -> (Z.abs z < 65535)%Z.
Proof. intros H c z Hc Hz. rewrite forallb_forall in H. specialize (H c Hc). rewrite forallb_forall in H. apply Z.ltb_lt. exact (H z Hz). Qed.
Example C53_answers_case : (forall a, In a n_args -> good cli_options a) /\ plain_mode n_args /\ unset n_args "test-limit" /\ unset n_args "inprocessing" /\ unset n_args "incReduceDB" /\
  switch n_args "pre" true = false /\ switch n_args "test-proof" false = false /\ (forall c z, In c (numbers u_problem) -> In z c -> (Z.abs z < 65535)%Z) /\
  called_with 64 (a_world u_problem (SolverProps.w_oracle 0)) n_args (numbers u_problem) /\ (forall k, o_term (MainModel.w_oracle (a_world u_problem (SolverProps.w_oracle 0))) k = false).
Proof.
  split; [|split; [apply plain_by; reflexivity|split; [apply unset_by; reflexivity|split; [apply unset_by; reflexivity|split; [apply unset_by; reflexivity|
    split; [reflexivity|split; [reflexivity|split; [apply bounded_by; reflexivity|split; [apply a_called; reflexivity|reflexivity]]]]]]]]].
  intros a H. destruct H as [<-|[<-|[<-|[]]]].
  - apply (good_no "pre" true); reflexivity.
  - apply good_file; reflexivity.
  - split; [apply help_spec; reflexivity|]. right. exists (opt_int "szLBDQueue" 50 10 smax), (SInt 20). split; [do 25 right; left; reflexivity|].
    apply (gives_int "szLBDQueue" 10 smax "20" 20); [|unfold smax; lia|lia]. apply decimal_pos. apply (digits_more "2" 2 0); [apply (digits_one 2); lia|lia].
Qed.
Print Assumptions C53_answers_case.
(** the hypotheses of C53_ends_partial, with no option at all; an unsatisfiable problem *)
Example C53_ends_case : (forall a, In a ["f.cnf"]%string -> good cli_options a) /\ plain_mode ["f.cnf"]%string /\
  (forall n, In n ["test-limit"; "inprocessing"; "incReduceDB"; "cl-lim"]%string -> unset ["f.cnf"]%string n) /\ switch ["f.cnf"]%string "test-proof" false = false /\
  called_with 64 (a_world u_problem (SolverProps.w_oracle 0)) ["f.cnf"]%string (numbers u_problem) /\
  program 64 (a_world u_problem (SolverProps.w_oracle 0)) ["f.cnf"]%string = Exits 20 [bytes "s UNSATISFIABLE"].
Proof.
  split; [intros a [<-|[]]; apply good_file; reflexivity|]. split; [apply plain_by; reflexivity|]. split; [|split; [reflexivity|split; [apply a_called; reflexivity|vm_compute; reflexivity]]].
  intros n H. destruct H as [<-|[<-|[<-|[<-|[]]]]]; apply unset_by; reflexivity.
Qed.
Print Assumptions C53_ends_case.
Example C53_tested_case : (forall a, In a t_args -> good cli_options a) /\ plain_mode t_args /\ unset t_args "test-limit" /\ unset t_args "inprocessing" /\ unset t_args "incReduceDB" /\
  switch t_args "pre" true = false /\ switch t_args "test-proof" false = true /\ switch t_args "test-model" false = true /\
  (forall c z, In c (numbers u_problem) -> In z c -> (Z.abs z < 65535)%Z) /\ (forall F O f, w_writable (big_world F O) f = true) /\
  called_with buffer_size (big_world u_problem (SolverProps.w_oracle 0)) t_args (numbers u_problem).
Proof.
  split; [|split; [apply plain_by; reflexivity|split; [apply unset_by; reflexivity|split; [apply unset_by; reflexivity|split; [apply unset_by; reflexivity|
    split; [reflexivity|split; [reflexivity|split; [reflexivity|split; [apply bounded_by; reflexivity|split; [reflexivity|]]]]]]]]]].
  - intros a H. destruct H as [<-|[<-|[<-|[<-|[]]]]].
    + apply (good_no "pre" true); reflexivity.
    + apply good_file; reflexivity.
    + apply (good_yes "test-proof" false); reflexivity.
    + apply (good_yes "test-model" false); reflexivity.
  - destruct C53_proof_test_case as ((text & (_ & G) & S) & _). exists text. split; [split; [reflexivity|exact G]|exact S].
Qed.
Print Assumptions C53_tested_case.

Lemma solution_printed n a t :
  bytes "v" ++ List.concat (map (fun tok => bytes " " ++ tok) (map (fun v => print_lit (mkLit v (negb (a v)))) (seq 0 n))) ++ bytes " 0" = t -> solution_line n a t.
Proof.
  intros <-. eexists. split; [reflexivity|]. induction (seq 0 n) as [|v r IH]; cbn [map]; constructor; [|exact IH].
  assert (N := print_lit_number (mkLit v (negb (a v)))). unfold litz in N. rewrite lvar_mk, lsign_mk in N. destruct (a v); exact N.
Qed.
(** ** What is false *)
(** With the default options the program has undefined behaviour on a satisfiable problem. *)
Theorem C53_default_crash_refuted : exists w cs, called_with 64 w ["f.cnf"]%string cs /\ satisfiable (clauses cs) /\ program 64 w ["f.cnf"]%string = Crashes.
Proof.
  exists (a_world w_one (SolverProps.w_oracle 0)), (numbers w_one). split; [apply a_called; reflexivity|]. rewrite numbers_clauses. split; [|vm_compute; reflexivity].
  exists (fun v => match v with 1 | 2 | 4 | 5 | 6 => true | _ => false end). apply satb_spec. vm_compute. reflexivity.
Qed.
Print Assumptions C53_default_crash_refuted.

(** With inprocessing the program can print values that are no solution; the self test then says so. *)
Definition ip_args : list string := ["f.cnf"; "-model"; "-no-pre"; "-no-elim"; "-inprocessing=1"; "-firstReduceDB=0"; "-incReduceDB=0"; "-szLBDQueue=10"]%string.
(** the problem of C20_inprocessing_refuted with 18 pairs of clauses that lead to conflicts, so that there are restarts *)
Definition ip_pair (i : nat) : formula := let a := 2 * (17 + 2 * i) in [[a; a + 2]; [a; a + 3]].
Definition ip_problem : formula := i_problem ++ List.concat (map ip_pair (seq 0 18)).
Definition ip_pick (k : nat) : lit :=
  if Nat.ltb k 10 then 2 * (17 + 2 * (k - 2)) + 1 else if Nat.ltb k 21 then 1001 else if Nat.ltb k 32 then 2 * (17 + 2 * (8 + k - 21)) + 1 else 29.
Definition ip_oracle : oracle := mkOracle (fun k => Nat.leb 34 k) (fun _ => true) ip_pick (fun _ _ => Nat.ltb) (fun _ => []) (fun _ => []).
Theorem C53_inprocessing_refuted : exists w cs t a, called_with 64 w ip_args cs /\
  program 64 w ip_args = Exits 10 [bytes "s SATISFIABLE"; t] /\ last_variable cs 53 /\ solution_line 53 a t /\ ~ sat a (clauses cs) /\
  program 64 w (ip_args ++ ["-test-model"]%string) = Exits 1 [bytes "s SATISFIABLE"; t; bytes "c Result could not be verified by model checker"].
Proof.
  exists (a_world ip_problem ip_oracle), (numbers ip_problem), (bytes "v 1 2 3 4 5 -6 -7 8 9 10 11 12 -13 -14 -15 16 17 18 19 20 21 22 23 24 25 26 27 28 29 30 31 32 33 34 35 36 37 38 39 40 41 42 43 44 45 46 47 48 49 50 51 52 53 0"), (fun v => negb (existsb (Nat.eqb v) [5; 6; 12; 13; 14])).
  split; [apply a_called; reflexivity|]. split; [vm_compute; reflexivity|]. split; [|split; [|split; [|vm_compute; reflexivity]]].
  - split; [|right; exists [52; 53]%Z, 53%Z; split; [|split; [right; left; reflexivity|reflexivity]]].
    2: { assert (H : existsb (fun c => if list_eq_dec Z.eq_dec [52; 53]%Z c then true else false) (numbers ip_problem) = true) by (vm_compute; reflexivity).
      apply existsb_exists in H. destruct H as (c & Hc & H). destruct (list_eq_dec Z.eq_dec [52; 53]%Z c) as [->|]; [exact Hc|discriminate]. }
    assert (H : forallb (forallb (fun z => (Z.abs z <=? 53)%Z)) (numbers ip_problem) = true) by (vm_compute; reflexivity).
    intros c z Hc Hz. rewrite forallb_forall in H. specialize (H c Hc). rewrite forallb_forall in H. apply Z.leb_le. exact (H z Hz).
  - apply solution_printed. vm_compute. reflexivity.
  - rewrite numbers_clauses. intros H. apply satb_spec in H. vm_compute in H. discriminate.
Qed.
Print Assumptions C53_inprocessing_refuted.

(** The range of an option is not enforced (C51): a queue of length 0 is undefined behaviour at the first conflict. *)
Theorem C53_queue_refuted : exists w cs, called_with 64 w ["f.cnf"; "-no-pre"; "-szLBDQueue=0"]%string cs /\
  program 64 w ["f.cnf"; "-no-pre"; "-szLBDQueue=0"]%string = Crashes /\ program 64 w ["f.cnf"; "-no-pre"]%string = Exits 20 [bytes "s UNSATISFIABLE"].
Proof. exists (a_world u_problem (SolverProps.w_oracle 0)), (numbers u_problem). split; [apply a_called; reflexivity|]. split; vm_compute; reflexivity. Qed.
Print Assumptions C53_queue_refuted.

(** The test of the proof fails for two contradictory clauses of one literal, with the default options and with -no-pre. *)
Theorem C53_proof_test_refuted : exists w cs, called_with 64 w ["f.cnf"; "-test-proof"]%string cs /\ unsat (clauses cs) /\
  program 64 w ["f.cnf"; "-test-proof"]%string = Exits 1 [bytes "s UNSATISFIABLE"; bytes "c Result could not be verified by proof checker"] /\
  program 64 w ["f.cnf"; "-test-proof"; "-no-pre"]%string = Exits 1 [bytes "s UNSATISFIABLE"; bytes "c Result could not be verified by proof checker"].
Proof.
  exists (a_world [[0]; [1]] (SolverProps.w_oracle 0)), (numbers [[0]; [1]]). split; [apply a_called; reflexivity|]. split; [|split; vm_compute; reflexivity].
  rewrite numbers_clauses. intros a H. destruct (H [0]) as (l & [<-|[]] & L0); [left; reflexivity|]. destruct (H [1]) as (k & [<-|[]] & L1); [right; left; reflexivity|].
  unfold lit_holds, lit_val, lvar, lsign in *. cbn in L0, L1. destruct (a 0); discriminate.
Qed.
Print Assumptions C53_proof_test_refuted.

(** With the option use-lrb the output has a line that is no comment and no result. *)
Theorem C53_lrb_line_refuted : exists w cs, called_with 64 w ["f.cnf"; "-use-lrb"]%string cs /\
  program 64 w ["f.cnf"; "-use-lrb"]%string = Exits 20 [bytes "Building Solver of Type Solver<Propagate, ConflictAnalysis, LRB>"; bytes "s UNSATISFIABLE"].
Proof.
  exists (a_world u_problem (SolverProps.w_oracle 0)), (numbers u_problem). split; [apply a_called; reflexivity|vm_compute; reflexivity].
Qed.
Print Assumptions C53_lrb_line_refuted.
