(** C67: the program with the option minimize answers. *)
Require Import List Arith ZArith NArith Lia String Ascii Bool.
Require Import Verif.Base Verif.Outcome Verif.OptModel Verif.OptSpec Verif.DimacsSpec Verif.SolverModel Verif.GateModel Verif.GateCases Verif.MinSpec Verif.MainModel Verif.MainSpec Verif.MainCases Verif.MainProps
  Verif.MinMainModel Verif.MinMainSpec Verif.MinMainProps Verif.MinRunMainModel Verif.MinRunMainSpec Verif.MinRunMainProofs Verif.SolverProps.
Import ListNotations.
Open Scope list_scope.

(** Full statement: the program answers, with and without the option minimize, and the answer is right.  Proved: what is proved in C53_answers_partial, without
    preprocessing; fewer variables with the option for a minimum (C67_returns_partial).  Here the number of steps that suffice depends on what the program
    meets, [MO] and [MB] being what its minimiser meets. *)
Theorem C67_program_partial : forall MO MB G B w args cs, called_with B w args cs -> (forall a, In a args -> good cli_options a) ->
  unset args "threads" -> switch args "rsar-enable" false = false -> switch args "static-propagate" false = false -> switch args "rsil-enable" false = false ->
  switch args "use-vsidsc" false = false -> switch args "gate-stats" false = false ->
  unset args "test-limit" -> unset args "inprocessing" -> unset args "incReduceDB" -> switch args "pre" true = false -> switch args "test-proof" false = false ->
  (forall c z, In c cs -> In z c -> (Z.abs z < if switch args "minimize-minimal" false then 13107 else 65535)%Z) -> (forall k, o_term (MainModel.w_oracle w) k = false) ->
  exists N, forall fuel, N <= fuel -> exists code lines, rmin_program MO MB G B (with_fuel fuel w) args = Exits code lines /\
    (In (bytes "s SATISFIABLE") lines <-> satisfiable (clauses cs)) /\ (In (bytes "s UNSATISFIABLE") lines <-> unsat (clauses cs)).
Proof. exact rmin_answers. Qed.
Print Assumptions C67_program_partial.

(** What it prints the program of C66 prints, for some restarts in the solver of the minimiser. *)
Theorem C67_program_refines : forall MO MB G B w args code lines, rmin_program MO MB G B w args = Exits code lines ->
  exists f, min_program (restarting f MO) G B w args = Exits code lines.
Proof. exact rmin_program_refine. Qed.
Print Assumptions C67_program_refines.

(** So the literals printed are what C66_minimised_partial says, with the same parts missing. *)
Theorem C67_printed_partial : forall MO MB G B w args cs code lines, called_with B w args cs -> unset args "inprocessing" -> switch args "minimize" false = true ->
  rmin_program MO MB G B w args = Exits code lines -> In (bytes "s SATISFIABLE") lines ->
  exists a ks, sat a (clauses cs) /\ agrees a ks /\ ascending ks /\
    (switch args "minimize-pruned" false = false -> switch args "minimize-project" false = false -> prime_implicant ks (clauses cs)) /\
    (exists t, In t lines /\ says_size (List.length ks) t /\ forall t', In t' lines -> starts "c Minimized-Model-Size:" t' = true -> t' = t) /\
    (if switch args "model" false then exists t, In t lines /\ says_kept ks t /\ forall t', In t' lines -> starts "c Minimized-Model:" t' = true -> t' = t
     else forall t, In t lines -> starts "c Minimized-Model:" t = false) /\
    (forall t, In t lines -> starts "v" t = false).
Proof. exact rmin_printed. Qed.
Print Assumptions C67_printed_partial.

(** ** A case *)
Definition mr_args : list string := ["f.cnf"; "-no-pre"; "-minimize"; "-model"; "-test-model"]%string.
Lemma mr_good : forall a, In a mr_args -> good cli_options a.
Proof.
  intros a H. destruct H as [<-|[<-|[<-|[<-|[<-|[]]]]]].
  - apply good_file; reflexivity.
  - apply (good_no "pre" true); reflexivity.
  - apply (good_yes "minimize" false); reflexivity.
  - apply (good_yes "model" false); reflexivity.
  - apply (good_yes "test-model" false); reflexivity.
Qed.
Example C67_program_case : called_with 64 (a_world mm_problem (SolverProps.w_oracle 0)) mr_args (numbers mm_problem) /\ (forall a, In a mr_args -> good cli_options a) /\
  unset mr_args "threads" /\ switch mr_args "rsar-enable" false = false /\ switch mr_args "static-propagate" false = false /\ switch mr_args "rsil-enable" false = false /\
  switch mr_args "use-vsidsc" false = false /\ switch mr_args "gate-stats" false = false /\
  unset mr_args "test-limit" /\ unset mr_args "inprocessing" /\ unset mr_args "incReduceDB" /\ switch mr_args "pre" true = false /\ switch mr_args "test-proof" false = false /\
  (forall c z, In c (numbers mm_problem) -> In z c -> (Z.abs z < 65535)%Z) /\ (forall k, o_term (MainModel.w_oracle (a_world mm_problem (SolverProps.w_oracle 0))) k = false) /\
  rmin_program mm_oracle (fun _ _ => false) patterns_only 64 (with_fuel 100 (a_world mm_problem (SolverProps.w_oracle 0))) mr_args =
    Exits 0 [bytes "s SATISFIABLE"; bytes "c Minimized-Model-Size: 2"; bytes "c Minimized-Model: 1 2 "; bytes "c Result verified by model checker"].
Proof.
  split; [apply a_called; reflexivity|]. split; [exact mr_good|]. split; [apply unset_by; reflexivity|]. do 5 (split; [reflexivity|]). do 3 (split; [apply unset_by; reflexivity|]).
  do 2 (split; [reflexivity|]). split; [apply bounded_by; vm_compute; reflexivity|]. split; [reflexivity|]. vm_compute. reflexivity.
Qed.
Print Assumptions C67_program_case.
