(** C66: the program with the option minimize.  [MO] are arbitrary choices inside the solver of the minimiser, [G] arbitrary options of the
    gate analyser. *)
Require Import List Arith ZArith NArith Lia String Ascii Bool.
Require Import Verif.Base Verif.Outcome Verif.OptModel Verif.OptSpec Verif.OptProofs Verif.OptProps Verif.DimacsModel Verif.DimacsSpec Verif.DimacsMore Verif.SolverModel Verif.GateModel Verif.GateCases
  Verif.MinSpec Verif.MainModel Verif.MainSpec Verif.MainCases Verif.MainProps Verif.MinMainModel Verif.MinMainSpec Verif.MinMainProofs Verif.SolverProps.
Import ListNotations.
Open Scope list_scope.

(** Full statement: the literals printed are a part of a solution, each variable at most once, every completion of them is a solution and none of
    them can be given up; the number printed is theirs.  Missing: the option inprocessing (C53_inprocessing_refuted), and for the
    last part the options for pruning and projection (C66_pruned_refuted, C66_project_refuted). *)
Theorem C66_minimised_partial : forall MO G B w args cs code lines, called_with B w args cs -> unset args "inprocessing" ->
  switch args "minimize" false = true -> min_program MO G B w args = Exits code lines -> In (bytes "s SATISFIABLE") lines ->
  exists a ks, sat a (clauses cs) /\ agrees a ks /\ ascending ks /\
    (switch args "minimize-pruned" false = false -> switch args "minimize-project" false = false -> prime_implicant ks (clauses cs)) /\
    (exists t, In t lines /\ says_size (List.length ks) t /\ forall t', In t' lines -> starts "c Minimized-Model-Size:" t' = true -> t' = t) /\
    (if switch args "model" false then exists t, In t lines /\ says_kept ks t /\ forall t', In t' lines -> starts "c Minimized-Model:" t' = true -> t' = t
     else forall t, In t lines -> starts "c Minimized-Model:" t = false) /\
    (forall t, In t lines -> starts "v" t = false).
Proof. exact min_sat. Qed.
Print Assumptions C66_minimised_partial.

(** Without the option the program is the one of C53. *)
Theorem C66_same : forall MO G B w args, switch args "minimize" false = false -> min_program MO G B w args = program B w args.
Proof. exact same_program. Qed.
Print Assumptions C66_same.

Theorem C66_unsat : forall MO G B w args cs code lines, called_with B w args cs -> min_program MO G B w args = Exits code lines ->
  In (bytes "s UNSATISFIABLE") lines -> unsat (clauses cs).
Proof. exact min_unsat. Qed.
Print Assumptions C66_unsat.

(** The exit code and the test of the model are those of the unminimised model. *)
Theorem C66_exit_code : forall MO G B w args cs code lines, called_with B w args cs -> min_program MO G B w args = Exits code lines ->
  In (bytes "s SATISFIABLE") lines -> switch args "minimize" false = true ->
  (switch args "test-model" false = false -> code = 10%Z) /\
  (switch args "test-model" false = true -> unset args "inprocessing" -> code = 0%Z /\ In model_verified lines).
Proof. exact min_exit. Qed.
Print Assumptions C66_exit_code.

(** No undefined behaviour.  Missing: what is missing in C53_defined_partial. *)
Theorem C66_defined_partial : forall MO G B w args cs, called_with B w args cs -> (forall a, In a args -> good cli_options a) ->
  unset args "inprocessing" -> switch args "pre" true = false \/ switch args "elim" true = false -> switch args "test-proof" false = false ->
  min_program MO G B w args = Silent \/ min_program MO G B w args = Unmodelled \/ exists code lines, min_program MO G B w args = Exits code lines.
Proof. exact min_main_defined. Qed.
Print Assumptions C66_defined_partial.
(** which modes are not modelled *)
Theorem C66_modes : forall MO G B w args cs, called_with B w args cs -> min_program MO G B w args = Unmodelled ->
  program B w args = Unmodelled /\
  (unset args "threads" -> switch args "rsar-enable" false = false -> switch args "static-propagate" false = false ->
   switch args "rsil-enable" false = false -> switch args "use-vsidsc" false = false -> switch args "gate-stats" false = false -> False).
Proof. exact min_modes. Qed.
Print Assumptions C66_modes.

(** ** A case *)
Definition mm_problem : formula := [[0; 2]; [0; 4]; [3; 0; 7]; [2; 4; 6]].
Definition mm_args : list string := ["f.cnf"; "-no-elim"; "-minimize"; "-model"; "-test-model"]%string.
Definition mm_oracle : nat -> oracle := fun _ => SolverProps.w_oracle 0.
Lemma mm_good : forall a, In a mm_args -> good cli_options a.
Proof.
  intros a H. destruct H as [<-|[<-|[<-|[<-|[<-|[]]]]]].
  - apply good_file; reflexivity.
  - apply (good_no "elim" true); reflexivity.
  - apply (good_yes "minimize" false); reflexivity.
  - apply (good_yes "model" false); reflexivity.
  - apply (good_yes "test-model" false); reflexivity.
Qed.
Example C66_case : called_with 64 (a_world mm_problem (SolverProps.w_oracle 0)) mm_args (numbers mm_problem) /\ (forall a, In a mm_args -> good cli_options a) /\
  unset mm_args "inprocessing" /\ unset mm_args "threads" /\ switch mm_args "minimize" false = true /\ switch mm_args "minimize-pruned" false = false /\ switch mm_args "minimize-project" false = false /\
  switch mm_args "model" false = true /\ switch mm_args "elim" true = false /\
  min_program mm_oracle patterns_only 64 (a_world mm_problem (SolverProps.w_oracle 0)) mm_args =
    Exits 0 [bytes "s SATISFIABLE"; bytes "c Minimized-Model-Size: 2"; bytes "c Minimized-Model: 1 2 "; bytes "c Result verified by model checker"].
Proof.
  split; [apply a_called; reflexivity|]. split; [exact mm_good|]. split; [apply unset_by; reflexivity|]. split; [apply unset_by; reflexivity|].
  split; [reflexivity|]. split; [reflexivity|]. split; [reflexivity|]. split; [reflexivity|]. split; [reflexivity|]. vm_compute. reflexivity.
Qed.
Print Assumptions C66_case.

(** ** What is false *)
Definition picks (ps : list lit) (d : lit) : oracle := mkOracle (fun _ => false) (fun _ => false) (fun i => nth i ps d) (fun _ _ => Nat.ltb) (fun _ => []) (fun _ => []).
(** x4 and x4 -> (x0 or x1) and x0 = (x2 and x3) *)
Definition mg_problem : formula := [[8]; [9; 0; 2]; [1; 4]; [1; 6]; [5; 7; 0]].
Lemma not_implicant ks f a : forallb (lit_val a) ks = true -> satb a f = false -> ~ implicant ks f.
Proof.
  intros H1 H2 H. assert (HS : sat a f) by (apply H; intros l Hl; rewrite forallb_forall in H1; apply H1; auto). apply satb_spec in HS. congruence.
Qed.
(** With pruning the literals printed have a completion that is no solution. *)
Theorem C66_pruned_refuted : exists w cs t ks, called_with 64 w ["f.cnf"; "-no-pre"; "-model"; "-minimize"; "-minimize-pruned"]%string cs /\
  min_program mm_oracle patterns_only 64 w ["f.cnf"; "-no-pre"; "-model"; "-minimize"; "-minimize-pruned"]%string =
    Exits 10 [bytes "s SATISFIABLE"; bytes "c Minimized-Model-Size: 2"; t] /\ says_kept ks t /\ ~ implicant ks (clauses cs).
Proof.
  exists (a_world mg_problem (picks [1; 2; 4; 7] 0)), (numbers mg_problem), (bytes "c Minimized-Model: 2 5 "), [2; 8].
  split; [apply a_called; reflexivity|]. split; [vm_compute; reflexivity|]. split; [exact (says_kept_line [2; 8])|]. rewrite numbers_clauses. apply (not_implicant _ _ (fun v => negb (Nat.eqb v 2))); vm_compute; reflexivity.
Qed.
Print Assumptions C66_pruned_refuted.
(** So they have with projection. *)
Theorem C66_project_refuted : exists w cs t ks, called_with 64 w ["f.cnf"; "-no-pre"; "-model"; "-minimize"; "-minimize-project"]%string cs /\
  min_program mm_oracle patterns_only 64 w ["f.cnf"; "-no-pre"; "-model"; "-minimize"; "-minimize-project"]%string =
    Exits 10 [bytes "s SATISFIABLE"; bytes "c Minimized-Model-Size: 2"; t] /\ says_kept ks t /\ ~ implicant ks (clauses cs).
Proof.
  exists (a_world mg_problem (picks [1; 4] 0)), (numbers mg_problem), (bytes "c Minimized-Model: 3 4 "), [4; 6].
  split; [apply a_called; reflexivity|]. split; [vm_compute; reflexivity|]. split; [exact (says_kept_line [4; 6])|]. rewrite numbers_clauses. apply (not_implicant _ _ (fun v => negb (Nat.eqb v 4))); vm_compute; reflexivity.
Qed.
Print Assumptions C66_project_refuted.
(** With the option for a minimum, two literals are printed where one is enough. *)
Theorem C66_minimum_refuted : exists MO w cs small, called_with 64 w ["f.cnf"; "-no-pre"; "-model"; "-minimize"; "-minimize-minimal"]%string cs /\
  min_program MO patterns_only 64 w ["f.cnf"; "-no-pre"; "-model"; "-minimize"; "-minimize-minimal"]%string =
    Exits 10 [bytes "s SATISFIABLE"; bytes "c Minimized-Model-Size: 2"; bytes "c Minimized-Model: 2 3 "] /\
  min_program MO patterns_only 64 w ["f.cnf"; "-no-pre"; "-model"]%string = Exits 10 [bytes "s SATISFIABLE"; bytes "v 1 2 3 0"] /\
  small = [mkLit 0 false] /\ implicant small (clauses cs).
Proof.
  exists (fun _ => picks [] 1), (a_world [[0; 2]; [0; 4]] (picks [0; 2; 4] 0)), (numbers [[0; 2]; [0; 4]]), [0].
  split; [apply a_called; reflexivity|]. split; [vm_compute; reflexivity|]. split; [vm_compute; reflexivity|]. split; [reflexivity|]. rewrite numbers_clauses.
  intros a Ha c Hc. exists 0. split; [|apply Ha; left; auto]. destruct Hc as [<-|[<-|[]]]; left; auto.
Qed.
Print Assumptions C66_minimum_refuted.
