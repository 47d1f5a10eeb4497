(** C63: the reports of the fuzzing program. *)
Require Import List Arith ZArith NArith String Bool Lia.
Require Import Verif.Base Verif.Outcome Verif.SolverModel Verif.SolverProps Verif.MainModel Verif.MainSpec Verif.MainCases Verif.FuzzModel Verif.FuzzSpec Verif.FuzzProofs.
Import ListNotations.
Open Scope list_scope.

(** Whatever the heuristics choose: what the program reports as verified is right. *)
Theorem C63_verified_model : forall B w args cs code lines, fuzz_called B w args cs -> fuzz_main B w args = Exits code lines ->
  In model_verified lines -> code = 0%Z /\ exists a, solution cs a.
Proof. exact fz_model. Qed.
Print Assumptions C63_verified_model.
Theorem C63_verified_proof : forall B w args cs code lines, fuzz_called B w args cs -> fuzz_main B w args = Exits code lines ->
  In proof_verified lines -> code = 0%Z /\ forall a, ~ solution cs a.
Proof. exact fz_proof. Qed.
Print Assumptions C63_verified_proof.

(** A problem with a solution never makes the program complain: it reports a verified model, or nothing (skipped, or no answer). *)
Theorem C63_solution : forall B w args cs code lines, fuzz_called B w args cs -> (exists a, solution cs a) -> fuzz_main B w args = Exits code lines ->
  code = 0%Z /\ (lines = [] \/ lines = [model_verified]).
Proof. exact fz_solution. Qed.
Print Assumptions C63_solution.
(** larger problems and problems without clauses are skipped *)
Theorem C63_skip : forall B w args cs n, fuzz_called B w args cs -> last_variable cs n ->
  100 < n \/ (forall c, In c cs -> exists z, In z c /\ In (- z)%Z c) -> fuzz_main B w args = Exits 0 [].
Proof. exact fz_skip. Qed.
Print Assumptions C63_skip.

(** Full statement: if the solver answers that there is no solution, the program reports a verified proof.  True only if the file
    has an empty clause: otherwise every such answer is reported as not verified, with exit code 1, because the proof is never
    written (below). *)
Theorem C63_no_solution_partial : forall B w args cs code lines, fuzz_called B w args cs -> w_writable w "cert.drat" = true ->
  (forall a, ~ solution cs a) -> fuzz_main B w args = Exits code lines ->
  lines = [] \/ In [] cs /\ code = 0%Z /\ lines = [proof_verified] \/ ~ In [] cs /\ code = 1%Z /\ lines = [proof_refused].
Proof. exact fz_no_solution. Qed.
Print Assumptions C63_no_solution_partial.
(** each complaint of the program is a false alarm: the answer was right *)
Theorem C63_false_alarm : forall B w args cs code lines, fuzz_called B w args cs -> fuzz_main B w args = Exits code lines ->
  ~ In model_refused lines /\ (In proof_refused lines -> code = 1%Z /\ forall a, ~ solution cs a).
Proof. exact fz_false_alarm. Qed.
Print Assumptions C63_false_alarm.

(** it does not end with an exception while it checks *)
Theorem C63_no_exception : forall B w args cs, fuzz_called B w args cs -> w_writable w "cert.drat" = true -> fuzz_main B w args <> Throws.
Proof. exact fz_no_exception. Qed.
Print Assumptions C63_no_exception.

(** ** Cases *)
Lemma fuzz_a_called F : fitsb F = true -> fuzz_called 64 (a_world F run_oracle) ["f.cnf"%string] (numbers F).
Proof.
  intros H. exists "f.cnf"%string, [], (file_of F). split; [reflexivity|]. split; [discriminate|]. split; [reflexivity|]. apply a_states; [exact H|reflexivity].
Qed.
Definition fz_sat : formula := [[4; 5]; [0; 2]; [1; 4]; [3; 4; 6]; [7; 8]; [9; 1; 4]].
Example C63_model_case : fuzz_called 64 (a_world fz_sat run_oracle) ["f.cnf"%string] (numbers fz_sat) /\
  (exists a, solution (numbers fz_sat) a) /\ fuzz_main 64 (a_world fz_sat run_oracle) ["f.cnf"%string] = Exits 0 [model_verified].
Proof.
  assert (HC : fuzz_called 64 (a_world fz_sat run_oracle) ["f.cnf"%string] (numbers fz_sat)) by (apply fuzz_a_called; vm_compute; reflexivity).
  assert (E : fuzz_main 64 (a_world fz_sat run_oracle) ["f.cnf"%string] = Exits 0 [model_verified]) by (vm_compute; reflexivity).
  split; [exact HC|]. split; [|exact E]. apply (C63_verified_model _ _ _ _ _ _ HC E). cbn. auto.
Qed.
Definition fz_empty : formula := [[0; 2]; []; [1; 3]].
Example C63_proof_case : fuzz_called 64 (a_world fz_empty run_oracle) ["f.cnf"%string] (numbers fz_empty) /\
  fuzz_main 64 (a_world fz_empty run_oracle) ["f.cnf"%string] = Exits 0 [proof_verified].
Proof. split; [apply fuzz_a_called; vm_compute; reflexivity|vm_compute; reflexivity]. Qed.
Definition fz_large : formula := [[0; 2]; [1; 210]].
Example C63_skip_case : fuzz_called 64 (a_world fz_large run_oracle) ["f.cnf"%string] (numbers fz_large) /\ last_variable (numbers fz_large) 106 /\
  fuzz_called 64 (a_world [[0; 1; 4]] run_oracle) ["f.cnf"%string] (numbers [[0; 1; 4]]).
Proof.
  split; [apply fuzz_a_called; vm_compute; reflexivity|]. split; [|apply fuzz_a_called; vm_compute; reflexivity].
  split; [intros c z Hc Hz|right; exists [-1; 106]%Z, 106%Z; vm_compute; auto].
  vm_compute in Hc. destruct Hc as [<-|[<-|[]]]; cbn in Hz; repeat (destruct Hz as [<-|Hz]; [lia|]); destruct Hz.
Qed.

(** The problem has no solution, the solver says so, the program complains. *)
Definition fz_unsat : formula := [[0; 2]; [0; 3]; [1; 2]; [1; 3]].
Theorem C63_complete_refuted : exists B w args cs, fuzz_called B w args cs /\ w_writable w "cert.drat" = true /\ unsat (clauses cs) /\
  fuzz_main B w args = Exits 1 [proof_refused].
Proof.
  exists 64, (a_world fz_unsat run_oracle), ["f.cnf"%string], (numbers fz_unsat). split; [apply fuzz_a_called; vm_compute; reflexivity|]. split; [reflexivity|].
  split; [|vm_compute; reflexivity]. rewrite numbers_clauses. intros a H.
  assert (H1 := H [0; 2]). assert (H2 := H [0; 3]). assert (H3 := H [1; 2]). assert (H4 := H [1; 3]). cbn in H1, H2, H3, H4.
  destruct H1 as (l1 & I1 & L1); [auto|]. destruct H2 as (l2 & I2 & L2); [auto|]. destruct H3 as (l3 & I3 & L3); [auto|]. destruct H4 as (l4 & I4 & L4); [auto 6|].
  unfold lit_holds, lit_val in *. cbn in I1, I2, I3, I4.
  destruct I1 as [<-|[<-|[]]], I2 as [<-|[<-|[]]], I3 as [<-|[<-|[]]], I4 as [<-|[<-|[]]]; cbn in *; destruct (a 0), (a 1); discriminate.
Qed.
Print Assumptions C63_complete_refuted.
