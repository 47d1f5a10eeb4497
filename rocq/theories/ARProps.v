(** C49: the solver with abstraction refinement. *)
Require Import List Arith Bool ZArith NArith Lia.
Require Import Verif.Base Verif.Outcome Verif.CNFModel Verif.SolverModel Verif.SolverSpec Verif.PropSpec Verif.ApproxModel Verif.ApproxSpec Verif.ARModel Verif.ARSpec Verif.ARProofs Verif.SimpProps Verif.SolverProps.
Import ListNotations.

(** "unsatisfiable" is about the clauses of the caller, never about the approximation *)
Theorem C49_unsat : forall C F a Os fuel k a', areach C any_aop F a -> ar_max a <> 0%Z ->
  ar_solve C Os fuel k a = Ok (Some false, a') -> unsat F.
Proof. exact ar_unsat_plain. Qed.
Print Assumptions C49_unsat.

(** also if no refinement step is allowed: then the assumptions of the caller count *)
Theorem C49_unsat_assuming : forall C F a Os fuel k a', areach C any_aop F a ->
  ar_solve C Os fuel k a = Ok (Some false, a') -> unsat (F ++ units (assumptions (ar_in a))).
Proof. exact ar_unsat_assuming. Qed.
Print Assumptions C49_unsat_assuming.

(** "satisfiable": the model satisfies all clauses, under the conditions of C20 on the inner solver *)
Theorem C49_model_history_partial : forall C F a Os fuel k a', c_inproc C = 0%N -> c_pre C = false -> areach C problem_aop F a ->
  ar_solve C Os fuel k a = Ok (Some true, a') -> model_sat (r_model (ar_res a')) F.
Proof. exact ar_model_history. Qed.
Print Assumptions C49_model_history_partial.

Theorem C49_model_first_partial : forall C F a Os fuel k a', c_inproc C = 0%N -> areach C loading_aop F a ->
  ar_solve C Os fuel k a = Ok (Some true, a') -> model_sat (r_model (ar_res a')) F.
Proof. exact ar_model_first. Qed.
Print Assumptions C49_model_first_partial.

(** whatever the conjectures, the heuristic of the caller and the number of steps, a solve is one solve
    of the inner solver without any approximation clause and without assumptions *)
Theorem C49_one_solve : forall C (ok : aop -> Prop) F a Os fuel k, areach C ok F a -> ar_max a <> 0%Z -> 0 < k ->
  ar_solve C Os fuel k a =
    (s <- solver_init 0 [] true (ar_in a) ;; ' (x, s') <- solve C (Os 0) fuel (solver_assume [] s) ;;
     Ok (r_status x, mkAr s' x (ar_vars a) (ar_eqs a) (ar_bs a) (ar_max a) [] (ar_lits a))).
Proof. exact one_solve. Qed.
Print Assumptions C49_one_solve.

(** the program with -rsar-enable *)
Theorem C49_program_unsat : forall C Os fuel k p min_gates max limits heur gates eqs bs a',
  (forall c, In c eqs -> distinct_vars c) -> distinct_vars bs -> Forall (clause_ok (variables p)) (problem p) -> max <> 0%Z ->
  rsar_main C Os fuel k p (createRSARSolver C min_gates max limits heur gates (Some (eqs, bs))) = Some (Ok (Some false, a')) -> unsat (problem p).
Proof. exact main_unsat. Qed.
Print Assumptions C49_program_unsat.

Theorem C49_program_model : forall C Os fuel k p min_gates max limits heur gates eqs bs a', c_inproc C = 0%N ->
  (forall c, In c eqs -> distinct_vars c) -> distinct_vars bs -> Forall (clause_ok (variables p)) (problem p) ->
  rsar_main C Os fuel k p (createRSARSolver C min_gates max limits heur gates (Some (eqs, bs))) = Some (Ok (Some true, a')) ->
  model_sat (r_model (ar_res a')) (problem p).
Proof. exact main_model. Qed.
Print Assumptions C49_program_model.

(** with enough gates, any conjecture and any limits the program runs the solver on the problem *)
Theorem C49_program_runs : forall C Os fuel k p min_gates max limits heur g eqs bs, min_gates <= g -> (eqs <> [] \/ bs <> []) -> limits <> [] ->
  rsar_main C Os fuel k p (createRSARSolver C min_gates max limits heur (Some g) (Some (eqs, bs))) =
  Some (a <- ar_init (variables p) (problem p) true (ar_new C eqs bs max [heur limits]) ;; ar_solve C Os fuel k a).
Proof. exact main_runs. Qed.
Print Assumptions C49_program_runs.

(** ** Cases *)
Definition no_heur : list nat -> heuristic := fun _ _ _ => mkMarks [] [].
(** the pigeon formula with wrong conjectures: an equivalence of three literals and a backbone *)
Definition ar_php : arsolver :=
  match ar_init 6 php true (ar_new plain_cfg [[0; 4; 9]] [2] 10 [no_heur []]) with Ok a => a | Err _ => ar_new plain_cfg [] [] 0 [] end.
Lemma ar_php_reach (ok : aop -> Prop) : ok (AInit 6 php true) -> areach plain_cfg ok php ar_php.
Proof.
  intros H. unfold ar_php. destruct (ar_init 6 php true (ar_new plain_cfg [[0; 4; 9]] [2] 10 [no_heur []])) as [a|] eqn:E; [|vm_compute in E; discriminate].
  apply (ar_init_r plain_cfg ok [] (ar_new plain_cfg [[0; 4; 9]] [2] 10 [no_heur []]) 6 php true a); [|exact H| |exact E].
  - apply ar_new_r.
    + intros c [<-|[]]. unfold distinct_vars; cbn; repeat (constructor; [cbn; intuition discriminate|]); constructor.
    + unfold distinct_vars; cbn; repeat (constructor; [cbn; intuition discriminate|]); constructor.
  - replace (Nat.max 6 (nvars (ar_in (ar_new plain_cfg [[0; 4; 9]] [2] 10 [no_heur []])))) with 6 by (vm_compute; reflexivity). clauses_ok.
Qed.
Example C49_case : areach plain_cfg any_aop php ar_php /\ ar_max ar_php <> 0%Z /\
  exists a', ar_solve plain_cfg (fun _ => run_oracle) 500 5 ar_php = Ok (Some false, a').
Proof.
  split; [apply ar_php_reach; exact I|]. split; [vm_compute; discriminate|]. eexists. vm_compute. reflexivity.
Qed.
(** a satisfiable formula whose conjectures contradict it *)
Definition sat3 : formula := [[0; 2]; [1; 4]; [3; 5]].
Definition ar_sat : arsolver :=
  match ar_init 3 sat3 true (ar_new plain_cfg [[0; 3; 4]] [] 10 [no_heur []]) with Ok a => a | Err _ => ar_new plain_cfg [] [] 0 [] end.
Lemma ar_sat_reach (ok : aop -> Prop) : ok (AInit 3 sat3 true) -> areach plain_cfg ok sat3 ar_sat.
Proof.
  intros H. unfold ar_sat. destruct (ar_init 3 sat3 true (ar_new plain_cfg [[0; 3; 4]] [] 10 [no_heur []])) as [a|] eqn:E; [|vm_compute in E; discriminate].
  apply (ar_init_r plain_cfg ok [] (ar_new plain_cfg [[0; 3; 4]] [] 10 [no_heur []]) 3 sat3 true a); [|exact H| |exact E].
  - apply ar_new_r; [|constructor]. intros c [<-|[]]. unfold distinct_vars; cbn; repeat (constructor; [cbn; intuition discriminate|]); constructor.
  - replace (Nat.max 3 (nvars (ar_in (ar_new plain_cfg [[0; 3; 4]] [] 10 [no_heur []])))) with 3 by (vm_compute; reflexivity). clauses_ok.
Qed.
Example C49_model_case : areach plain_cfg problem_aop sat3 ar_sat /\ areach plain_cfg loading_aop sat3 ar_sat /\
  exists a', ar_solve plain_cfg (fun _ => run_oracle) 500 5 ar_sat = Ok (Some true, a').
Proof.
  split; [apply ar_sat_reach; reflexivity|]. split; [apply ar_sat_reach; reflexivity|]. eexists. vm_compute. reflexivity.
Qed.
Example C49_program_case : exists a', rsar_main plain_cfg (fun _ => run_oracle) 500 5 (mkCnf php 6)
  (createRSARSolver plain_cfg 100 10 [3] no_heur (Some 100) (Some ([[0; 4; 9]], [2]))) = Some (Ok (Some false, a')).
Proof. eexists. vm_compute. reflexivity. Qed.

(** ** Refuted *)
(** the assumptions of the caller are lost *)
Theorem C49_assumptions_refuted : exists F a Os fuel k a', areach plain_cfg problem_aop F a /\
  ar_solve plain_cfg Os fuel k a = Ok (Some true, a') /\ unsat (F ++ units (assumptions (ar_in a))).
Proof.
  exists sat3, (ar_assume [1; 3] ar_sat), (fun _ => run_oracle), 500, 5. eexists. split; [|split; [vm_compute; reflexivity|]].
  - apply (ar_assume_r plain_cfg problem_aop sat3 ar_sat [1; 3]); [apply ar_sat_reach; reflexivity|exact I|].
    intros l Hl. replace (nvars (ar_in ar_sat)) with 3 by (vm_compute; reflexivity). destruct Hl as [<-|[<-|[]]]; vm_compute; lia.
  - intros m Hm. apply satb_spec in Hm. revert Hm. replace (sat3 ++ units (assumptions (ar_in (ar_assume [1; 3] ar_sat)))) with (sat3 ++ [[1]; [3]]) by (vm_compute; reflexivity).
    cbv - [not]. destruct (m 0), (m 1), (m 2); discriminate.
Qed.
Print Assumptions C49_assumptions_refuted.

(** with the default value of rsar-heur-idc no input gives an answer: an uncaught exception or a null pointer *)
Theorem C49_default_options_refuted : forall C Os fuel k p min_gates max heur gates conj,
  let r := rsar_main C Os fuel k p (createRSARSolver C min_gates max [] heur gates conj) in r = None \/ r = Some (Err UB).
Proof. exact main_default. Qed.
Print Assumptions C49_default_options_refuted.

(** with too few gates a null pointer is used, whatever the options *)
Theorem C49_few_gates_refuted : forall C Os fuel k p min_gates max limits heur g conj, g < min_gates ->
  rsar_main C Os fuel k p (createRSARSolver C min_gates max limits heur (Some g) conj) = Some (Err UB).
Proof. exact main_too_few. Qed.
Print Assumptions C49_few_gates_refuted.
