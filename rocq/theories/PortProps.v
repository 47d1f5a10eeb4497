(** C41: the portfolio reports a result with its own solver. *)
Require Import List Arith Bool.
Require Import Verif.Base Verif.SolverSpec Verif.PortModel Verif.PortSpec Verif.PortProofs.
Import ListNotations.

(** ** Proved for every interleaving of any number of threads *)

(** a printed SAT or UNSAT is the answer of some thread, whatever the threads answer *)
Theorem C41_verdict : forall ans sch p b,
  run ans sch port_init = Some p -> p_verdict p = Some (Some b) -> exists t, a_status (ans t) = Some b.
Proof. exact verdict_answered. Qed.
Print Assumptions C41_verdict.

(** hence it is right if the threads are *)
Theorem C41_verdict_correct : forall ans F sch p b,
  sound F ans -> run ans sch port_init = Some p -> p_verdict p = Some (Some b) -> if b then satisfiable F else unsat F.
Proof. intros ans F sch p b H. exact (verdict_correct ans F H sch p b). Qed.
Print Assumptions C41_verdict_correct.

(** what is missing: runs with an interruption, see C41_model_refuted *)
Theorem C41_model_partial : forall ans F sch p t,
  sound F ans -> run ans sch port_init = Some p -> p_int p = false -> p_model p = Some t ->
  a_status (ans t) = Some true /\ model_sat (a_model (ans t)) F.
Proof. intros ans F sch p t H. exact (model_correct ans F H sch p t). Qed.
Print Assumptions C41_model_partial.

(** without an interruption the verdict is never INDETERMINATE, and the exit code is that of the verdict *)
Theorem C41_definite : forall ans F sch p v,
  sound F ans -> run ans sch port_init = Some p -> p_int p = false -> p_verdict p = Some v -> v <> None.
Proof. intros ans F sch p v H. exact (verdict_definite ans F H sch p v). Qed.
Print Assumptions C41_definite.
Theorem C41_exit : forall ans F sch p x,
  sound F ans -> run ans sch port_init = Some p -> p_int p = false -> p_exit p = Some x ->
  exists b, p_verdict p = Some (Some b) /\ x = exit_code (Some b).
Proof. intros ans F sch p x H. exact (exit_correct ans F H sch p x). Qed.
Print Assumptions C41_exit.

(** ** Proved for schedules in which nothing else happens while a thread publishes its result, with or
    without interruptions: after SAT the model of a thread that answered SAT is printed, and the exit
    code belongs to the verdict *)
Theorem C41_locked_model : forall ans sch p,
  locked ans sch -> run ans sch port_init = Some p -> p_main p = MEnd -> p_verdict p = Some (Some true) ->
  exists t, p_model p = Some t /\ a_status (ans t) = Some true.
Proof. exact locked_model. Qed.
Print Assumptions C41_locked_model.
Theorem C41_locked_exit : forall ans sch p b,
  locked ans sch -> run ans sch port_init = Some p -> p_main p = MEnd -> p_verdict p = Some (Some b) ->
  p_exit p = Some (exit_code (Some b)).
Proof. exact locked_exit. Qed.
Print Assumptions C41_locked_exit.

(** ** Cases *)
Definition F0 : formula := [[mkLit 0 false; mkLit 1 false]].
(** threads 0 and 2 find models, the others give up *)
Definition ans0 (t : tid) : answer :=
  match t with 0 => mkA (Some true) [Some true; Some false] | 2 => mkA (Some true) [Some false; Some true] | _ => mkA None [] end.
Lemma ans0_sound : sound F0 ans0.
Proof.
  intros t. destruct t as [|[|[|t]]]; cbn; auto; intros c [<-|[]].
  - exists (mkLit 0 false). split; [left; auto|reflexivity].
  - exists (mkLit 1 false). split; [right; left; auto|reflexivity].
Qed.
(** thread 2 overtakes thread 0 between its two writes; the model printed is that of thread 2 *)
Definition sch1 : list step := [SMain; SThread 0; SThread 2; SThread 0; SThread 2; SThread 0; SThread 0; SMain; SMain; SThread 2; SThread 2; SMain; SMain; SMain; SMain].
Example C41_case : exists p, sound F0 ans0 /\ run ans0 sch1 port_init = Some p /\ p_int p = false /\
  p_verdict p = Some (Some true) /\ p_model p = Some 2 /\ p_exit p = Some 10.
Proof.
  destruct (run_obs ans0 sch1 false MEnd (Some (Some true)) (Some 2) (Some 10)) as (p & E & H1 & H2 & H3 & H4 & H5); [vm_compute; reflexivity|]. exists p. split; [exact ans0_sound|]. auto 10.
Qed.
(** thread 1 is interrupted and publishes first; then thread 0 *)
Definition sch2 : list step := [SInterrupt; SThread 1; SThread 0; SThread 1; SThread 1; SThread 1; SThread 0; SThread 0; SThread 0] ++ repeat SMain 6.
Example C41_locked_case : locked ans0 sch2 /\ exists p, run ans0 sch2 port_init = Some p /\ p_main p = MEnd /\ p_verdict p = Some (Some true) /\ p_model p = Some 0.
Proof.
  split; [apply lockedb_sound; vm_compute; reflexivity|]. destruct (run_obs ans0 sch2 true MEnd (Some (Some true)) (Some 0) (Some 10)) as (p & E & H1 & H2 & H3 & H4 & H5); [vm_compute; reflexivity|]. exists p. auto 10.
Qed.

(** ** Refuted *)

(** two threads find that there is no result; the second was interrupted.  Main prints SAT and the (empty)
    model of the second: [model.value] then reads behind the end of it *)
Definition sch3 : list step := [SInterrupt; SThread 0; SThread 1; SThread 0; SThread 1; SThread 1; SThread 0; SThread 0; SThread 1] ++ repeat SMain 6.
Theorem C41_model_refuted : exists ans F sch p t, sound F ans /\ run ans sch port_init = Some p /\
  p_verdict p = Some (Some true) /\ p_model p = Some t /\ a_status (ans t) = None /\ a_model (ans t) = [].
Proof.
  destruct (run_obs ans0 sch3 true MEnd (Some (Some true)) (Some 1) (Some 10)) as (p & E & H1 & H2 & H3 & H4 & H5); [vm_compute; reflexivity|].
  exists ans0, F0, sch3, p, 1. split; [exact ans0_sound|]. auto 10.
Qed.
Print Assumptions C41_model_refuted.

(** one thread, no interruption: main prints SAT between the two writes and finds no solver to take the model from *)
Definition sch4 : list step := [SThread 0; SThread 0; SThread 0; SMain; SMain; SMain; SThread 0; SMain].
Theorem C41_missing_model_refuted : exists ans F sch p, sound F ans /\ run ans sch port_init = Some p /\ p_int p = false /\
  p_main p = MEnd /\ p_verdict p = Some (Some true) /\ p_exit p = Some 10 /\ p_model p = None.
Proof.
  destruct (run_obs ans0 sch4 false MEnd (Some (Some true)) None (Some 10)) as (p & E & H1 & H2 & H3 & H4 & H5); [vm_compute; reflexivity|].
  exists ans0, F0, sch4, p. split; [exact ans0_sound|]. auto 10.
Qed.
Print Assumptions C41_missing_model_refuted.

(** with a lock around the publication only: INDETERMINATE is printed, with a model of no solver, and the exit code says SAT *)
Definition sch5 : list step := [SInterrupt; SThread 1; SThread 0; SThread 1; SThread 1; SThread 1; SMain; SMain; SMain; SMain; SMain; SThread 0; SThread 0; SThread 0; SMain; SMain].
Theorem C41_late_result_refuted : exists ans F sch p, sound F ans /\ locked ans sch /\ run ans sch port_init = Some p /\
  p_verdict p = Some None /\ p_exit p = Some 10 /\ p_model p = Some 1 /\ a_status (ans 1) = None.
Proof.
  destruct (run_obs ans0 sch5 true MEnd (Some None) (Some 1) (Some 10)) as (p & E & H1 & H2 & H3 & H4 & H5); [vm_compute; reflexivity|].
  exists ans0, F0, sch5, p. split; [exact ans0_sound|]. split; [apply lockedb_sound; vm_compute; reflexivity|]. auto 10.
Qed.
Print Assumptions C41_late_result_refuted.
