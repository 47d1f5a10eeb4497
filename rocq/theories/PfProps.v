(** C64: the threads of the portfolio are configured as listed, in every interleaving; what the portfolio then answers. *)
Require Import List Arith Bool NArith QArith_base Lia.
Require Import Verif.Base Verif.Outcome Verif.PropSpec Verif.SolverModel Verif.SolverSpec Verif.PortModel Verif.PortSpec Verif.PortProofs Verif.PfModel Verif.PfSpec Verif.PfProofs.
Require Import Verif.SolverProps.
Import ListNotations.
Open Scope nat_scope.

(** [g] are the options of the command line and [threads] is the number of threads asked for *)
Theorem C64_configuration : forall g threads sch p e, frun threads sch (pf_init g) = Some p -> In e (f_log p) -> e_gate e = false ->
  e_tid e < threads /\ e_val e = portfolio g (e_tid e) (e_opt e).
Proof.
  intros g threads sch p e E H G. destruct (reads g threads sch p e E H) as (A & [B|(B & _)]); [exact (conj A B)|congruence].
Qed.
Print Assumptions C64_configuration.

(** what is read while gates are analysed differs at most in two options, which the analysis itself switches off *)
Theorem C64_gate_configuration : forall g threads sch p e, frun threads sch (pf_init g) = Some p -> In e (f_log p) ->
  e_tid e < threads /\ (e_val e = portfolio g (e_tid e) (e_opt e) \/
    (e_gate e = true /\ (e_opt e = OSort \/ e_opt e = OPre) /\ portfolio g (e_tid e) ORsil = VB true /\ semantic (g OMethod) = true /\ e_val e = VB false)).
Proof. exact reads. Qed.
Print Assumptions C64_gate_configuration.

(** threads are initialised one after another *)
Theorem C64_one_at_a_time : forall g threads sch p t u, frun threads sch (pf_init g) = Some p ->
  f_thr p t = TMake \/ f_thr p t = TGate -> f_thr p u = TMake \/ f_thr p u = TGate -> t = u.
Proof. exact one_at_a_time. Qed.
Print Assumptions C64_one_at_a_time.

(** whatever the options, the interleavings and the heuristics: UNSATISFIABLE is only printed if it is true *)
Theorem C64_unsat : forall p F ans psch r, (forall t, answers p F t (ans t)) ->
  run ans psch port_init = Some r -> p_verdict r = Some (Some false) -> unsat F.
Proof. exact unsat_verdict. Qed.
Print Assumptions C64_unsat.

(** the first thread; what is missing is the model of any other thread, see C64_model_refuted *)
Theorem C64_model_partial : forall g threads sch p F ans psch r, frun threads sch (pf_init g) = Some p -> (forall t, answers p F t (ans t)) ->
  g OInproc = VN 0 -> run ans psch port_init = Some r -> p_int r = false -> p_model r = Some 0 -> satisfiable F -> model_sat (a_model (ans 0)) F.
Proof. exact first_model_printed. Qed.
Print Assumptions C64_model_partial.

(** ** Cases *)
Ltac clauses_ok := repeat (apply Forall_cons || apply Forall_nil);
  (split; [repeat constructor; cbn; intuition discriminate | cbn; intros l Hl; intuition (subst; cbn; lia)]).
(** the default options (CLIOptions.cc) *)
Definition defaults : store := fun o =>
  match o with
  | ORecalc | OPre | OElim => VB true | OInproc => VN 0 | ODecay => VQ (8 # 10) | OMaxDecay => VQ (95 # 100) | OStep => VQ (4 # 10) | OMinStep => VQ (6 # 100)
  | OTries => VN 0 | ORounds => VN 1048576 | OMethod => VN 10 | OLim => VN 20 | OPersist => VN 3 | OFirst => VN 3000 | OInc => VN 1300 | _ => VB false
  end.
(** main configures thread [k], the thread reads [rs], and main goes on *)
Definition start_one (k : nat) (rs : list fstep) : list fstep :=
  repeat FMain (2 + length (assignments k)) ++ [FMain] ++ rs ++ [FMain; FPush k; FMain].
Definition all_reads (k : nat) : list fstep := map (FRead k) (cfg_opts ++ [OSort; OLrb; ORsil; ODecay; OMaxDecay; OStep; OMinStep; OTries; ORounds]).
Definition gate_reads (k : nat) : list fstep := if as_b (portfolio defaults k ORsil) then [FAnalyse k; FClear k OSort; FRead k OSort; FRead k OPre; FClear k OPre; FRead k OTries] else [].
Definition start_all (n : nat) : list fstep := flat_map (fun k => start_one k (all_reads k ++ gate_reads k)) (seq 0 n).
Definition seen (n : nat) : list event := match frun n (start_all n ++ [FMain]) (pf_init defaults) with Some p => f_log p | None => [] end.
Definition of_thread (t : nat) (b : bool) (l : list event) : list (opt * oval) := map (fun e => (e_opt e, e_val e)) (filter (fun e => (e_tid e =? t) && Bool.eqb b (e_gate e)) l).
(** sixteen threads *)
Example C64_case : option_map (fun p => (f_main p, f_solvers p, length (f_log p))) (frun 16 (start_all 16 ++ [FMain]) (pf_init defaults)) = Some (MStarted, 16, 316) /\ of_thread 4 true (seen 16) = [(OSort, VB false); (OPre, VB false); (OTries, VN 0)] /\ of_thread 13 false (seen 16) = [(OPre, VB false); (OInproc, VN 91); (OElim, VB true); (OAsymm, VB false); (OLim, VN 20); (ORecalc, VB false); (OPersist, VN 3); (OMedian, VB false);
    (OFirst, VN 3000); (OInc, VN 1300); (OSort, VB false); (OLrb, VB false); (ORsil, VB true); (ODecay, VQ (6 # 10)); (OMaxDecay, VQ (95 # 100)); (OStep, VQ (7 # 10)); (OMinStep, VQ (2 # 100)); (OTries, VN 10); (ORounds, VN 2097152)].
Proof. split; [vm_compute; reflexivity|]. split; vm_compute; reflexivity. Qed.

(** threads that read the options and answer *)
Definition started (g : store) (n : nat) : option pf := frun n (flat_map (fun k => start_one k (all_reads k)) (seq 0 n)) (pf_init g).
Definition two_started : pf := match started defaults 2 with Some p => p | None => pf_init defaults end.
Definition first_solver (F : formula) (n : nat) : SolverModel.solver := loaded (cfg_of (portfolio defaults 0)) n F.
Definition php_ans (t : tid) : PortModel.answer :=
  match t with
  | 0 => match solve (cfg_of (portfolio defaults 0)) run_oracle 500 (first_solver php 6) with Ok (x, _) => mkA (r_status x) (r_model x) | Err _ => mkA None [] end
  | _ => mkA None []
  end.
Definition is_some {A} (x : option A) : bool := match x with Some _ => true | None => false end.
Lemma started_ok g n : is_some (started g n) = true -> frun n (flat_map (fun k => start_one k (all_reads k)) (seq 0 n)) (pf_init g) = Some (match started g n with Some p => p | None => pf_init g end).
Proof. unfold started. destruct (frun _ _ _); [reflexivity|discriminate]. Qed.
Example C64_unsat_case : (forall t, answers two_started php t (php_ans t)) /\
  exists r, run php_ans [SThread 0; SThread 0; SThread 0; SThread 0; SMain; SMain; SMain; SMain] port_init = Some r /\ p_verdict r = Some (Some false).
Proof.
  split.
  - intros [|t]; [|left; reflexivity]. right. exists (portfolio defaults 0), 6, (first_solver php 6), run_oracle, 500. eexists. eexists.
    split; [intros o Ho; cbn [cfg_opts In] in Ho; repeat (destruct Ho as [<-|Ho]; [vm_compute; tauto|]); destruct Ho|].
    split; [clauses_ok|]. split; [vm_compute; reflexivity|]. split; [vm_compute; reflexivity|vm_compute; reflexivity].
  - destruct (run_obs php_ans [SThread 0; SThread 0; SThread 0; SThread 0; SMain; SMain; SMain; SMain] false MGet (Some (Some false)) None None) as (p & E & H1 & H2 & H3 & H4 & H5); [vm_compute; reflexivity|].
    exists p. auto.
Qed.
Definition four : formula := [[0; 2]; [1; 4]; [3; 6]; [5; 7]].
Definition four_ans (t : tid) : PortModel.answer :=
  match t with
  | 0 => match solve (cfg_of (portfolio defaults 0)) run_oracle 500 (first_solver four 4) with Ok (x, _) => mkA (r_status x) (r_model x) | Err _ => mkA None [] end
  | _ => mkA None []
  end.
Definition four_sch : list step := [SMain; SThread 0; SThread 0; SThread 0; SThread 0] ++ repeat SMain 6.
Example C64_model_case : frun 2 (flat_map (fun k => start_one k (all_reads k)) (seq 0 2)) (pf_init defaults) = Some two_started /\
  (forall t, answers two_started four t (four_ans t)) /\ defaults OInproc = VN 0 /\ satisfiable four /\
  exists r, run four_ans four_sch port_init = Some r /\ p_int r = false /\ p_verdict r = Some (Some true) /\ p_model r = Some 0.
Proof.
  split; [apply started_ok; vm_compute; reflexivity|]. split.
  - intros [|t]; [|left; reflexivity]. right. exists (portfolio defaults 0), 4, (first_solver four 4), run_oracle, 500. eexists. eexists.
    split; [intros o Ho; cbn [cfg_opts In] in Ho; repeat (destruct Ho as [<-|Ho]; [vm_compute; tauto|]); destruct Ho|].
    split; [clauses_ok|]. split; [vm_compute; reflexivity|]. split; [vm_compute; reflexivity|vm_compute; reflexivity].
  - split; [reflexivity|]. split; [exists (fun v => match v with 1 | 3 => true | _ => false end); apply satb_spec; vm_compute; reflexivity|].
    destruct (run_obs four_ans four_sch false MEnd (Some (Some true)) (Some 0) (Some 10)) as (p & E & H1 & H2 & H3 & H4 & H5); [vm_compute; reflexivity|].
    exists p. auto 10.
Qed.

(** ** Refuted *)

(** The second thread always inprocesses.  With -cl-lim=1 -firstReduceDB=0 -incReduceDB=0 its model can be wrong when it is
    interrupted during inprocessing (as in C20_inprocessing_refuted; the added clauses keep the variables from being eliminated);
    the portfolio prints it. *)
Definition tight : store := fun o => match o with OLim => VN 1 | OFirst | OInc => VN 0 | _ => defaults o end.
Definition pad (l : lit) : formula := [[lneg l; 34; 36]; [lneg l; 35; 39]; [l; 36; 39]; [l; 35; 38]].
Definition padded : formula := i_problem ++ flat_map (fun v => pad (mkLit v false)) (seq 0 17) ++ [[34; 36; 38]; [34; 37; 39]; [35; 36; 39]; [35; 37; 38]].
Definition second_solver : SolverModel.solver := loaded (cfg_of (portfolio tight 1)) 20 padded.
Definition pad_ans (t : tid) : PortModel.answer :=
  match t with
  | 1 => match solve (cfg_of (portfolio tight 1)) i_oracle 500 second_solver with Ok (x, _) => mkA (r_status x) (r_model x) | Err _ => mkA None [] end
  | _ => mkA None []
  end.
Definition pad_started : pf := match started tight 2 with Some p => p | None => pf_init tight end.
Definition pad_sch : list step := [SInterrupt; SThread 1; SThread 1; SThread 1; SThread 1] ++ repeat SMain 6.
Theorem C64_model_refuted : exists g sch p F ans psch r, g OInproc = VN 0 /\ frun 2 sch (pf_init g) = Some p /\ (forall t, answers p F t (ans t)) /\
  run ans psch port_init = Some r /\ p_verdict r = Some (Some true) /\ p_model r = Some 1 /\ ~ model_sat (a_model (ans 1)) F.
Proof.
  exists tight, (flat_map (fun k => start_one k (all_reads k)) (seq 0 2)), pad_started, padded, pad_ans, pad_sch. eexists.
  split; [reflexivity|]. split; [apply started_ok; vm_compute; reflexivity|]. split.
  - intros t. destruct t as [|[|t]]; [left; reflexivity| |left; reflexivity]. right. exists (portfolio tight 1), 20, second_solver, i_oracle, 500. eexists. eexists.
    split; [intros o Ho; cbn [cfg_opts In] in Ho; repeat (destruct Ho as [<-|Ho]; [vm_compute; tauto|]); destruct Ho|].
    split; [let x := eval vm_compute in padded in change padded with x; clauses_ok|]. split; [vm_compute; reflexivity|]. split; [vm_compute; reflexivity|vm_compute; reflexivity].
  - split; [vm_compute; reflexivity|]. split; [reflexivity|]. split; [reflexivity|]. intros H. specialize (H [24; 26; 28; 31]). cbn [In] in H.
    destruct H as (l & Hl & E); [vm_compute; tauto|]. destruct Hl as [<-|[<-|[<-|[<-|[]]]]]; vm_compute in E; discriminate.
Qed.
Print Assumptions C64_model_refuted.
