(** C22: the IPASIR session contract. *)
Require Import List Arith Bool NArith ZArith Lia.
Require Import Verif.Base Verif.Outcome Verif.SolverModel Verif.SimpProps Verif.SolverProps Verif.IpasirModel Verif.IpasirSpec Verif.IpasirProofs.
Import ListNotations.
Local Open Scope Z_scope.

Theorem C22_codes : forall C cs s O fuel r s', ireach C cs s -> ipasir_solve C O fuel s = Ok (r, s') -> r = 0 \/ r = 10 \/ r = 20.
Proof. exact ip_codes. Qed.
Print Assumptions C22_codes.

(** all configurations, in particular the default one that ipasir_init uses *)
Theorem C22_unsat : forall C cs s O fuel r s', ireach C cs s -> (forall l, In l (assumptions cs) -> occurs (clauses cs) (Z.abs l)) ->
  ipasir_solve C O fuel s = Ok (r, s') -> r = 20 -> zunsat (clauses cs) (assumptions cs).
Proof. exact ip_unsat_all. Qed.
Print Assumptions C22_unsat.

(** after 20, ipasir_failed answers for every assumption, whatever was queried before, and the
    assumptions for which it answers true are a core *)
Theorem C22_failed : forall C cs s O fuel r s' qs s'', ireach C cs s -> (forall l, In l (assumptions cs) -> occurs (clauses cs) (Z.abs l)) ->
  ipasir_solve C O fuel s = Ok (r, s') -> r = 20 -> irun C s' (map CFailed qs) = Ok s'' ->
  exists failed, (forall l, In l (assumptions cs) -> exists w, ipasir_failed l s'' = Ok (failed l, w)) /\
    zunsat (clauses cs) (filter failed (assumptions cs)).
Proof. exact ip_failed. Qed.
Print Assumptions C22_failed.

(** Any session without pre- and inprocessing; the first solve with preprocessing too, including variable
    elimination.  Missing from C22: inprocessing, and preprocessing after the first solve, for which it is
    false (below). *)
Theorem C22_model_partial : forall C cs s O fuel r s', c_inproc C = 0%N -> c_pre C = false ->
  ireach C cs s -> (forall l, In l (assumptions cs) -> occurs (clauses cs) (Z.abs l)) ->
  ipasir_solve C O fuel s = Ok (r, s') -> r = 10 ->
  (forall c, In c (clauses cs) -> exists l, In l c /\ ipasir_val l s' = l) /\
  (forall l, In l (assumptions cs) -> ipasir_val l s' = l) /\
  (forall l, l <> 0 -> occurs (clauses cs) (Z.abs l) -> ipasir_val (- l) s' = ipasir_val l s').
Proof. exact ip_sat_history. Qed.
Print Assumptions C22_model_partial.

Theorem C22_model_first_partial : forall C cs s O fuel r s', c_inproc C = 0%N -> (forall h n, ~ In (CSolve h n) cs) ->
  ireach C cs s -> (forall l, In l (assumptions cs) -> occurs (clauses cs) (Z.abs l)) ->
  ipasir_solve C O fuel s = Ok (r, s') -> r = 10 ->
  (forall c, In c (clauses cs) -> exists l, In l c /\ ipasir_val l s' = l) /\
  (forall l, In l (assumptions cs) -> ipasir_val l s' = l) /\
  (forall l, l <> 0 -> occurs (clauses cs) (Z.abs l) -> ipasir_val (- l) s' = ipasir_val l s').
Proof. exact ip_sat_first. Qed.
Print Assumptions C22_model_first_partial.

Theorem C22_defined_partial : forall C cs s O fuel, c_inproc C = 0%N -> c_pre C = false ->
  ireach C cs s -> (forall l, In l (assumptions cs) -> occurs (clauses cs) (Z.abs l)) -> ipasir_solve C O fuel s <> Err UB.
Proof. exact ip_defined_history. Qed.
Print Assumptions C22_defined_partial.

(** ipasir_val answers 0 after any answer other than 10, and as soon as a literal or an assumption
    was added, until the next solve *)
Theorem C22_no_model : forall C s r s' O fuel cs s'' l, ipasir_solve C O fuel s = Ok (r, s') -> r <> 10 ->
  irun C s' cs = Ok s'' -> (forall h n, ~ In (CSolve h n) cs) -> ipasir_val l s'' = 0.
Proof. exact ip_no_model. Qed.
Print Assumptions C22_no_model.
Theorem C22_model_gone : forall C s c k cs s'' l, c = CAdd k \/ c = CAssume k -> irun C s (c :: cs) = Ok s'' ->
  (forall h n, ~ In (CSolve h n) cs) -> ipasir_val l s'' = 0.
Proof. exact ip_model_gone. Qed.
Print Assumptions C22_model_gone.

(** ** Cases *)
Definition adds (c : list Z) : list call := map CAdd (c ++ [0]).
Definition sel_calls : list call :=
  concat (map adds [[1; 2; -7]; [3; 4; -8]; [5; 6; -9]; [-1; -3]; [-1; -5]; [-3; -5]; [-2; -4]; [-2; -6]; [-4; -6]; [10; 11]; [3; -3]])
  ++ [CAssume 10; CAssume 7].
(** a solve with answer 10, then more assumptions and a solve with answer 20 *)
Definition sel_more : list call := sel_calls ++ [CSolve run_oracle 500; CVal 7; CLearn 5; CAssume 10; CAssume 7; CAssume 8; CAssume 9].
Fixpoint legalb_from (pre cs : list call) : bool :=
  match cs with
  | [] => true
  | c :: r => (match c with
               | CAssume l => negb (l =? 0)
               | CSolve _ _ => forallb (fun l => existsb (fun d => existsb (fun k => Z.abs k =? Z.abs l) d) (clauses pre)) (assumptions pre)
               | _ => true end) && legalb_from (pre ++ [c]) r
  end.
Lemma legalb_ok cs : forall pre, legal pre -> legalb_from pre cs = true -> legal (pre ++ cs).
Proof.
  induction cs as [|c cs IH]; intros pre H E; [rewrite app_nil_r; auto|]. cbn [legalb_from] in E. apply andb_prop in E. destruct E as (E1 & E2).
  replace (pre ++ c :: cs) with ((pre ++ [c]) ++ cs) by (rewrite <- app_assoc; reflexivity). apply IH; auto.
  destruct c; try (constructor; auto; fail).
  - apply lg_assume; auto. intros ->. discriminate.
  - apply lg_solve; auto. exact (solvableb_ok pre E1).
Qed.
Definition ip_dflt (C : cfg) := ipasir_init C.
Definition after (C : cfg) (cs : list call) : ips := get (ipasir_init C) (irun C (ipasir_init C) cs).
Lemma after_reach C cs : legalb_from [] cs = true -> (match irun C (ipasir_init C) cs with Ok _ => true | Err _ => false end) = true -> ireach C cs (after C cs).
Proof.
  intros H E. split; [exact (legalb_ok cs [] lg_nil H)|]. unfold after. destruct (irun C (ipasir_init C) cs); [reflexivity|discriminate].
Qed.
Example C22_model_case : ireach plain_cfg sel_calls (after plain_cfg sel_calls) /\
  (forall l, In l (assumptions sel_calls) -> occurs (clauses sel_calls) (Z.abs l)) /\
  exists s', ipasir_solve plain_cfg run_oracle 500 (after plain_cfg sel_calls) = Ok (10, s').
Proof.
  split; [apply after_reach; vm_compute; reflexivity|]. split; [apply solvableb_ok; vm_compute; reflexivity|]. eexists. vm_compute. reflexivity.
Qed.
(** the options of ipasir_init, with variable elimination *)
Definition elim_calls : list call :=
  concat (map adds [[1; 2; 3]; [-1; 4; 5]; [-2; -5; 6]; [-3; -4; 7]; [-7; 8; -1]; [-8; 3; 2]; [-6; 9; 4]; [-9; 7; 1]; [4; -4]]) ++ [CLearn 5; CAssume (-1); CAssume 5; CVal 3].
Example C22_first_case : c_inproc default_cfg = 0%N /\ (forall h n, ~ In (CSolve h n) elim_calls) /\
  ireach default_cfg elim_calls (after default_cfg elim_calls) /\ (forall l, In l (assumptions elim_calls) -> occurs (clauses elim_calls) (Z.abs l)) /\
  exists s', ipasir_solve default_cfg run_oracle 500 (after default_cfg elim_calls) = Ok (10, s') /\ SimpModel.ev (sv_e (ip_sv s')) <> [].
Proof.
  split; [reflexivity|]. split; [intros h n H; vm_compute in H; intuition discriminate|].
  split; [apply after_reach; vm_compute; reflexivity|]. split; [apply solvableb_ok; vm_compute; reflexivity|]. eexists. split; [vm_compute; reflexivity|discriminate].
Qed.
Example C22_failed_case : ireach default_cfg sel_more (after default_cfg sel_more) /\
  (forall l, In l (assumptions sel_more) -> occurs (clauses sel_more) (Z.abs l)) /\
  assumptions sel_more = [10; 7; 8; 9] /\
  exists s' s'', ipasir_solve default_cfg run_oracle 500 (after default_cfg sel_more) = Ok (20, s') /\
    irun default_cfg s' (map CFailed [7; 2]) = Ok s'' /\ (exists w, ipasir_failed 10 s'' = Ok (false, w)) /\ (exists w, ipasir_failed 8 s'' = Ok (true, w)).
Proof.
  split; [apply after_reach; vm_compute; reflexivity|]. split; [apply solvableb_ok; vm_compute; reflexivity|]. split; [reflexivity|].
  eexists. eexists. split; [vm_compute; reflexivity|]. split; [vm_compute; reflexivity|]. split; eexists; vm_compute; reflexivity.
Qed.

(** ** Where the contract does not hold *)
(** an assumption about a variable that occurs in no clause (allowed by IPASIR) *)
Theorem C22_unknown_assumption_refuted : exists cs s O fuel, ireach default_cfg cs s /\ ipasir_solve default_cfg O fuel s = Err UB.
Proof.
  exists (adds [1; 2] ++ [CAssume 5]), (after default_cfg (adds [1; 2] ++ [CAssume 5])), run_oracle, 500%nat.
  split; [apply after_reach; vm_compute; reflexivity|vm_compute; reflexivity].
Qed.
Print Assumptions C22_unknown_assumption_refuted.

(** the default configuration, two solves: the second answer is 10, but no literal of a clause has
    its value *)
Definition w_calls : list call :=
  concat (map adds [[2; 6]; [-2; 1]; [-7]; [-3; -6]]) ++ [CSolve (w_oracle 0) 500] ++ adds [2; 5].
Theorem C22_default_model_refuted : exists cs s O fuel s', ireach default_cfg cs s /\ assumptions cs = [] /\ ipasir_solve default_cfg O fuel s = Ok (10, s') /\ exists c, In c (clauses cs) /\ forall l, In l c -> ipasir_val l s' = - l.
Proof.
  exists w_calls, (after default_cfg w_calls), (w_oracle (sv_clk (ip_sv (after default_cfg w_calls)))), 500%nat. eexists.
  split; [apply after_reach; vm_compute; reflexivity|]. split; [reflexivity|]. split; [vm_compute; reflexivity|].
  exists [2; 6]. split; [vm_compute; auto|]. intros l [<-|[<-|[]]]; vm_compute; reflexivity.
Qed.
Print Assumptions C22_default_model_refuted.
(** before the first solve ipasir_val reports values although there is no model *)
Theorem C22_val_before_solve_refuted : exists s, ireach default_cfg [] s /\ ipasir_val 1 s <> 0.
Proof. exists (ipasir_init default_cfg). split; [split; [constructor|reflexivity]|]. vm_compute. discriminate. Qed.
Print Assumptions C22_val_before_solve_refuted.
