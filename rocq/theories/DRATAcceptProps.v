(** C50: the DRAT checker accepts valid proofs, in particular those the solver writes. *)
Require Import List Arith Lia NArith Verif.Base Verif.Outcome Verif.DbModel Verif.SolverModel Verif.SolverSpec Verif.DRATModel Verif.DRATSpec
  Verif.DRATComplete Verif.DRATSolver Verif.CertSolver Verif.CertHistory Verif.CertSpec Verif.CertProofs Verif.CertCases Verif.CertProps Verif.DRATAcceptCases.
Import ListNotations.

(** Full statement: for every problem and every valid clausal proof of it that contains the empty clause, the
    checker answers that the proof is valid.  Proved: so it does when every line adds a clause that is found by
    unit propagation or deletes a present clause, when the problem has no two contradictory unit clauses, and when
    no clause of two or more literals before the empty one has the negations of all its literals among the unit clauses of the problem and of
    the proof so far.  Missing: proofs with RAT clauses, for which see C50_accepts_rat_partial in DRATRatProps.v.  The last two conditions are needed: without them the
    statement is false, see below. *)
Theorem C50_accepts_valid_partial : forall n F ls Q,
  (forall c, In c F -> proper n c) -> (forall c, In (CAdd c) ls \/ In (CDel c) ls -> proper n c) ->
  (forall l, In [l] F -> ~ In [lneg l] F) ->
  derivation F ls Q -> In (CAdd []) ls ->
  (forall l1 c l2, ls = l1 ++ CAdd c :: l2 -> 2 <= length c -> ~ In (CAdd []) l1 -> exists l, In l c /\ ~ In [lneg l] (F ++ lemmas l1)) ->
  check_proof n F ls = Ok true.
Proof. exact checker_accepts. Qed.
Print Assumptions C50_accepts_valid_partial.

(** a proof with a deletion, from all eight clauses over three variables *)
Example C50_case : (forall c, In c a_all -> proper 3 c) /\ (forall c, In (CAdd c) a_lines \/ In (CDel c) a_lines -> proper 3 c) /\
  (forall l, In [l] a_all -> ~ In [lneg l] a_all) /\ (exists Q, derivation a_all a_lines Q) /\ In (CAdd []) a_lines /\
  (forall l1 c l2, a_lines = l1 ++ CAdd c :: l2 -> 2 <= length c -> ~ In (CAdd []) l1 -> exists l, In l c /\ ~ In [lneg l] (a_all ++ lemmas l1)).
Proof.
  split; [apply proper_all; vm_compute; reflexivity|]. split; [apply proper_lines; vm_compute; reflexivity|].
  split. { intros l H. cbn in H. repeat (destruct H as [H|H]; [discriminate H|]). destruct H. }
  split; [exact a_derivation|]. split; [cbn; tauto|exact a_open].
Qed.
Print Assumptions C50_case.

(** Full statement: the checker accepts every proof of unsatisfiability that the solver writes.  Proved: for the first
    solve without simplification of the clauses, of a problem without two contradictory unit clauses, for all choices of
    the heuristics.  Missing: inprocessing, and
    further solves after more clauses were added; with preprocessing the statement is false, see below. *)
Theorem C50_accepts_solver_partial : forall C F s O fuel x s',
  c_pre C = false -> c_inproc C = 0%N -> (forall l, In [l] F -> ~ In [lneg l] F) ->
  sreach C loading_op F s -> solve C O fuel s = Ok (x, s') -> r_status x = Some false -> r_conflict x = [] ->
  check_proof (nvars s) F (rev (cert (sv_d s'))) = Ok true.
Proof. exact solver_accepted. Qed.
Print Assumptions C50_accepts_solver_partial.

(** the pigeon hole problem: the proof has deleted clauses *)
Definition d_php : formula := c_php ++ [[17; 23]].
Example C50_solver_case : (forall l, In [l] d_php -> ~ In [lneg l] d_php) /\
  exists s x s', sreach c_plain loading_op d_php s /\ solve c_plain p_oracle 500 s = Ok (x, s') /\ r_status x = Some false /\ r_conflict x = [] /\
  existsb (fun l => match l with CDel _ => true | _ => false end) (cert (sv_d s')) = true /\ 8 < length (cert (sv_d s')).
Proof.
  split. { intros l H. cbn in H. repeat (destruct H as [H|H]; [discriminate H|]). destruct H. }
  destruct (play c_plain [] (solver_new c_plain) [SInit 12 d_php true]) as [(F & s)|] eqn:E; [|vm_compute in E; discriminate].
  assert (HF : F = d_php) by (vm_compute in E; injection E as <- _; reflexivity).
  assert (H : match solve c_plain p_oracle 500 s with
    | Ok (x, s') => r_status x = Some false /\ r_conflict x = [] /\ existsb (fun l => match l with CDel _ => true | _ => false end) (cert (sv_d s')) = true /\ 8 < length (cert (sv_d s'))
    | Err _ => False end).
  { vm_compute in E. injection E as _ <-. vm_compute. split; [reflexivity|]. split; [reflexivity|]. split; [reflexivity|]. lia. }
  destruct (solve c_plain p_oracle 500 s) as [(x & s')|] eqn:E'; [|destruct H]. exists s, x, s'.
  split; [rewrite <- HF; apply (play_new c_plain loading_op [SInit 12 d_php true]); [repeat constructor|exact E]|]. split; [exact E'|exact H].
Qed.
Print Assumptions C50_solver_case.

(** ** C50 is false for a problem with two contradictory unit clauses *)
(** The solver answers that the problem has no solution and writes a valid proof; its own checker rejects the proof. *)
Theorem C50_own_proof_refuted : exists F s x s', sreach c_plain loading_op F s /\ solve c_plain f_oracle 500 s = Ok (x, s') /\
  r_status x = Some false /\ unsat F /\ (exists Q, derivation F (rev (cert (sv_d s'))) Q) /\ In (CAdd []) (cert (sv_d s')) /\
  check_proof 1 F (rev (cert (sv_d s'))) = Ok false.
Proof.
  destruct (play c_plain [] (solver_new c_plain) [SInit 1 [[0]; [1]] true]) as [(F & s)|] eqn:E; [|vm_compute in E; discriminate].
  destruct (solve c_plain f_oracle 500 s) as [(x & s')|] eqn:E'; [|exfalso; vm_compute in E; injection E as _ <-; vm_compute in E'; discriminate E'].
  exists F, s, x, s'. split; [apply (play_new c_plain loading_op [SInit 1 [[0]; [1]] true]); [repeat constructor|exact E]|].
  split; [exact E'|]. vm_compute in E. injection E as <- <-. vm_compute in E'. injection E' as <- <-. cbn [r_status cert sv_d rev app].
  assert (R : forall P, In [0] P -> In [1] P -> rup P []).
  { intros P H0 H1. exists [1]. split; [exact H1|]. each. apply (up_unit _ _ [0]); [exact H0|cbn; tauto|]. each. intros Hn. contradiction Hn; reflexivity. }
  split; [reflexivity|]. split.
  { intros a Ha. assert (H0 := Ha [0] (or_introl eq_refl)). assert (H1 := Ha [1] (or_intror (or_introl eq_refl))).
    destruct H0 as (l & [<-|[]] & H0). destruct H1 as (l & [<-|[]] & H1). unfold lit_holds, lit_val in *. cbn in *. destruct (a 0); discriminate. }
  split; [eexists; constructor; [apply R; cbn; tauto|]; constructor; [apply R; cbn; tauto|constructor]|]. split; [cbn; tauto|vm_compute; reflexivity].
Qed.
Print Assumptions C50_own_proof_refuted.

(** ** C50 is false for a proof that the solver writes with preprocessing *)
(** no two unit clauses contradict each other; elimination of variables is off *)
Definition z_all : formula := [[3; 4; 1]; [1; 7]; [6; 2; 1]; [0; 6]; [4; 1]; [5; 7]; [1; 5]; [4; 6; 3; 1]; [7; 4; 0]].
Definition c_prep0 : cfg := mkCfg true 0 false false 20 true 0 false 2 1.
Theorem C50_preprocessing_refuted : exists C F s x s', c_elim C = false /\ (forall l, In [l] F -> ~ In [lneg l] F) /\
  sreach C loading_op F s /\ solve C f_oracle 500 s = Ok (x, s') /\ r_status x = Some false /\ r_conflict x = [] /\
  (exists Q, derivation F (rev (cert (sv_d s'))) Q) /\ In (CAdd []) (cert (sv_d s')) /\ check_proof (nvars s) F (rev (cert (sv_d s'))) = Ok false.
Proof.
  destruct (play c_prep0 [] (solver_new c_prep0) [SInit 4 z_all true]) as [(F & s)|] eqn:E; [|vm_compute in E; discriminate].
  assert (HF : F = z_all) by (vm_compute in E; injection E as <- _; reflexivity). subst F.
  assert (HR : sreach c_prep0 loading_op z_all s) by (apply (play_new c_prep0 loading_op [SInit 4 z_all true]); [repeat constructor|exact E]).
  assert (H : match solve c_prep0 f_oracle 500 s with
    | Ok (x, s') => r_status x = Some false /\ r_conflict x = [] /\ check_proof (nvars s) z_all (rev (cert (sv_d s'))) = Ok false
    | Err _ => False end).
  { vm_compute in E. injection E as <-. vm_compute. split; [reflexivity|]. split; reflexivity. }
  destruct (solve c_prep0 f_oracle 500 s) as [(x & s')|] eqn:E'; [|destruct H]. destruct H as (H1 & H2 & H3). exists c_prep0, z_all, s, x, s'.
  split; [reflexivity|]. split. { intros l H. cbn in H. repeat (destruct H as [H|H]; [discriminate H|]). destruct H. }
  split; [exact HR|]. split; [exact E'|]. split; [exact H1|]. split; [exact H2|].
  split; [exact (first_cert c_prep0 z_all s f_oracle 500 x s' eq_refl HR E')|]. split; [exact (solve_empty _ _ _ _ _ _ E' H1 H2)|exact H3].
Qed.
Print Assumptions C50_preprocessing_refuted.

(** ** C50 is false when a clause is added whose literals are all false by the unit clauses *)
(** with a deletion before the empty clause *)
Theorem C50_deletion_refuted : exists n F ls Q, (forall c, In c F -> proper n c) /\ (forall c, In (CAdd c) ls \/ In (CDel c) ls -> proper n c) /\
  (forall l, In [l] F -> ~ In [lneg l] F) /\ derivation F ls Q /\ In (CAdd []) ls /\ check_proof n F ls = Ok false.
Proof.
  destruct m_derivation_del as (Q & D). exists 3, m_all, [CAdd [1; 5]; CDel [1; 3]; CAdd []], Q.
  split; [apply proper_all; vm_compute; reflexivity|]. split; [apply proper_lines; vm_compute; reflexivity|].
  split. { intros l H K. cbn in H, K. repeat (destruct H as [H|H]; [try discriminate H; injection H as <-; repeat (destruct K as [K|K]; [discriminate K|]); destruct K|]). destruct H. }
  split; [exact D|]. split; [cbn; tauto|vm_compute; reflexivity].
Qed.
Print Assumptions C50_deletion_refuted.

(** without any deletion: one more clause makes an accepted proof a rejected one *)
Theorem C50_repeated_refuted : exists n F ls1 c ls2 Q, (forall c', In c' F \/ In (CAdd c') (ls1 ++ CAdd c :: ls2) -> proper n c') /\
  (forall l, In [l] F -> ~ In [lneg l] F) /\ (forall c', ~ In (CDel c') (ls1 ++ ls2)) /\ derivation F (ls1 ++ CAdd c :: ls2) Q /\
  check_proof n F (ls1 ++ ls2) = Ok true /\ check_proof n F (ls1 ++ CAdd c :: ls2) = Ok false.
Proof.
  destruct m_derivation_rep as (Q & D). exists 3, m_all, [CAdd [1; 5]], [5; 1], [CAdd []], Q.
  split. { intros c' [H|H]; [revert c' H; apply proper_all; vm_compute; reflexivity|].
    apply (proper_lines 3 [CAdd [1; 5]; CAdd [5; 1]; CAdd []]); [vm_compute; reflexivity|left; exact H]. }
  split. { intros l H K. cbn in H, K. repeat (destruct H as [H|H]; [try discriminate H; injection H as <-; repeat (destruct K as [K|K]; [discriminate K|]); destruct K|]). destruct H. }
  split. { intros c' H. cbn in H. repeat (destruct H as [H|H]; [discriminate H|]). destruct H. }
  split; [exact D|]. split; vm_compute; reflexivity.
Qed.
Print Assumptions C50_repeated_refuted.
