(** C31: the clausal proof (Certificate.h) that ClauseDatabase.h writes while the solver runs.
    [cert] are the lines of the proof, newest first; [derivation] is in CertSpec. *)
Require Import List Arith Bool NArith ZArith Lia.
Require Import Verif.Base Verif.Outcome Verif.DbModel Verif.SolverModel Verif.SolverSpec Verif.CertSpec Verif.CertProofs Verif.CertSolver Verif.CertSimp Verif.CertHistory Verif.CertCases.
Import ListNotations.

(** Every history without preprocessing; inprocessing may subsume, strengthen and reduce clauses, but not
    eliminate variables.  Missing from C31: preprocessing in a second solve and variable elimination.  With either,
    the claim is false (below). *)
Theorem C31_proof_valid_partial : forall C F s, c_pre C = false -> c_inproc C = 0%N \/ c_elim C = false ->
  sreach C problem_op F s -> exists Q, derivation F (rev (cert (sv_d s))) Q.
Proof. exact history_cert. Qed.
Print Assumptions C31_proof_valid_partial.

(** The first solve, with pre- and inprocessing, but without variable elimination. *)
Theorem C31_first_valid_partial : forall C F s O fuel x s', c_elim C = false -> sreach C loading_op F s ->
  solve C O fuel s = Ok (x, s') -> exists Q, derivation F (rev (cert (sv_d s'))) Q.
Proof. exact first_cert. Qed.
Print Assumptions C31_first_valid_partial.

(** all configurations *)
Theorem C31_ends_with_empty : forall C O fuel s x s', solve C O fuel s = Ok (x, s') ->
  r_status x = Some false -> r_conflict x = [] -> In (CAdd []) (cert (sv_d s')).
Proof. exact solve_empty. Qed.
Print Assumptions C31_ends_with_empty.

Theorem C31_proof_refutes : forall F ls Q, derivation F ls Q -> In (CAdd []) ls -> unsat F.
Proof. exact derivation_unsat. Qed.
Print Assumptions C31_proof_refutes.

Theorem C31_strengthen_order : forall c l d c' d', c < length (arena d) -> strengthenClause c l d = Ok (c', d') ->
  exists ls, (forall m, In m ls <-> In m (clits d c) /\ m <> l) /\ cert d' = CDel (clits d c) :: CAdd ls :: cert d.
Proof. exact strengthen_cert. Qed.
Print Assumptions C31_strengthen_order.

(** ** Concrete cases *)
Definition c_oracle (k0 r : nat) : oracle :=
  mkOracle (fun _ => false) (Nat.eqb r) (fun k => k mod 7) (fun _ _ => Nat.ltb) (fun _ => []) (fun _ => []).
Definition p_oracle : oracle :=
  mkOracle (fun _ => false) (fun k => k mod 8 =? 0) (fun k => (k * 6 + 1) mod 24) (fun _ _ => Nat.ltb) (fun _ => []) (fun _ => []).
Definition c_plain : cfg := mkCfg false 0 false false 20 true 0 false 2 1.
(** learning, reduction of learnt clauses, incremental use; the proof ends with the empty clause *)
Definition c_php : formula := [[0; 2; 4]; [6; 8; 10]; [12; 14; 16]; [18; 20; 22];
  [1; 7]; [1; 13]; [1; 19]; [7; 13]; [7; 19]; [13; 19]; [3; 9]; [3; 15]; [3; 21]; [9; 15]; [9; 21]; [15; 21];
  [5; 11]; [5; 17]; [5; 23]; [11; 17]; [11; 23]].
Definition c_ops : list sop := [SInit 12 c_php true; SAssume [16; 9]; SSolve p_oracle 500; SInit 12 [[17; 23]] true; SAssume []; SSolve p_oracle 500].
Definition c_end : formula * solver := match play c_plain [] (solver_new c_plain) c_ops with Some x => x | None => ([], solver_new c_plain) end.
Example C31_case : sreach c_plain problem_op (c_php ++ [[17; 23]]) (snd c_end) /\
  In (CAdd []) (cert (sv_d (snd c_end))) /\ (exists c, In (CDel c) (cert (sv_d (snd c_end)))) /\ 8 < length (cert (sv_d (snd c_end))).
Proof.
  split; [apply (play_new c_plain problem_op c_ops); [repeat constructor|vm_compute; reflexivity]|].
  split; [vm_compute; tauto|]. split; [|vm_compute; lia].
  assert (H : existsb (fun l => match l with CDel _ => true | _ => false end) (cert (sv_d (snd c_end))) = true) by (vm_compute; reflexivity).
  apply existsb_exists in H. destruct H as ([c|c] & H1 & H2); [discriminate|]. exists c. exact H1.
Qed.
Print Assumptions C31_case.

(** inprocessing: subsumption, strengthening and asymmetric reduction, then the empty clause *)
Definition c_inpr : cfg := mkCfg false 1 false true 20 true 0 false 2 1.
Definition i_oracle : oracle :=
  mkOracle (fun _ => false) (fun k => k mod 8 =? 0) (fun k => (k * 6 + 1) mod 24) (fun _ _ => Nat.ltb) (fun _ => []) (fun _ => []).
Definition i_first : formula := [[24; 0]; [24; 2; 0; 6]; [25; 2; 4]; [25; 6; 2; 5]] ++ c_php.
Definition i_ops : list sop := [SInit 13 i_first true; SAssume [16; 9]; SSolve i_oracle 500; SInit 12 [[17; 23]] true; SAssume []; SSolve i_oracle 500].
Definition i_end : formula * solver := match play c_inpr [] (solver_new c_inpr) i_ops with Some x => x | None => ([], solver_new c_inpr) end.
Example C31_inprocessing_case : sreach c_inpr problem_op (i_first ++ [[17; 23]]) (snd i_end) /\
  In (CAdd []) (cert (sv_d (snd i_end))) /\ In (CDel [0; 2; 24; 6]) (cert (sv_d (snd i_end))) /\
  In (CAdd [25; 6; 2]) (cert (sv_d (snd i_end))) /\ In (CAdd [7]) (cert (sv_d (snd i_end))).
Proof.
  split; [apply (play_new c_inpr problem_op i_ops); [repeat constructor|vm_compute; reflexivity]|].
  split; [vm_compute; tauto|]. split; [vm_compute; tauto|]. split; vm_compute; tauto.
Qed.
(** preprocessing in a first solve *)
Definition c_prep : cfg := mkCfg true 1 false true 20 true 0 false 2 1.
Definition f_oracle : oracle :=
  mkOracle (fun _ => false) (fun k => k mod 8 =? 0) (fun k => (k * 6 + 1) mod 24) (fun _ _ => Nat.ltb) (fun _ => []) (fun _ => []).
Definition f_all : formula := i_first ++ [[17; 23]].
Definition f_start : solver := match solver_init 13 f_all true (solver_new c_prep) with Ok s => s | Err _ => solver_new c_prep end.
Example C31_first_case : sreach c_prep loading_op f_all f_start /\
  exists x s', solve c_prep f_oracle 500 f_start = Ok (x, s') /\ r_status x = Some false /\ In (CDel [24; 2; 0; 6]) (cert (sv_d s')) /\
    In (CAdd []) (cert (sv_d s')) /\ 10 < length (cert (sv_d s')).
Proof.
  split; [apply (play_new c_prep loading_op [SInit 13 f_all true]); [repeat constructor|vm_compute; reflexivity]|].
  destruct (solve c_prep f_oracle 500 f_start) as [(x & s')|] eqn:E; [|vm_compute in E; discriminate]. exists x, s'.
  assert (H : match solve c_prep f_oracle 500 f_start with Ok (x, s') => (r_status x, cert (sv_d s')) | Err _ => (None, []) end = (r_status x, cert (sv_d s'))) by (rewrite E; reflexivity).
  match type of H with ?l = _ => let l' := eval vm_compute in l in assert (EV : l = l') by (vm_compute; reflexivity); rewrite EV in H end.
  injection H as H1 H2. split; [reflexivity|]. rewrite <- H2. split; [auto|]. split; [cbn; tauto|]. split; [cbn; tauto|cbn; lia].
Qed.

Definition c_db : db := match db_init 4 [[0; 2; 5]; [1; 3]] true db_new with Ok d => d | Err _ => db_new end.
Example C31_strengthen_case : 0 < length (arena c_db) /\
  exists c' d', strengthenClause 0 2 c_db = Ok (c', d') /\ cert d' = [CDel [0; 2; 5]; CAdd [0; 5]].
Proof. split; [vm_compute; lia|]. eexists. eexists. split; [vm_compute; reflexivity|reflexivity]. Qed.

(** ** C31 is false with preprocessing in a second solve *)
(** Without variable elimination.  The first solve is interrupted after its preprocessing has removed a clause;
    the second solve wraps the removed clause again: it deletes the copy that is left from the proof, and then
    strengthens a new clause with it.  No DRAT checker accepts the strengthened clause. *)
Definition c_nove : cfg := mkCfg true 0 false false 20 false 3 false 3000 1300.
Definition t_oracle : oracle :=
  mkOracle (Nat.eqb 2) (fun _ => false) (fun k => k mod 7) (fun _ _ => Nat.ltb) (fun _ => []) (fun _ => []).
Definition r_ops : list sop := [SInit 6 [[0; 2; 4]; [0; 2; 4]; [3; 8; 10]] true; SSolve t_oracle 500;
  SInit 6 [[1; 2; 4; 6]] true; SSolve (c_oracle 3 100) 500].
Definition r_all : formula := [[0; 2; 4]; [0; 2; 4]; [3; 8; 10]; [1; 2; 4; 6]].
Theorem C31_later_preprocessing_refuted : exists F s, sreach c_nove problem_op F s /\ forall Q, ~ drat_derivation F (rev (cert (sv_d s))) Q.
Proof.
  destruct (play c_nove [] (solver_new c_nove) r_ops) as [(F & s)|] eqn:E; [|vm_compute in E; discriminate]. exists F, s.
  split; [apply (play_new c_nove problem_op r_ops); [repeat constructor|exact E]|]. intros Q H.
  assert (EF : F = r_all) by (apply (f_equal (option_map fst)) in E; vm_compute in E; injection E as <-; reflexivity).
  assert (EC : rev (cert (sv_d s)) = match play c_nove [] (solver_new c_nove) r_ops with Some (_, s) => rev (cert (sv_d s)) | None => [] end) by (rewrite E; reflexivity).
  match type of EC with _ = ?r => let r' := eval vm_compute in r in assert (EV : r = r') by (vm_compute; reflexivity); rewrite EV in EC end. rewrite EC in H. subst F. clear E EC EV.
  match type of H with drat_derivation _ ?l _ => pose (ls := l) end.
  destruct (drat_split _ _ _ H (firstn 2 ls) [2; 4; 6] (skipn 3 ls) r_all eq_refl) as (P' & H1 & H2); [intros e; reflexivity|].
  destruct H2 as [H2|H2].
  - apply (stable_rup (run r_all (firstn 2 ls)) P' [2; 4; 6] [3; 5; 7; 1] H1); [vm_compute; reflexivity|exact H2].
  - apply (stable_rat (run r_all (firstn 2 ls)) P' 2 [4; 6] [3; 8; 10] [3; 5; 7; 9; 11; 1] H1); [vm_compute; tauto|cbn; auto|vm_compute; reflexivity|exact H2].
Qed.
Print Assumptions C31_later_preprocessing_refuted.

(** ** C31 is false with variable elimination *)
(** Default options, one solve that is interrupted: a clause that was removed by an elimination stays in
    the watch lists and propagates an eliminated variable in the next round; the unit clause is written
    to the proof. *)
Definition w_first : formula := [[4]; [9; 4]; [2; 11]; [10; 12; 8]; [5; 13; 10]; [1; 11]; [9; 12]; [15; 13; 7]; [0; 8]].
Definition w_stop : oracle :=
  mkOracle (fun k => 1 <? k) (fun _ => false) (fun _ => 0) (fun _ _ => Nat.ltb) (fun _ => []) (fun _ => []).
Definition w_ops1 : list sop := [SInit 8 w_first true; SSolve w_stop 500].
Theorem C31_first_elimination_refuted : exists F s, sreach default_cfg problem_op F s /\ forall Q, ~ derivation F (rev (cert (sv_d s))) Q.
Proof.
  destruct (play default_cfg [] (solver_new default_cfg) w_ops1) as [(F & s)|] eqn:E; [|vm_compute in E; discriminate]. exists F, s.
  split; [apply (play_new default_cfg problem_op w_ops1); [repeat constructor|exact E]|]. intros Q H.
  assert (EF : F = w_first) by (apply (f_equal (option_map fst)) in E; vm_compute in E; injection E as <-; reflexivity).
  assert (EC : rev (cert (sv_d s)) = match play default_cfg [] (solver_new default_cfg) w_ops1 with Some (_, s) => rev (cert (sv_d s)) | None => [] end) by (rewrite E; reflexivity).
  match type of EC with _ = ?r => let r' := eval vm_compute in r in assert (EV : r = r') by (vm_compute; reflexivity); rewrite EV in EC end. rewrite EC in H. subst F. clear E EC EV.
  match type of H with derivation _ ?l _ => pose (ls := l) end.
  destruct (rup_split _ _ _ H (removelast ls) [10] [] w_first eq_refl) as (P' & H1 & H2); [intros e; reflexivity|].
  apply (stable_rup (run w_first (removelast ls)) P' [10] [4; 12; 11] H1); [vm_compute; reflexivity|exact H2].
Qed.
Print Assumptions C31_first_elimination_refuted.

(** Default options, two solves: the second assumes an eliminated variable, whose clauses are written to the
    proof again.  No DRAT checker accepts them. *)
Definition w_second : formula := [[2; 0; 4]; [6; 1; 8]; [3; 10; 12]].
Definition w_ops2 : list sop := [SInit 7 w_second true; SAssume [2; 4; 6; 8; 10; 12]; SSolve (c_oracle 0 100) 500;
  SAssume [0; 2; 4; 6; 8; 10; 12]; SSolve (c_oracle 11 100) 500].
Theorem C31_correction_refuted : exists F s, sreach default_cfg problem_op F s /\ forall Q, ~ drat_derivation F (rev (cert (sv_d s))) Q.
Proof.
  destruct (play default_cfg [] (solver_new default_cfg) w_ops2) as [(F & s)|] eqn:E; [|vm_compute in E; discriminate]. exists F, s.
  split; [apply (play_new default_cfg problem_op w_ops2); [repeat constructor|exact E]|]. intros Q H.
  assert (EF : F = w_second) by (apply (f_equal (option_map fst)) in E; vm_compute in E; injection E as <-; reflexivity).
  assert (EC : rev (cert (sv_d s)) = match play default_cfg [] (solver_new default_cfg) w_ops2 with Some (_, s) => rev (cert (sv_d s)) | None => [] end) by (rewrite E; reflexivity).
  match type of EC with _ = ?r => let r' := eval vm_compute in r in assert (EV : r = r') by (vm_compute; reflexivity); rewrite EV in EC end. rewrite EC in H. subst F. clear E EC EV.
  match type of H with drat_derivation _ ?l _ => pose (ls := l) end.
  destruct (drat_split _ _ _ H (removelast ls) [2; 0; 4] [] w_second eq_refl) as (P' & H1 & H2); [intros e; reflexivity|].
  destruct H2 as [H2|H2].
  - apply (stable_rup (run w_second (removelast ls)) P' [2; 0; 4] [3; 1; 5] H1); [vm_compute; reflexivity|exact H2].
  - apply (stable_rat (run w_second (removelast ls)) P' 2 [0; 4] [3; 10; 12] [3; 1; 5; 11; 13] H1); [vm_compute; tauto|cbn; auto|vm_compute; reflexivity|exact H2].
Qed.
Print Assumptions C31_correction_refuted.

(** Default options, three solves: the clauses removed by the elimination in the third solve stay in the watch
    lists during its search, because no reduction of the clause database is due, and a learnt clause is
    derived from them.  No DRAT checker accepts it. *)
Definition shift (n : nat) (ls : list lit) : list lit := map (Nat.add n) ls.
Definition w_part : formula := [[6; 8; 2; 4]; [6; 10; 2; 4]; [9; 11; 12]].
Definition w_as : list lit := [3; 5; 13; 7; 8; 10].
Definition w_third : formula := [[0; 2; 4]; [1; 6; 8]; [1; 6; 10]; [9; 11; 12]; [7; 38; 40]].
Definition w_ops3 : list sop := [SInit 21 (map (shift 12) w_part ++ map (shift 24) w_part) true;
  SAssume (shift 12 w_as ++ shift 24 w_as); SSolve (c_oracle 0 100) 500;
  SAssume (shift 24 w_as ++ shift 12 w_as); SSolve (c_oracle 9 17) 500;
  SInit 21 w_third true; SAssume (w_as ++ shift 12 w_as ++ shift 24 w_as ++ [38; 40]); SSolve (c_oracle 25 100) 500].
Definition w_all : formula := Eval vm_compute in (map (shift 12) w_part ++ map (shift 24) w_part) ++ w_third.
Theorem C31_learnt_refuted : exists F s, sreach default_cfg problem_op F s /\ forall Q, ~ drat_derivation F (rev (cert (sv_d s))) Q.
Proof.
  destruct (play default_cfg [] (solver_new default_cfg) w_ops3) as [(F & s)|] eqn:E; [|vm_compute in E; discriminate]. exists F, s.
  split; [apply (play_new default_cfg problem_op w_ops3); [repeat constructor|exact E]|]. intros Q H.
  assert (EF : F = w_all) by (apply (f_equal (option_map fst)) in E; vm_compute in E; injection E as <-; reflexivity).
  assert (EC : rev (cert (sv_d s)) = match play default_cfg [] (solver_new default_cfg) w_ops3 with Some (_, s) => rev (cert (sv_d s)) | None => [] end) by (rewrite E; reflexivity).
  match type of EC with _ = ?r => let r' := eval vm_compute in r in assert (EV : r = r') by (vm_compute; reflexivity); rewrite EV in EC end. rewrite EC in H. subst F. clear E EC EV.
  match type of H with drat_derivation _ ?l _ => pose (ls := l) end.
  destruct (drat_split _ _ _ H (removelast ls) [6; 12; 1] [] w_all eq_refl) as (P' & H1 & H2); [intros e; reflexivity|].
  destruct H2 as [H2|H2].
  - apply (stable_rup (run w_all (removelast ls)) P' [6; 12; 1] [7; 13; 0] H1); [vm_compute; reflexivity|exact H2].
  - apply (stable_rat (run w_all (removelast ls)) P' 6 [12; 1] [7; 38; 40] [7; 13; 0; 39; 41] H1); [vm_compute; tauto|cbn; auto|vm_compute; reflexivity|exact H2].
Qed.
Print Assumptions C31_learnt_refuted.
