(** C19, C20, C21, C23: answers of the solver over any history of init, setAssumptions,
    setLearntCallback and solve (Solver.h), for any behaviour of the heuristics. *)
Require Import List Arith Bool NArith ZArith Lia.
Require Import Verif.Base Verif.Outcome Verif.TrailModel Verif.DbModel Verif.PropSpec Verif.SimpModel Verif.SimpProps Verif.SolverModel Verif.SolverSpec Verif.SolverLemmas Verif.SolverElim Verif.SolverCrash.
Import ListNotations.

(** all configurations: pre- and inprocessing, variable elimination, reduction, restarts *)
Theorem C21_unsat_correct : forall C F s O fuel x s', sreach C any_op F s -> solve C O fuel s = Ok (x, s') ->
  r_status x = Some false -> unsat (F ++ units (assumptions s)).
Proof. intros C F s O fuel x s'. exact (unsat_core C any_op F s O fuel x s'). Qed.
Print Assumptions C21_unsat_correct.

Theorem C19_failed_core : forall C F s O fuel x s', sreach C any_op F s -> solve C O fuel s = Ok (x, s') ->
  r_status x = Some false ->
  (forall l, In l (r_conflict x) -> In (lneg l) (assumptions s)) /\ unsat (F ++ units (map lneg (r_conflict x))).
Proof. intros C F s O fuel x s'. exact (failed_core C any_op F s O fuel x s'). Qed.
Print Assumptions C19_failed_core.

(** [sv_log] are the arguments of the calls of the callback, newest first *)
Theorem C23_learn_callback : forall C F s O fuel x s', sreach C any_op F s -> solve C O fuel s = Ok (x, s') ->
  exists new, sv_log s' = new ++ sv_log s /\ forall e, In e new -> exists m ls, sv_cb s = Some m /\ e = map external ls ++ [0%Z] /\
    (Z.of_nat (length ls) <= m)%Z /\ clause_ok (nvars s) ls /\ entails F ls.
Proof. intros C F s O fuel x s'. exact (callback_log C any_op F s O fuel x s'). Qed.
Print Assumptions C23_learn_callback.

(** Any history without pre- and inprocessing; the first solve with preprocessing too, including variable elimination.
    Missing from C20: preprocessing after the first solve, for which it is false with and without variable elimination,
    and inprocessing, for which it is false in the first solve (below). *)
Theorem C20_model_history_partial : forall C F s O fuel x s', c_inproc C = 0%N -> c_pre C = false ->
  sreach C problem_op F s -> solve C O fuel s = Ok (x, s') -> r_status x = Some true ->
  model_sat (r_model x) F /\ (forall l, In l (assumptions s) -> model_lit (r_model x) l) /\ model_total (nvars s) (r_model x).
Proof. exact history_model. Qed.
Print Assumptions C20_model_history_partial.

Theorem C20_model_first_partial : forall C F s O fuel x s', c_inproc C = 0%N ->
  sreach C loading_op F s -> solve C O fuel s = Ok (x, s') -> r_status x = Some true ->
  model_sat (r_model x) F /\ (forall l, In l (assumptions s) -> model_lit (r_model x) l) /\ model_total (nvars s) (r_model x).
Proof. exact first_model. Qed.
Print Assumptions C20_model_first_partial.

(** no access out of bounds and no trail overflow; false with variable elimination (below) *)
Theorem C20_defined_history_partial : forall C F s O fuel, c_inproc C = 0%N -> c_pre C = false ->
  sreach C problem_op F s -> solve C O fuel s <> Err UB.
Proof. exact history_safe. Qed.
Print Assumptions C20_defined_history_partial.

Theorem C20_defined_first_partial : forall C F s O fuel, c_elim C = false -> c_inproc C = 0%N ->
  sreach C loading_op F s -> solve C O fuel s <> Err UB.
Proof. intros C F s O fuel H1 H2. exact (safe_first C F s O fuel (conj H1 H2)). Qed.
Print Assumptions C20_defined_first_partial.

(** with variable elimination the first solve is defined if the problem is unsatisfiable under the assumptions *)
Theorem C20_defined_unsat_partial : forall C F s O fuel, c_inproc C = 0%N -> sreach C loading_op F s ->
  unsat (F ++ units (assumptions s)) -> solve C O fuel s <> Err UB.
Proof. intros C F s O fuel HC HR HU E. destruct (first_crash C F s O fuel HC HR E) as (a & Ha). exact (HU a Ha). Qed.
Print Assumptions C20_defined_unsat_partial.

(** ** Concrete cases *)
Definition run_oracle : oracle :=
  mkOracle (fun _ => false) (fun k => k =? 12) (fun k => k mod 7) (fun _ _ => Nat.ltb) (fun _ => []) (fun _ => []).
Definition sv_dflt (C : cfg) : sresult * solver := (mkRes None [] [], solver_new C).
Definition loaded (C : cfg) (n : nat) (cs : formula) : solver := get (solver_new C) (solver_init n cs true (solver_new C)).
Definition answer (C : cfg) (s : solver) : sresult * solver := get (sv_dflt C) (solve C run_oracle 500 s).
Lemma loaded_reach C (ok : sop -> Prop) n cs : Forall (clause_ok (max n 0)) cs -> ok (SInit n cs true) ->
  (match solver_init n cs true (solver_new C) with Ok _ => true | Err _ => false end) = true -> sreach C ok cs (loaded C n cs).
Proof.
  intros H1 H2 H3. unfold loaded. destruct (solver_init n cs true (solver_new C)) as [s|] eqn:E; [|discriminate].
  apply (sr_init C ok [] (solver_new C) n cs true); auto. apply sr_new.
Qed.

(** three pigeons, two holes (variable 2p+h), all default options *)
Definition php : formula := [[0; 2]; [4; 6]; [8; 10]; [1; 5]; [1; 9]; [5; 9]; [3; 7]; [3; 11]; [7; 11]].
Definition plain_cfg : cfg := mkCfg false 0 false false 20 true 3 false 3000 1300.
Example C21_case : sreach default_cfg any_op php (loaded default_cfg 6 php) /\
  exists x s', solve default_cfg run_oracle 500 (loaded default_cfg 6 php) = Ok (x, s') /\ r_status x = Some false.
Proof.
  split; [apply loaded_reach; [clauses_ok|exact I|vm_compute; reflexivity]|].
  eexists. eexists. split; [vm_compute; reflexivity|reflexivity].
Qed.
Print Assumptions C21_case.
Example C20_defined_unsat_case : sreach default_cfg loading_op php (loaded default_cfg 6 php) /\ unsat (php ++ units (assumptions (loaded default_cfg 6 php))) /\
  exists s1, solve_start default_cfg run_oracle 50 (loaded default_cfg 6 php) = Ok s1 /\ ev (sv_e s1) <> [].
Proof.
  split; [apply loaded_reach; [clauses_ok|reflexivity|vm_compute; reflexivity]|]. split.
  - destruct C21_case as (R & x & s' & E & Hx). apply (C21_unsat_correct default_cfg php _ run_oracle _ x s' R E). exact Hx.
  - eexists. split; [vm_compute; reflexivity|vm_compute; discriminate].
Qed.
Example C21_search_case : sreach plain_cfg any_op php (loaded plain_cfg 6 php) /\
  exists x s', solve plain_cfg run_oracle 500 (loaded plain_cfg 6 php) = Ok (x, s') /\ r_status x = Some false /\ (0 < sv_conf s')%N.
Proof.
  split; [apply loaded_reach; [clauses_ok|exact I|vm_compute; reflexivity]|].
  eexists. eexists. split; [vm_compute; reflexivity|]. split; reflexivity.
Qed.

(** pigeons with a selector variable for each pigeon and an irrelevant assumption *)
Definition php_sel : formula := [[0; 2; 13]; [4; 6; 15]; [8; 10; 17]; [1; 5]; [1; 9]; [5; 9]; [3; 7]; [3; 11]; [7; 11]; [18; 20]].
Definition sel_solver (C : cfg) : solver := setLearntCallback (Some 3%Z) (solver_assume [18; 12; 14; 16] (loaded C 11 php_sel)).
Lemma sel_reach C (ok : sop -> Prop) : ok (SInit 11 php_sel true) -> ok (SAssume [18; 12; 14; 16]) -> ok (SCallback (Some 3%Z)) -> sreach C ok php_sel (sel_solver C).
Proof.
  intros H1 H2 H3. apply sr_callback; auto. apply sr_assume; auto.
  - apply loaded_reach; [clauses_ok|auto|vm_compute; reflexivity].
  - intros l Hl. assert (E : nvars (loaded C 11 php_sel) = 11) by (vm_compute; reflexivity). rewrite E. clear E. cbn in Hl. intuition (subst; vm_compute; lia).
Qed.
Example C19_case : sreach default_cfg any_op php_sel (sel_solver default_cfg) /\
  exists x s', solve default_cfg run_oracle 500 (sel_solver default_cfg) = Ok (x, s') /\ r_status x = Some false /\
    r_conflict x <> [] /\ ~ In 19 (r_conflict x) /\ satisfiable php_sel.
Proof.
  split; [apply sel_reach; exact I|]. eexists. eexists. split; [vm_compute; reflexivity|]. split; [reflexivity|].
  split; [discriminate|]. split; [vm_compute; intuition discriminate|].
  exists (fun v => Nat.eqb v 9). apply satb_spec. vm_compute. reflexivity.
Qed.
Example C23_case : sreach plain_cfg any_op php_sel (sel_solver plain_cfg) /\
  exists x s', solve plain_cfg run_oracle 500 (sel_solver plain_cfg) = Ok (x, s') /\ exists e, In e (sv_log s').
Proof.
  split; [apply sel_reach; exact I|]. eexists. eexists. split; [vm_compute; reflexivity|]. eexists. cbn [sv_log In]. left. reflexivity.
Qed.

(** two solves; the second with a new variable, new clauses and other assumptions *)
Definition inc1 : solver := loaded plain_cfg 6 [[0; 2; 4]; [1; 3]; [1; 5]; [3; 5]; [6; 8; 1]; [7; 10]; [9; 11]].
Definition inc2 : solver := snd (answer plain_cfg (solver_assume [0] inc1)).
Definition inc3 : solver := solver_assume [12; 2] (get inc2 (solver_init 7 [[13; 11]; [10; 4; 2]; [7; 9; 3]] true inc2)).
Definition inc_all : formula := [[0; 2; 4]; [1; 3]; [1; 5]; [3; 5]; [6; 8; 1]; [7; 10]; [9; 11]; [13; 11]; [10; 4; 2]; [7; 9; 3]].
Lemma inc3_reach : sreach plain_cfg problem_op inc_all inc3.
Proof.
  assert (H1 : sreach plain_cfg problem_op [[0; 2; 4]; [1; 3]; [1; 5]; [3; 5]; [6; 8; 1]; [7; 10]; [9; 11]] (solver_assume [0] inc1)).
  { apply sr_assume; [apply loaded_reach; [clauses_ok|reflexivity|vm_compute; reflexivity]|exact I|]. intros l [<-|[]]. vm_compute. lia. }
  assert (H2 : sreach plain_cfg problem_op [[0; 2; 4]; [1; 3]; [1; 5]; [3; 5]; [6; 8; 1]; [7; 10]; [9; 11]] inc2).
  { eapply (sr_solve plain_cfg problem_op _ (solver_assume [0] inc1) run_oracle 500); [exact H1|exact I|]. vm_compute. reflexivity. }
  apply sr_assume; [|exact I|].
  - change inc_all with ([[0; 2; 4]; [1; 3]; [1; 5]; [3; 5]; [6; 8; 1]; [7; 10]; [9; 11]] ++ [[13; 11]; [10; 4; 2]; [7; 9; 3]]).
    apply (sr_init plain_cfg problem_op _ inc2 7 _ true); [exact H2|reflexivity|replace (max 7 (nvars inc2)) with 7 by (vm_compute; reflexivity); clauses_ok|vm_compute; reflexivity].
  - intros l [<-|[<-|[]]]; vm_compute; lia.
Qed.
Example C20_history_case : sreach plain_cfg problem_op inc_all inc3 /\
  exists x s', solve plain_cfg run_oracle 500 inc3 = Ok (x, s') /\ r_status x = Some true /\ assumptions inc3 = [12; 2].
Proof. split; [exact inc3_reach|]. eexists. eexists. split; [vm_compute; reflexivity|]. split; reflexivity. Qed.

(** with preprocessing and asymmetric variable reduction *)
Definition pre_cfg : cfg := mkCfg true 0 false true 20 true 3 false 3000 1300.
Definition pre_problem : formula := [[0; 2; 4]; [7]; [6; 2; 4; 1]; [9; 2]; [8; 4]; [10; 12; 0]; [11; 13]].
Example C20_first_case : sreach pre_cfg loading_op pre_problem (loaded pre_cfg 7 pre_problem) /\
  exists x s', solve pre_cfg run_oracle 500 (loaded pre_cfg 7 pre_problem) = Ok (x, s') /\ r_status x = Some true.
Proof.
  split; [apply loaded_reach; [clauses_ok|reflexivity|vm_compute; reflexivity]|].
  eexists. eexists. split; [vm_compute; reflexivity|reflexivity].
Qed.

(** all default options: variable elimination removes variables and computes their values after the search *)
Definition elim_problem : formula := [[0; 2; 4]; [1; 6; 8]; [3; 9; 10]; [5; 7; 12]; [13; 14; 1]; [15; 4; 2]; [11; 16; 6]; [17; 12; 0]].
Definition elim_solver : solver := solver_assume [1; 8] (loaded default_cfg 9 elim_problem).
Example C20_elimination_case : sreach default_cfg loading_op elim_problem elim_solver /\
  exists x s', solve default_cfg run_oracle 500 elim_solver = Ok (x, s') /\ r_status x = Some true /\ ev (sv_e s') <> [].
Proof.
  split; [apply sr_assume; [apply loaded_reach; [clauses_ok|reflexivity|vm_compute; reflexivity]|exact I|intros l [<-|[<-|[]]]; vm_compute; lia]|].
  eexists. eexists. split; [vm_compute; reflexivity|]. split; [reflexivity|discriminate].
Qed.

(** ** C20 is false with variable elimination *)
(** Default options, two solves: the second problem mentions a variable that was eliminated.  Its
    clauses are added again, but they contain a variable that was eliminated after it, whose value
    is computed without them. *)
Definition w_first : formula := [[2; 10]; [3; 0]; [13]; [5; 11]].
Definition w_second : formula := [[2; 8]].
Definition w_oracle (k : nat) : oracle :=
  mkOracle (fun _ => false) (fun _ => false) (fun _ => 0) (fun _ _ => Nat.ltb) (fun _ => []) (fun _ => []).
Definition w_s1 : solver := loaded default_cfg 8 w_first.
Definition w_s2 : solver := snd (get (sv_dflt default_cfg) (solve default_cfg (w_oracle 0) 500 w_s1)).
Definition w_s3 : solver := get w_s2 (solver_init 8 w_second true w_s2).
Theorem C20_incremental_elimination_refuted : exists F s O fuel x s', sreach default_cfg problem_op F s /\
  solve default_cfg O fuel s = Ok (x, s') /\ r_status x = Some true /\ ~ model_sat (r_model x) F.
Proof.
  exists (w_first ++ w_second), w_s3, (w_oracle (sv_clk w_s3)), 500. eexists. eexists. split.
  - apply (sr_init default_cfg problem_op w_first w_s2 8 _ true); [|reflexivity|replace (max 8 (nvars w_s2)) with 8 by (vm_compute; reflexivity); clauses_ok|vm_compute; reflexivity].
    eapply (sr_solve default_cfg problem_op _ w_s1 (w_oracle 0) 500); [|exact I|vm_compute; reflexivity].
    apply loaded_reach; [clauses_ok|reflexivity|vm_compute; reflexivity].
  - split; [vm_compute; reflexivity|]. split; [reflexivity|]. intros H. specialize (H [2; 10]). cbn in H.
    destruct H as (l & Hl & E); [auto|]. destruct Hl as [<-|[<-|[]]]; vm_compute in E; discriminate.
Qed.
Print Assumptions C20_incremental_elimination_refuted.

(** Default options, one solve: clauses removed by an elimination stay in the watch lists, so that
    the next round of preprocessing can propagate an eliminated variable.  After the search it is
    assigned a second time, which writes behind the end of the trail. *)
Definition w_one : formula := [[4]; [9; 4]; [2; 11]; [10; 12; 8]; [5; 13; 10]; [1; 11]; [9; 12]; [15; 13; 7]; [0; 8]].
Theorem C20_first_elimination_refuted : exists F s O fuel, sreach default_cfg loading_op F s /\ satisfiable F /\
  solve default_cfg O fuel s = Err UB.
Proof.
  exists w_one, (loaded default_cfg 8 w_one), (w_oracle 0), 500.
  split; [apply loaded_reach; [clauses_ok|reflexivity|vm_compute; reflexivity]|]. split; [|vm_compute; reflexivity].
  exists (fun v => match v with 1 | 2 | 4 | 5 | 6 => true | _ => false end). apply satb_spec. vm_compute. reflexivity.
Qed.
Print Assumptions C20_first_elimination_refuted.

(** Preprocessing without variable elimination, three solves.  Clauses removed by preprocessing stay
    in the clause list until the list is reorganised; the next preprocessing reads them again.  A
    removed unit clause then removes the clauses with its literal, among them the only copy of the
    fact that is still in use. *)
Definition d_cfg : cfg := mkCfg true 0 false false 20 true 3 false 3000 1300.
Definition d_first : formula := [[1; 3; 5; 14]; [7; 11; 15; 16]; [9; 11; 15; 17]; [7; 13; 15; 18]; [9; 13; 15; 19]].
Definition d_second : formula := [[22; 26]; [24; 28]; [20; 22]; [20; 24]; [25; 32]; [25; 33]; [23; 30]; [23; 31]].
Definition d_oracle (a r t : nat) : oracle :=
  mkOracle (fun _ => false) (fun k => k =? t) (fun _ => 21) (fun _ _ => Nat.ltb) (fun _ => []) (fun _ => []).
Definition d_s1 : solver := loaded d_cfg 10 d_first.
Definition d_s2 : solver := snd (get (sv_dflt d_cfg) (solve d_cfg (d_oracle 0 1 11) 500 d_s1)).
Definition d_s3 : solver := get d_s2 (solver_init 17 d_second true d_s2).
Definition d_s4 : solver := snd (get (sv_dflt d_cfg) (solve d_cfg (d_oracle (sv_clk d_s3) 2 0) 500 d_s3)).
Theorem C20_incremental_preprocessing_refuted : exists C F s O fuel x s', c_elim C = false /\ c_inproc C = 0%N /\
  sreach C problem_op F s /\ solve C O fuel s = Ok (x, s') /\ r_status x = Some true /\ ~ model_sat (r_model x) F.
Proof.
  exists d_cfg, (d_first ++ d_second), d_s4, (d_oracle (sv_clk d_s4) 2 0), 500. eexists. eexists. split; [reflexivity|]. split; [reflexivity|]. split.
  - eapply (sr_solve d_cfg problem_op _ d_s3 (d_oracle (sv_clk d_s3) 2 0) 500); [|exact I|vm_compute; reflexivity].
    apply (sr_init d_cfg problem_op d_first d_s2 17 _ true); [|reflexivity|replace (max 17 (nvars d_s2)) with 17 by (vm_compute; reflexivity); clauses_ok|vm_compute; reflexivity].
    eapply (sr_solve d_cfg problem_op _ d_s1 (d_oracle 0 1 11) 500); [|exact I|vm_compute; reflexivity].
    apply loaded_reach; [clauses_ok|reflexivity|vm_compute; reflexivity].
  - split; [vm_compute; reflexivity|]. split; [reflexivity|]. intros H. specialize (H [20; 22]). cbn in H.
    destruct H as (l & Hl & E); [tauto|]. destruct Hl as [<-|[<-|[]]]; vm_compute in E; discriminate.
Qed.
Print Assumptions C20_incremental_preprocessing_refuted.

(** Inprocessing, one solve, without preprocessing and variable elimination.  The time limit is
    reached during inprocessing.  The trail is not emptied between inprocessing and the search: the
    shortened clause [24; 26; 28] is watched at 24 and 26, which are false and already propagated,
    so that the search does not see it. *)
Definition i_cfg : cfg := mkCfg false 1 false false 20 true 3 false 0 0.
Definition i_problem : formula := [[1; 3; 5; 14]; [7; 11; 15; 16]; [9; 11; 15; 17]; [7; 13; 15; 18]; [9; 13; 15; 19];
  [24; 26; 28; 30]; [24; 26; 28; 31]; [21; 32]; [21; 25]; [21; 27]; [20; 22]; [20; 23]].
Definition i_oracle : oracle := mkOracle (fun k => 15 <=? k) (fun k => (k =? 9) || (k =? 12))
  (fun k => if k <? 13 then 41 else 29) (fun _ _ => Nat.ltb) (fun _ => []) (fun _ => []).
Theorem C20_inprocessing_refuted : exists C F s O fuel x s', c_elim C = false /\ c_pre C = false /\
  sreach C loading_op F s /\ solve C O fuel s = Ok (x, s') /\ r_status x = Some true /\ ~ model_sat (r_model x) F.
Proof.
  exists i_cfg, i_problem, (loaded i_cfg 17 i_problem), i_oracle, 500. eexists. eexists. split; [reflexivity|]. split; [reflexivity|]. split.
  - apply loaded_reach; [clauses_ok|reflexivity|vm_compute; reflexivity].
  - split; [vm_compute; reflexivity|]. split; [reflexivity|]. intros H. specialize (H [24; 26; 28; 31]). cbn in H.
    destruct H as (l & Hl & E); [tauto|]. destruct Hl as [<-|[<-|[<-|[<-|[]]]]]; vm_compute in E; discriminate.
Qed.
Print Assumptions C20_inprocessing_refuted.
