Require Import List Arith Bool NArith ZArith Lia.
Require Import Verif.Base Verif.Outcome Verif.ContainersModel Verif.TrailModel Verif.DbModel Verif.PropModel Verif.PropSpec Verif.SimpModel Verif.SolverModel Verif.SolverSpec Verif.SimpProps Verif.SolverProps
  Verif.RestartModel Verif.RestartSpec Verif.RestartLemmas Verif.RestartProofs.
Import ListNotations.

(** The fuel of the model stands for the length of a run: that a result exists for all fuel from some N on says that solve
    returns.  N does not depend on the heuristics, the termination callback and the two comparisons of floating point
    numbers.  Missing from C54: preprocessing with variable elimination, inprocessing, incReduceDB = 0, 65535 or more variables. *)
Theorem C54_terminates_partial : forall C nl nt F q s, c_pre C = false \/ c_elim C = false -> c_inproc C = 0%N -> (0 < c_inc C)%N -> 1 <= nl -> 1 <= nt ->
  (N.of_nat (nvars s) < 65535)%N -> rreach C nl nt F q s ->
  exists N, forall O bl fuel, N <= fuel -> exists x q' s', rsolve C O bl fuel q s = Ok (x, q', s').
Proof. exact rsolve_returns. Qed.
Print Assumptions C54_terminates_partial.

(** without a termination callback that says stop, solve decides the problem under the assumptions *)
Theorem C54_decides_partial : forall C nl nt F q s, c_pre C = false -> c_inproc C = 0%N -> (0 < c_inc C)%N -> 1 <= nl -> 1 <= nt ->
  (N.of_nat (nvars s) < 65535)%N -> rreach C nl nt F q s ->
  exists N, forall O bl fuel, (forall k, o_term O k = false) -> N <= fuel ->
    exists x q' s' b, rsolve C O bl fuel q s = Ok (x, q', s') /\ r_status x = Some b /\ (b = true <-> satisfiable (F ++ units (assumptions s))).
Proof. exact rsolve_decides. Qed.
Print Assumptions C54_decides_partial.

(** the same with preprocessing, for the first solve (C20 is false for later ones) *)
Theorem C54_decides_first_partial : forall C nl nt F s, c_pre C = false \/ c_elim C = false -> c_inproc C = 0%N -> (0 < c_inc C)%N -> 1 <= nl -> 1 <= nt ->
  (N.of_nat (nvars s) < 65535)%N -> sreach C loading_op F s ->
  exists N, forall O bl fuel, (forall k, o_term O k = false) -> N <= fuel ->
    exists x q' s' b, rsolve C O bl fuel (rst_new nl nt) s = Ok (x, q', s') /\ r_status x = Some b /\ (b = true <-> satisfiable (F ++ units (assumptions s))).
Proof. exact first_decides. Qed.
Print Assumptions C54_decides_first_partial.

(** With variable elimination too, as with the default options, a solve ends: it returns or has undefined behaviour, which is
    possible (C53_default_crash_refuted).  The bound depends on the schedule [O], which fixes the order of elimination.  An elimination
    limit outside 1 .. 65535 is excluded because of clauses that are too long. *)
Theorem C54_ends_partial : forall C nl nt F q s O, c_inproc C = 0%N -> (0 < c_inc C)%N ->
  (c_elim C = true -> 1 <= c_lim C /\ (N.of_nat (c_lim C) < 65536)%N) -> 1 <= nl -> 1 <= nt -> (N.of_nat (nvars s) < 65535)%N -> rreach C nl nt F q s ->
  exists N, forall bl fuel, N <= fuel -> rsolve C O bl fuel q s = Err UB \/ exists x q' s', rsolve C O bl fuel q s = Ok (x, q', s').
Proof. exact rsolve_ends. Qed.
Print Assumptions C54_ends_partial.

(** and what the first solve returns then is right; undefined behaviour is possible only if the problem is satisfiable *)
Theorem C54_default_decides_partial : forall C nl nt F s O, c_inproc C = 0%N -> (0 < c_inc C)%N ->
  (c_elim C = true -> 1 <= c_lim C /\ (N.of_nat (c_lim C) < 65536)%N) -> 1 <= nl -> 1 <= nt -> (N.of_nat (nvars s) < 65535)%N ->
  sreach C loading_op F s -> (forall k, o_term O k = false) ->
  exists N, forall bl fuel, N <= fuel -> rsolve C O bl fuel (rst_new nl nt) s = Err UB /\ satisfiable (F ++ units (assumptions s)) \/
    exists x q' s' b, rsolve C O bl fuel (rst_new nl nt) s = Ok (x, q', s') /\ r_status x = Some b /\ (b = true <-> satisfiable (F ++ units (assumptions s))).
Proof. exact default_decides. Qed.
Print Assumptions C54_default_decides_partial.

(** preprocessing, the part of solve before the first search, always ends, with variable elimination too and in any history *)
Theorem C54_preprocessing_ends : forall C F s O, sreach C any_op F s -> exists N, forall fuel, N <= fuel -> solve_start C O fuel s <> Err Fuel.
Proof. exact preprocessing_ends. Qed.
Print Assumptions C54_preprocessing_ends.

(** a run with the restart policy is a run of the solver of C19-C23 for some sequence of restarts, so that those hold of it *)
Theorem C54_refines : forall C nl nt F q s O bl fuel x q' s', rreach C nl nt F q s -> rsolve C O bl fuel q s = Ok (x, q', s') ->
  sreach C problem_op F s /\ exists f, solve C (with_restart f O) fuel s = Ok (x, s').
Proof. intros C nl nt F q s O bl fuel x q' s' H E. split; [exact (rreach_sreach C nl nt F q s H)|exact (rsolve_solve C O bl fuel q s x q' s' E)]. Qed.
Print Assumptions C54_refines.

(** k restarts of a solve need at least (k-1)*nl conflicts: all but the first come after nl conflicts or more *)
Theorem C54_restart_gap : forall C nl nt F q s O bl fuel s0 k q' s', 1 <= nl -> 1 <= nt -> rreach C nl nt F q s ->
  solve_start C O fuel s = Ok s0 -> restarts C O bl fuel q s0 k q' s' -> (N.of_nat k * N.of_nat nl <= N.of_nat nl + (conflicts s' - conflicts s0))%N.
Proof. intros C nl nt F q s O bl fuel s0 k q' s' H1 H2 HR _. exact (restart_gap C nl nt F q s O bl fuel s0 k q' s' H1 H2 HR). Qed.
Print Assumptions C54_restart_gap.

(** no division by zero and no write outside of a queue *)
Theorem C54_policy_defined : forall C nl nt F q s, 1 <= nl -> 1 <= nt -> rreach C nl nt F q s ->
  (forall bl conf size lbd, exists q', process_conflict bl conf size lbd q = Ok q') /\ (forall conf large, exists b q', trigger_restart conf large q = Ok (b, q')).
Proof. exact policy_defined. Qed.
Print Assumptions C54_policy_defined.

(** ** Concrete cases *)
(** four pigeons, three holes, queues of 2 LBDs and 3 trail sizes, every comparison says restart: two restarts, then
    unsatisfiable *)
Definition php43 : formula := map (fun p => [6 * p; 6 * p + 2; 6 * p + 4]) [0; 1; 2; 3] ++
  flat_map (fun h => map (fun x => [6 * fst x + 2 * h + 1; 6 * snd x + 2 * h + 1]) [(0, 1); (0, 2); (0, 3); (1, 2); (1, 3); (2, 3)]) [0; 1; 2].
Definition rs_oracle : oracle :=
  mkOracle (fun _ => false) (fun _ => true) (fun k => 2 * (k mod 7)) (fun _ _ => Nat.ltb) (fun _ => []) (fun _ => []).
Definition rs_cfg : cfg := mkCfg false 0 false false 20 true 3 false 2 1.
Definition rs_s : solver := loaded rs_cfg 12 php43.
Lemma loaded_rreach C nl nt n cs : Forall (clause_ok (max n 0)) cs ->
  (match solver_init n cs true (solver_new C) with Ok _ => true | Err _ => false end) = true -> rreach C nl nt cs (rst_new nl nt) (loaded C n cs).
Proof.
  intros H1 H2. unfold loaded. destruct (solver_init n cs true (solver_new C)) as [s|] eqn:E; [|discriminate].
  apply (rr_init C nl nt [] (rst_new nl nt) (solver_new C) n cs); auto. apply rr_new.
Qed.
Example C54_case : c_pre rs_cfg = false /\ c_inproc rs_cfg = 0%N /\ (0 < c_inc rs_cfg)%N /\ (N.of_nat (nvars rs_s) < 65535)%N /\
  rreach rs_cfg 2 3 php43 (rst_new 2 3) rs_s /\
  exists x q' s', rsolve rs_cfg rs_oracle (fun _ => true) 500 (rst_new 2 3) rs_s = Ok (x, q', s') /\ r_status x = Some false /\ conflicts s' = 6%N.
Proof.
  split; [reflexivity|]. split; [reflexivity|]. split; [reflexivity|]. split; [vm_compute; reflexivity|]. split.
  - apply loaded_rreach; [clauses_ok|vm_compute; reflexivity].
  - eexists. eexists. eexists. split; [vm_compute; reflexivity|]. split; reflexivity.
Qed.
Example C54_restart_case : exists s0 q' s', solve_start rs_cfg rs_oracle 500 rs_s = Ok s0 /\ restarts rs_cfg rs_oracle (fun _ => true) 500 (rst_new 2 3) s0 2 q' s' /\ conflicts s' = 5%N.
Proof.
  eexists. eexists. eexists. split; [vm_compute; reflexivity|]. split.
  - eapply rs_more; [eapply rs_more; [apply rs_none|reflexivity|vm_compute; reflexivity]|reflexivity|vm_compute; reflexivity].
  - reflexivity.
Qed.
(** unsatisfiable under assumptions, then satisfiable without; the queues of the first solve are used in the second *)
Definition rs_sel : solver := solver_assume [18; 12; 14; 16] (loaded rs_cfg 11 php_sel).
Definition rs_run : sresult * rst * solver := get (mkRes None [] [], rst_new 2 3, solver_new rs_cfg) (rsolve rs_cfg rs_oracle (fun _ => true) 500 (rst_new 2 3) rs_sel).
Example C54_history_case : r_status (fst (fst rs_run)) = Some false /\ snd (fst rs_run) <> rst_new 2 3 /\
  rreach rs_cfg 2 3 php_sel (snd (fst rs_run)) (solver_assume [] (snd rs_run)) /\
  exists x q' s', rsolve rs_cfg rs_oracle (fun _ => true) 500 (snd (fst rs_run)) (solver_assume [] (snd rs_run)) = Ok (x, q', s') /\ r_status x = Some true.
Proof.
  split; [vm_compute; reflexivity|]. split; [vm_compute; discriminate|]. split.
  - apply rr_assume; [|intros l []]. apply (rr_solve rs_cfg 2 3 php_sel (rst_new 2 3) rs_sel rs_oracle (fun _ => true) 500 (fst (fst rs_run))).
    + apply rr_assume; [apply loaded_rreach; [clauses_ok|vm_compute; reflexivity]|]. intros l Hl. cbn in Hl. intuition (subst; vm_compute; lia).
    + vm_compute. reflexivity.
  - eexists. eexists. eexists. split; [vm_compute; reflexivity|reflexivity].
Qed.

(** preprocessing of several rounds: subsumption, strengthening and asymmetric reduction, then a search *)
Definition pp_cfg : cfg := mkCfg true 0 false true 20 true 3 false 2 1.
Definition pp_problem : formula := [[24; 26]; [24; 26; 28]; [25; 26; 28]; [27; 28]; [29; 30; 32]; [29; 31; 32]; [33; 34; 36; 38]] ++ php43.
Example C54_preprocessing_case : sreach pp_cfg loading_op pp_problem (loaded pp_cfg 20 pp_problem) /\
  (exists k d w t e, simp_loop pp_cfg rs_oracle 9 0 1 0 (sv_d (loaded pp_cfg 20 pp_problem)) (prop_reset (sv_d (loaded pp_cfg 20 pp_problem)))
     (trail_reset (sv_t (loaded pp_cfg 20 pp_problem))) (sdb_init (sv_d (loaded pp_cfg 20 pp_problem))) ve_new = Ok (k, d, w, t, e) /\ k = 3) /\
  exists x q' s', rsolve pp_cfg rs_oracle (fun _ => true) 500 (rst_new 2 3) (loaded pp_cfg 20 pp_problem) = Ok (x, q', s') /\ r_status x = Some false /\ conflicts s' = 6%N.
Proof.
  split; [apply loaded_reach; [clauses_ok|reflexivity|vm_compute; reflexivity]|]. split.
  - do 5 eexists. split; [vm_compute; reflexivity|reflexivity].
  - eexists. eexists. eexists. split; [vm_compute; reflexivity|]. split; reflexivity.
Qed.

(** the default options, variables are eliminated; the answer is right *)
Definition el_cfg : cfg := mkCfg true 0 true false 20 true 3 false 3000 1300.
Example C54_ends_case : el_cfg = default_cfg /\ sreach el_cfg loading_op pp_problem (loaded el_cfg 20 pp_problem) /\
  exists x q' s', rsolve el_cfg rs_oracle (fun _ => true) 500 (rst_new 50 5000) (loaded el_cfg 20 pp_problem) = Ok (x, q', s') /\ r_status x = Some false /\ ev (sv_e s') <> [].
Proof.
  split; [reflexivity|]. split; [apply loaded_reach; [clauses_ok|reflexivity|vm_compute; reflexivity]|].
  eexists. eexists. eexists. split; [vm_compute; reflexivity|]. split; [reflexivity|vm_compute; discriminate].
Qed.
