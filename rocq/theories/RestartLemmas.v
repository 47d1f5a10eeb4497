(** Termination, the answers and the restarts of the solver with its restart policy. *)
Require Import List Arith Bool NArith ZArith Lia.
From Coq Require Import ZifyBool ZifyNat ZifyN.
Require Import Verif.Base Verif.Outcome Verif.ContainersModel Verif.ContainersSpec Verif.ContainersProofs Verif.TrailModel Verif.TrailSpec Verif.TrailProofs Verif.DbModel Verif.DbProofs Verif.PropModel Verif.PropProofs Verif.PropSpec Verif.AnalyzeModel Verif.SimpModel Verif.VEProofs
  Verif.ReduceModel Verif.SolverModel Verif.SolverBase Verif.SolverUnits Verif.SolverProofs Verif.SolverSpec Verif.SolverLemmas Verif.SolverElim Verif.SolverCrash Verif.RestartModel Verif.RestartSpec Verif.RestartProofs Verif.RestartErr Verif.RestartTerm.
Import ListNotations.

Lemma no_elim_rsolve C O bl fuel q s : c_inproc C = 0%N -> c_pre C = false -> rsolve C O bl fuel q s = rsolve (no_elim C) O bl fuel q s.
Proof. destruct C as [a b e g h i j k l m]. cbn. intros -> ->. reflexivity. Qed.
(** without variable elimination nothing is eliminated *)
Lemma solve_ev C F O fuel s x s' : quiet C -> sreach C problem_op F s -> ev (sv_e s) = [] -> solve C O fuel s = Ok (x, s') -> ev (sv_e s') = [].
Proof.
  intros HQ HR He E. assert (HB := reach_BI _ _ _ _ HR). unfold solve in E. apply bind_ok in E. destruct E as (s1 & E1 & E). apply bind_ok in E. destruct E as (((r & cs) & s2) & E2 & E).
  assert (H1 : ev (sv_e s1) = []).
  { unfold solve_start in E1. destruct HB as [B1 B2 B3 B4 B5]. assert (HT0 : TI (trail_reset (sv_t s))) by (apply TI_TLreset; auto).
    destruct (ve_reset_spec (holdsF F) (nv (sv_d s)) (sv_e s) (trail_reset (sv_t s)) B5 B3 B4) as (cor & e1 & t1 & Ev & V1 & _ & _ & Hev).
    rewrite Ev in E1. cbn [bind] in E1. destruct (Hev He) as (-> & -> & He1). cbn [create_corr bind] in E1. destruct (c_pre C); [|injection E1 as <-; exact He1].
    apply bind_ok in E1. destruct E1 as (s3 & E3 & E1). injection E1 as <-. cbn [core sv_e].
    set (s0 := with_e e1 (core (sv_d s) (prop_reset (sv_d s)) (trail_reset (sv_t s)) s)) in *.
    assert (Z1 : Z (holdsF F) (sv_d s0) (sv_w s0) (sv_t s0)) by (apply Z_start; auto; apply WS_reset; apply B1).
    assert (HP := process_spec (holdsF F) C O fuel s0 Z1 V1). rewrite E3 in HP. cbn [safe] in HP. destruct HP as (_ & _ & _ & _ & X5). rewrite (proj2 (X5 (proj1 HQ))). exact He1. }
  assert (H2 : ev (sv_e s2) = []).
  { destruct (empt (sv_d s1)); [injection E2 as <- <- <-; exact H1|]. rewrite (loop_e C O fuel (proj2 HQ) _ _ _ _ _ E2). exact H1. }
  unfold solve_finish in E. destruct r as [[|]|].
  - apply bind_ok in E. destruct E as (t & _ & E). injection E as <- <-. exact H2.
  - injection E as <- <-. exact H2.
  - injection E as <- <-. exact H2.
Qed.
Lemma reach_ev C F s : quiet C -> sreach C problem_op F s -> ev (sv_e s) = [].
Proof.
  intros HQ HR. induction HR as [|F s n cs lemma s' HR IH Ho Hc E|F s ls HR IH Ho Hl|F s cb HR IH Ho|F s O fuel x s' HR IH Ho E]; auto.
  - unfold solver_init in E. apply bind_ok in E. destruct E as (d1 & E1 & E). rewrite init_undo_none in E by auto. cbn [bind] in E. injection E as <-. exact IH.
  - exact (solve_ev C F O fuel s x s' HQ HR IH E).
Qed.
Lemma rsolve_returns C nl nt F q s : c_pre C = false \/ c_elim C = false -> c_inproc C = 0%N -> (0 < c_inc C)%N -> 1 <= nl -> 1 <= nt -> (N.of_nat (nvars s) < 65535)%N ->
  rreach C nl nt F q s -> exists N, forall O bl fuel, N <= fuel -> exists x q' s', rsolve C O bl fuel q s = Ok (x, q', s').
Proof.
  intros [H1|H1] H2 H3 H4 H5 H6 HR; exists (enough (nvars s) s); intros O bl fuel Hf; assert (HQI := proj1 (rreach_QI C nl nt F q s H4 H5 HR)).
  - assert (HS := no_elim_reach C problem_op F s H2 H1 (rreach_sreach _ _ _ _ _ _ HR)). assert (HQ := no_elim_quiet C H2). rewrite no_elim_rsolve by auto.
    exact (rsolve_total (holdsF F) (no_elim C) O bl (nvars s) HQ H6 H3 fuel q s HQI eq_refl (reach_BI _ _ _ _ HS) (reach_ev _ _ _ HQ HS) Hf).
  - assert (HS := rreach_sreach _ _ _ _ _ _ HR). assert (HQ : quiet C) by (split; auto).
    exact (rsolve_total (holdsF F) C O bl (nvars s) HQ H6 H3 fuel q s HQI eq_refl (reach_BI _ _ _ _ HS) (reach_ev _ _ _ HQ HS) Hf).
Qed.
Lemma loop_answers C O bl fuel n : (forall k, o_term O k = false) -> forall q s r cs q' s', rsolve_loop C O bl n fuel q s = Ok (r, cs, q', s') -> r <> None.
Proof.
  intros HT. induction n as [|n IH]; intros q s r cs q' s' E; cbn [rsolve_loop] in E; [discriminate|]. rewrite HT in E.
  apply bind_ok in E. destruct E as ((((r1 & cs1) & q1) & s1) & E1 & E). destruct r1 as [b|]; [injection E as <- <- <- <-; discriminate|]. exact (IH _ _ _ _ _ _ E).
Qed.
Lemma solve_answers C O bl fuel q s x q' s' : (forall k, o_term O k = false) -> rsolve C O bl fuel q s = Ok (x, q', s') -> r_status x <> None.
Proof.
  intros HT. unfold rsolve. intros E. apply bind_ok in E. destruct E as (s1 & E1 & E). apply bind_ok in E. destruct E as ((((r & cs) & q2) & s2) & E2 & E).
  apply bind_ok in E. destruct E as ((x1 & s3) & E3 & E). injection E as <- <- <-.
  assert (Hr : r <> None) by (destruct (empt (sv_d s1)); [injection E2 as <- <- <- <-; discriminate|exact (loop_answers C O bl fuel fuel HT _ _ _ _ _ _ E2)]).
  destruct r as [[|]|]; [| |congruence]; cbn [solve_finish] in E3.
  - apply bind_ok in E3. destruct E3 as (t & _ & E3). injection E3 as <- <-. discriminate.
  - injection E3 as <- <-. discriminate.
Qed.
Lemma model_satisfiable m F ls : model_sat m F -> (forall l, In l ls -> model_lit m l) -> satisfiable (F ++ units ls).
Proof.
  intros H1 H2. exists (fun v => match nth v m None with Some b => b | None => false end).
  assert (G : forall l, model_lit m l -> lit_holds (fun v => match nth v m None with Some b => b | None => false end) l).
  { intros l Hl. unfold model_lit in Hl. unfold lit_holds, lit_val. rewrite Hl. destruct (lsign l); reflexivity. }
  intros c Hc. apply in_app_iff in Hc. destruct Hc as [Hc|Hc].
  - destruct (H1 c Hc) as (l & L1 & L2). exists l. auto.
  - apply in_map_iff in Hc. destruct Hc as (l & <- & Hl). exists l. split; [left; auto|]. apply G; auto.
Qed.
Lemma answer_right C F s O fuel x s' : sreach C problem_op F s -> solve C O fuel s = Ok (x, s') -> r_status x <> None ->
  (r_status x = Some true -> model_sat (r_model x) F /\ (forall l, In l (assumptions s) -> model_lit (r_model x) l) /\ model_total (nvars s) (r_model x)) ->
  exists b, r_status x = Some b /\ (b = true <-> satisfiable (F ++ units (assumptions s))).
Proof.
  intros HS Ef Hx HM. destruct (r_status x) as [b|] eqn:Es; [|congruence]. exists b. split; auto. destruct b.
  - split; auto. intros _. destruct (HM eq_refl) as (A1 & A2 & A3). exact (model_satisfiable _ _ _ A1 A2).
  - split; [discriminate|]. intros HSat. exfalso. destruct HSat as (a & Ha). exact (unsat_core C problem_op F s O fuel x s' HS Ef Es a Ha).
Qed.
Lemma rsolve_decides C nl nt F q s : c_pre C = false -> c_inproc C = 0%N -> (0 < c_inc C)%N -> 1 <= nl -> 1 <= nt -> (N.of_nat (nvars s) < 65535)%N ->
  rreach C nl nt F q s -> exists N, forall O bl fuel, (forall k, o_term O k = false) -> N <= fuel ->
  exists x q' s' b, rsolve C O bl fuel q s = Ok (x, q', s') /\ r_status x = Some b /\ (b = true <-> satisfiable (F ++ units (assumptions s))).
Proof.
  intros H1 H2 H3 H4 H5 H6 HR. destruct (rsolve_returns C nl nt F q s (or_introl H1) H2 H3 H4 H5 H6 HR) as (N & HN). exists N. intros O bl fuel HT Hf.
  destruct (HN O bl fuel Hf) as (x & q' & s' & E). assert (Hx := solve_answers C O bl fuel q s x q' s' HT E).
  destruct (rsolve_solve C O bl fuel q s x q' s' E) as (f & Ef). assert (HS := rreach_sreach _ _ _ _ _ _ HR).
  destruct (answer_right C F s (with_restart f O) fuel x s' HS Ef Hx (history_model C F s (with_restart f O) fuel x s' H2 H1 HS Ef)) as (b & B1 & B2). exists x, q', s', b. auto.
Qed.
Lemma loading_problem C F s : sreach C loading_op F s -> sreach C problem_op F s.
Proof. intros HR. induction HR; [apply sr_new|eapply sr_init; eauto|eapply sr_assume; eauto; exact I|eapply sr_callback; eauto; exact I|cbn in H; tauto]. Qed.
Lemma loading_rreach C nl nt F s : sreach C loading_op F s -> rreach C nl nt F (rst_new nl nt) s.
Proof.
  intros HR. induction HR as [|F s n cs lemma s' HR IH Ho Hc E|F s ls HR IH Ho Hl|F s cb HR IH Ho|F s O fuel x s' HR IH Ho E].
  - apply rr_new.
  - cbn in Ho. subst lemma. exact (rr_init _ _ _ _ _ _ _ _ _ IH Hc E).
  - exact (rr_assume _ _ _ _ _ _ _ IH Hl).
  - exact (rr_callback _ _ _ _ _ _ _ IH).
  - destruct Ho.
Qed.
Lemma first_decides C nl nt F s : c_pre C = false \/ c_elim C = false -> c_inproc C = 0%N -> (0 < c_inc C)%N -> 1 <= nl -> 1 <= nt -> (N.of_nat (nvars s) < 65535)%N ->
  sreach C loading_op F s -> exists N, forall O bl fuel, (forall k, o_term O k = false) -> N <= fuel ->
  exists x q' s' b, rsolve C O bl fuel (rst_new nl nt) s = Ok (x, q', s') /\ r_status x = Some b /\ (b = true <-> satisfiable (F ++ units (assumptions s))).
Proof.
  intros H1 H2 H3 H4 H5 H6 HR. destruct (rsolve_returns C nl nt F _ s H1 H2 H3 H4 H5 H6 (loading_rreach C nl nt F s HR)) as (N & HN). exists N. intros O bl fuel HT Hf.
  destruct (HN O bl fuel Hf) as (x & q' & s' & E). assert (Hx := solve_answers C O bl fuel _ s x q' s' HT E).
  destruct (rsolve_solve C O bl fuel _ s x q' s' E) as (f & Ef). assert (HS := loading_problem C F s HR).
  destruct (answer_right C F s (with_restart f O) fuel x s' HS Ef Hx (first_model C F s (with_restart f O) fuel x s' H2 HR Ef)) as (b & B1 & B2). exists x, q', s', b. auto.
Qed.
(** ** With variable elimination *)
Lemma rloop_no_elim C O bl n fuel q s : c_inproc C = 0%N -> rsolve_loop C O bl n fuel q s = rsolve_loop (no_elim C) O bl n fuel q s.
Proof. destruct C as [a b e g h i j k l m]. cbn. intros ->. reflexivity. Qed.
Lemma set_value_err l t e : set_value l t = Err e -> e = UB.
Proof. unfold set_value. destruct (_ <? _); congruence. Qed.
Lemma set_values_err ls : forall t e, set_values ls t = Err e -> e = UB.
Proof.
  induction ls as [|l r IH]; intros t e E; cbn [set_values] in E; [discriminate|]. destruct (set_value l t) as [t1|er] eqn:E1; cbn [bind] in E; [exact (IH _ _ E)|].
  injection E as <-. exact (set_value_err _ _ _ E1).
Qed.
Lemma prop_elim_err e vs : forall t er, prop_elim_list e vs t = Err er -> er = UB.
Proof.
  induction vs as [|v r IH]; intros t er E; cbn [prop_elim_list] in E; [discriminate|]. destruct (prop_elim_var e v t) as [t1|er1] eqn:E1; cbn [bind] in E; [exact (IH _ _ E)|].
  injection E as <-. unfold prop_elim_var in E1. set (first := match find _ _ with Some c => _ | None => _ end) in E1.
  destruct (set_values first t) as [t2|er2] eqn:E2; cbn [bind] in E1; [|injection E1 as <-; exact (set_values_err _ _ _ E2)].
  destruct first; [|discriminate]. destruct (nth v (ec e) []); [congruence|]. exact (set_values_err _ _ _ E1).
Qed.
Lemma rsolve_ends C nl nt F q s O : c_inproc C = 0%N -> (0 < c_inc C)%N -> (c_elim C = true -> 1 <= c_lim C /\ (N.of_nat (c_lim C) < 65536)%N) -> 1 <= nl -> 1 <= nt ->
  (N.of_nat (nvars s) < 65535)%N -> rreach C nl nt F q s ->
  exists N, forall bl fuel, N <= fuel -> rsolve C O bl fuel q s = Err UB \/ exists x q' s', rsolve C O bl fuel q s = Ok (x, q', s').
Proof.
  intros H2 H3 HL H4 H5 H6 HR. assert (HB := reach_BI _ _ _ _ (rreach_sreach _ _ _ _ _ _ HR)). assert (HQI := proj1 (rreach_QI C nl nt F q s H4 H5 HR)).
  assert (HQ := no_elim_quiet C H2). set (n := nvars s) in *.
  destruct (start_process (holdsF F) C O s HB H6) as (N & HN). exists (N + enough n s). intros bl fuel Hf. specialize (HN fuel ltac:(lia)). unfold enough in Hf. unfold rsolve.
  destruct (solve_start C O fuel s) as [s1|er] eqn:E1; cbn [bind].
  2: { exfalso. destruct HN as (_ & HN & [HN'|HN']); apply HL in HN; lia. }
  assert (Ec := start_conf (holdsF F) C O fuel s s1 HB E1).
  assert (HS := solve_start_spec (holdsF F) C O fuel s HB). rewrite E1 in HS. cbn [safe] in HS. destruct HS as (X1 & X2 & X3 & _).
  assert (N1 : nv (sv_d s1) = n) by (rewrite (r_nv _ _ _ X3); reflexivity).
  destruct (empt (sv_d s1)) eqn:Em.
  { right. cbn [bind solve_finish]. eexists _, _, _. reflexivity. }
  assert (HLI : LI n (N.to_nat (sv_conf s)) (sv_calls s1) (sv_nb s1) s1).
  { exists 0. rewrite Ec. split; [lia|]. split; [lia|]. split; lia. }
  destruct (rloop_total (holdsF F) (no_elim C) O bl n HQ H6 H3 _ _ _ fuel fuel ltac:(lia) q s1 HQI N1 X1 X2 HLI) as (r & cs & q2 & s2 & E2).
  { unfold ready. destruct (_ =? _); lia. }
  rewrite rloop_no_elim by exact H2. rewrite E2. cbn [bind]. destruct r as [[|]|]; cbn [solve_finish bind]; try (right; eexists _, _, _; reflexivity).
  destruct (propagate_eliminated (sv_e s2) (sv_t s2)) as [t3|er] eqn:Et; cbn [bind]; [right; eexists _, _, _; reflexivity|]. left. rewrite (prop_elim_err _ _ _ _ Et). reflexivity.
Qed.
Lemma default_decides C nl nt F s O : c_inproc C = 0%N -> (0 < c_inc C)%N -> (c_elim C = true -> 1 <= c_lim C /\ (N.of_nat (c_lim C) < 65536)%N) -> 1 <= nl -> 1 <= nt ->
  (N.of_nat (nvars s) < 65535)%N -> sreach C loading_op F s -> (forall k, o_term O k = false) ->
  exists N, forall bl fuel, N <= fuel -> rsolve C O bl fuel (rst_new nl nt) s = Err UB /\ satisfiable (F ++ units (assumptions s)) \/
  exists x q' s' b, rsolve C O bl fuel (rst_new nl nt) s = Ok (x, q', s') /\ r_status x = Some b /\ (b = true <-> satisfiable (F ++ units (assumptions s))).
Proof.
  intros H2 H3 HL H4 H5 H6 HR HT. destruct (rsolve_ends C nl nt F _ s O H2 H3 HL H4 H5 H6 (loading_rreach C nl nt F s HR)) as (N & HN). exists N. intros bl fuel Hf.
  destruct (HN bl fuel Hf) as [E|(x & q' & s' & E)]; [left; split; auto; destruct (rsolve_err C O bl fuel _ s UB (proj1 (new_QI nl nt H4 H5)) E) as (f & Ef); exact (first_crash C F s (with_restart f O) fuel H2 HR Ef)|right]. assert (Hx := solve_answers C O bl fuel _ s x q' s' HT E).
  destruct (rsolve_solve C O bl fuel _ s x q' s' E) as (f & Ef). assert (HS := loading_problem C F s HR).
  destruct (answer_right C F s (with_restart f O) fuel x s' HS Ef Hx (first_model C F s (with_restart f O) fuel x s' H2 HR Ef)) as (b & B1 & B2). exists x, q', s', b. auto.
Qed.
Lemma preprocessing_ends C F s O : sreach C any_op F s -> exists N, forall fuel, N <= fuel -> solve_start C O fuel s <> Err Fuel.
Proof. intros HR. exact (start_ends (holdsF F) C O s (reach_BI _ _ _ _ HR)). Qed.
Lemma restart_gap C nl nt F q s O bl fuel s0 k q' s' : 1 <= nl -> 1 <= nt -> rreach C nl nt F q s -> restarts C O bl fuel q s0 k q' s' ->
  (N.of_nat k * N.of_nat nl <= N.of_nat nl + (conflicts s' - conflicts s0))%N.
Proof.
  intros H1 H2 HR HK. destruct (rreach_QI C nl nt F q s H1 H2 HR) as (HQ & HC).
  assert (HF : fill q <= nl) by (rewrite <- HC; destruct HQ as ((_ & _ & [(X & _)|(X & _)] & _) & _); unfold fill, cap; lia).
  assert (G : QI q' /\ cap q' = nl /\ (conflicts s0 <= conflicts s')%N /\ (N.of_nat k * N.of_nat nl + N.of_nat (fill q') <= N.of_nat (fill q) + (conflicts s' - conflicts s0))%N).
  { clear HF. induction HK as [|k q1 s1 cs q2 s2 HK IH Ht E]; [split; auto; split; auto; split; lia|]. destruct IH as (I1 & I2 & I3 & I4).
    destruct (riter_policy C O bl fuel q1 (tick s1) _ _ _ _ I1 E) as (A1 & A2 & A3 & A4). destruct (A4 eq_refl) as (A5 & A6). unfold conflicts in *. cbn [tick sv_conf] in A3, A6.
    split; auto. split; [congruence|]. split; [lia|]. rewrite A5. rewrite Nat2N.inj_succ. nia. }
  destruct G as (_ & _ & _ & G). lia.
Qed.
Lemma policy_defined C nl nt F q s : 1 <= nl -> 1 <= nt -> rreach C nl nt F q s ->
  (forall bl conf size lbd, exists q', process_conflict bl conf size lbd q = Ok q') /\ (forall conf large, exists b q', trigger_restart conf large q = Ok (b, q')).
Proof.
  intros H1 H2 HR. destruct (rreach_QI C nl nt F q s H1 H2 HR) as (HQ & _). split.
  - intros bl conf size lbd. destruct (process_ok bl conf size lbd q HQ) as (q' & E & _). eauto.
  - intros conf large. destruct (trigger_ok conf large q HQ) as (b & q' & E & _). eauto.
Qed.
