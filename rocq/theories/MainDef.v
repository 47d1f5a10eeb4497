(** The program has no undefined behaviour; its proof test succeeds; the form of its output. *)
Require Import List Arith ZArith NArith Lia String Ascii Bool.
Require Import Verif.Base Verif.Outcome Verif.OptModel Verif.OptSpec Verif.OptProofs Verif.CNFModel Verif.CNFSpec Verif.CNFProofs Verif.DimacsModel Verif.DimacsSpec Verif.DimacsProofs
  Verif.DimacsMore Verif.DbModel Verif.SolverModel Verif.PropSpec Verif.SolverSpec Verif.SolverBase Verif.SolverProofs Verif.SolverLemmas Verif.SolverElim Verif.IpasirProofs
  Verif.DRATModel Verif.DratFileModel Verif.DratFileProofs Verif.DratTextModel Verif.DratTextSolver Verif.MainModel Verif.MainSpec Verif.MainOpt Verif.MainProofs Verif.MainMore
  Verif.RestartModel Verif.RestartProofs Verif.RestartErr.
Import ListNotations.
Open Scope list_scope.

Lemma loading_problem C F s : sreach C loading_op F s -> sreach C problem_op F s.
Proof.
  intros HR. induction HR as [|F s n cs lemma s' HR IH Ho Hc E|F s ls HR IH Ho Hl|F s cb HR IH Ho|F s O fuel x s' HR IH Ho E].
  - apply sr_new.
  - eapply sr_init; eauto.
  - eapply sr_assume; eauto; exact I.
  - eapply sr_callback; eauto; exact I.
  - destruct Ho.
Qed.
Lemma conflict_nil C F s O fuel x s' : sreach C loading_op F s -> assumptions s = [] -> solve C O fuel s = Ok (x, s') -> r_status x = Some false -> r_conflict x = [].
Proof.
  intros HR HA E HS. destruct (failed_core C loading_op F s O fuel x s' HR E HS) as (H & _). rewrite HA in H. destruct (r_conflict x) as [|l r]; [reflexivity|]. elim (H l). left. reflexivity.
Qed.
Lemma cfg_safe args os kept : parse_options true cli_options args = Done os kept -> unset args "inprocessing" -> switch args "pre" true = false \/ switch args "elim" true = false ->
  c_inproc (cfg_of os) = 0%N /\ (c_pre (cfg_of os) = false \/ c_elim (cfg_of os) = false).
Proof.
  intros E U H. split; [apply (inproc_unset args os kept E U)|]. unfold cfg_of, c_pre, c_elim. destruct H as [H|H]; [left|right].
  - rewrite (done_bool args os kept "pre" true E); [exact H|vm_compute; reflexivity].
  - rewrite (done_bool args os kept "elim" true E); [exact H|vm_compute; reflexivity].
Qed.
Lemma first_safe C F s O fuel : c_inproc C = 0%N -> c_pre C = false \/ c_elim C = false -> sreach C loading_op F s -> solve C O fuel s <> Err UB.
Proof.
  intros H1 [H2|H2] HR; [apply (history_safe C F s O fuel H1 H2 (loading_problem _ _ _ HR))|apply (safe_first C F s O fuel (conj H2 H1) HR)].
Qed.
Lemma text_output args os kept : (forall a, In a args -> good cli_options a) -> parse_options true cli_options args = Done os kept -> exists t, get_text os "certified-output" = Ok t.
Proof.
  intros G E. apply (good_text args os kept "certified-output" 19 "" G E); [vm_compute; reflexivity..|]. exists EmptyString. vm_compute. reflexivity.
Qed.

Lemma with_problem_ok B w os p n : get_text os "certified-output" = Ok n -> with_problem B w os p =
  if ((0 <? get_int os "test-limit")%Z && (get_int os "test-limit" <? Z.of_nat (variables p))%Z)%bool then Exits 0 []
  else if get_bool os "gate-stats" then Unmodelled else run B w os p (proof_name os n).
Proof. intros E. unfold with_problem. rewrite E. destruct (get_bool os "test-proof"); reflexivity. Qed.
Lemma good_queues args os kept : (forall a, In a args -> good cli_options a) -> parse_options true cli_options args = Done os kept ->
  QI (rst_of os) /\ 1 <= N.to_nat (u32 (get_int os "szLBDQueue")) /\ 1 <= N.to_nat (u32 (get_int os "szTrailQueue")).
Proof.
  intros G E. assert (K : forall z, (10 <= z <= smax)%Z -> 1 <= N.to_nat (u32 z)).
  { intros z Hz. unfold u32, smax in *. rewrite Z.mod_small by lia. lia. }
  assert (K1 := K _ (good_range args os kept "szLBDQueue" 25 50 10 smax G E ltac:(vm_compute; reflexivity) ltac:(vm_compute; reflexivity) ltac:(vm_compute; split; discriminate))).
  assert (K2 := K _ (good_range args os kept "szTrailQueue" 26 5000 10 smax G E ltac:(vm_compute; reflexivity) ltac:(vm_compute; reflexivity) ltac:(vm_compute; split; discriminate))).
  split; [apply new_QI; assumption|split; assumption].
Qed.
(** the answer before the report *)
Lemma called_report B w args cs : called_with B w args cs -> (forall a, In a args -> good cli_options a) -> unset args "inprocessing" ->
  switch args "pre" true = false \/ switch args "elim" true = false ->
  (exists code, program B w args = Exits code []) \/ program B w args = Silent \/ program B w args = Unmodelled \/
  exists os kept n x s s', parse_options true cli_options args = Done os kept /\ answered w os cs x s s' /\
    program B w args = report B w os (loaded cs) (proof_name os n) (r_status x) (r_model x) (rev (cert (sv_d s'))) (lines0 os).
Proof.
  intros HC G U HE. rewrite (called_program B w args cs HC). destruct (parse_options true cli_options args) as [os kept| | |] eqn:EP; [|left; eexists; reflexivity..].
  destruct (text_output args os kept G EP) as (n & EN). destruct (cfg_safe args os kept EP U HE) as (S1 & S2).
  rewrite (with_problem_ok B w os (loaded cs) n EN). destruct ((0 <? _)%Z && _)%bool; [left; eexists; reflexivity|]. destruct (get_bool os "gate-stats"); [auto|].
  unfold run. destruct (unmodelled os); [auto|]. destruct (solver_init _ _ _ _) as [s|er] eqn:EI; cbn [bind].
  - destruct (init_reach _ cs s EI) as (R & HN & A). destruct (rsolve _ _ _ _ _ s) as [((x & q') & s')|er] eqn:ES.
    + do 3 right. exists os, kept, n, x, s, s'. split; [reflexivity|]. split; [|reflexivity]. split; [assumption|]. destruct (rsolve_solve _ _ _ _ _ _ _ _ _ ES) as (f & Ef). eexists. exact Ef.
    + destruct er; auto. exfalso. destruct (rsolve_err _ _ _ _ _ _ _ (proj1 (good_queues args os kept G EP)) ES) as (f & Ef). exact (first_safe (cfg_of os) _ s _ _ S1 S2 R Ef).
  - assert (HB := reach_BI _ _ _ _ (sr_new (cfg_of os) loading_op)). assert (ID := init_defined [] (variables (loaded cs)) (problem (loaded cs)) true (solver_new (cfg_of os)) eq_refl HB).
    destruct er; auto. congruence.
Qed.
Lemma value_line_some m n : model_total n m -> exists t, value_line m n = Some t.
Proof.
  intros H. unfold value_line. assert (K : forall vs, (forall v, In v vs -> v < n) -> exists t, print_values m vs = Some t).
  { induction vs as [|v r IH]; intros HV; cbn [print_values]; [eexists; reflexivity|]. destruct (IH (fun u Hu => HV u (or_intror Hu))) as (t & ->).
    unfold CNFModel.value. assert (Hv := H v (HV v (or_introl eq_refl))). destruct (nth_error m v) as [[[|]|]|] eqn:E; try (eexists; reflexivity).
    apply nth_error_None in E. rewrite (nth_overflow m None E) in Hv. congruence. }
  destruct (K (seq 0 n)) as (t & ->); [intros v Hv; apply in_seq in Hv; lia|]. eexists; reflexivity.
Qed.
Lemma report_defined B w os p name r m ls l0 : (r = Some true -> model_sat m (problem p) /\ model_total (variables p) m) ->
  (r = Some false -> get_bool os "test-proof" = true -> exists text, proof_file w name ls = Some text /\ check_proof_file B (w_junk w 1) text (variables p) (problem p) = POk (Ok true)) ->
  report B w os p name r m ls l0 = Unmodelled \/ exists code lines, report B w os p name r m ls l0 = Exits code lines.
Proof.
  intros HM HP. unfold report. destruct r as [[|]|].
  - destruct (HM eq_refl) as (M & T). destruct (get_bool os "minimize"); [auto|]. destruct (value_line_some m _ T) as (v & ->). right. assert (SC := model_sat_check _ _ M).
    unfold self_test. rewrite SC. destruct (get_bool os "model"), (get_bool os "test-model"); eexists; eexists; reflexivity.
  - right. unfold self_test. destruct (get_bool os "test-proof"); [|eexists; eexists; reflexivity]. destruct (HP eq_refl eq_refl) as (text & -> & ->). eexists; eexists; reflexivity.
  - right. eexists; eexists; reflexivity.
Qed.
Lemma answered_model args os kept w cs x s s' : parse_options true cli_options args = Done os kept -> unset args "inprocessing" -> answered w os cs x s s' -> r_status x = Some true ->
  model_sat (r_model x) (problem (loaded cs)) /\ model_total (variables (loaded cs)) (r_model x).
Proof.
  intros EP U (E1 & O & E2) HS. destruct (init_reach _ cs s E1) as (R & HN & A). rewrite <- HN.
  destruct (first_model (cfg_of os) _ s _ _ x s' (inproc_unset args os kept EP U) R E2 HS) as (M & _ & T). auto.
Qed.
Lemma prog_defined B w args cs : called_with B w args cs -> (forall a, In a args -> good cli_options a) -> unset args "inprocessing" ->
  switch args "pre" true = false \/ switch args "elim" true = false -> switch args "test-proof" false = false ->
  program B w args = Silent \/ program B w args = Unmodelled \/ exists code lines, program B w args = Exits code lines.
Proof.
  intros HC G U HE HT. destruct (called_report B w args cs HC G U HE) as [(code & E)|[E|[E|(os & kept & n & x & s & s' & EP & HA & E)]]]; eauto.
  rewrite E. destruct (report_defined B w os (loaded cs) (proof_name os n) (r_status x) (r_model x) (rev (cert (sv_d s'))) (lines0 os)) as [K|K]; auto.
  - intros HS. apply (answered_model args os kept w cs x s s' EP U HA HS).
  - intros _ K. exfalso. rewrite (done_bool args os kept "test-proof" false EP) in K; [congruence|vm_compute; reflexivity].
Qed.

(** ** The proof test *)
Lemma unit_clause cs : nonzero cs -> forall l, In [l] (problem (loaded cs)) -> exists z c, In c cs /\ zlit z = l /\ unit_of z c /\ z <> 0%Z.
Proof.
  intros NZ l Hl. destruct (readClauses_shape (clauses cs) [l] Hl) as (_ & _ & d & Hd & HS). apply in_map_iff in Hd. destruct Hd as (b & <- & Hb).
  assert (HI : In l (map zlit b)) by (apply HS; left; reflexivity). apply in_map_iff in HI. destruct HI as (z & <- & Hz). exists z, b. split; [exact Hb|]. split; [reflexivity|].
  split; [|apply (NZ b z Hb Hz)]. split; [intros ->; destruct Hz|]. intros y Hy.
  assert (K : In (zlit y) [zlit z]) by (apply HS; apply in_map; exact Hy). destruct K as [K|[]]. symmetry. apply zlit_inj; [apply (NZ b z Hb Hz)|apply (NZ b y Hb Hy)|exact K].
Qed.
Lemma loaded_units cs : nonzero cs -> ~ contradictory_units cs -> forall l, In [l] (problem (loaded cs)) -> ~ In [lneg l] (problem (loaded cs)).
Proof.
  intros NZ H l H1 H2. destruct (unit_clause cs NZ l H1) as (z & c & C1 & C2 & C3 & C4). destruct (unit_clause cs NZ _ H2) as (y & c' & D1 & D2 & D3 & D4).
  apply H. exists z, c, c'. split; [exact C1|]. split; [exact D1|]. split; [exact C3|]. replace (- z)%Z with y; [exact D3|].
  apply zlit_inj; [exact D4|lia|]. rewrite zlit_neg by exact C4. congruence.
Qed.
Lemma answered_check args os kept n w cs x s s' : parse_options true cli_options args = Done os kept -> unset args "inprocessing" -> switch args "pre" true = false -> switch args "test-proof" false = true ->
  (forall f, w_writable w f = true) -> List.length (w_junk w 1) = buffer_size -> ~ contradictory_units cs -> nonzero cs -> answered w os cs x s s' ->
  get_bool os "test-proof" = true /\ (forall ls, proof_file w (proof_name os n) ls = Some (print_proof ls)) /\
  (r_status x = Some false -> check_proof_file buffer_size (w_junk w 1) (print_proof (rev (cert (sv_d s')))) (variables (loaded cs)) (problem (loaded cs)) = POk (Ok true)).
Proof.
  intros EP U HP HT HW HJ HN NZ HA.
  assert (TP : get_bool os "test-proof" = true) by (rewrite (done_bool args os kept "test-proof" false EP); [exact HT|vm_compute; reflexivity]). split; [exact TP|]. split.
  - intros ls. unfold proof_file, proof_name. rewrite TP, HW. cbn [andb]. destruct (String.eqb n "") eqn:EN; [reflexivity|rewrite EN; reflexivity].
  - intros HS. destruct HA as (E1 & O & E2). destruct (init_reach _ cs s E1) as (R & HV & A). destruct (cfg_safe args os kept EP U (or_introl HP)) as (S1 & _).
    assert (S2 : c_pre (cfg_of os) = false) by (unfold cfg_of, c_pre; rewrite (done_bool args os kept "pre" true EP); [exact HP|vm_compute; reflexivity]).
    rewrite <- HV. apply (solver_file (cfg_of os) (problem (loaded cs)) s O (w_fuel w) x s'); auto.
    + apply loaded_units; assumption.
    + apply (conflict_nil _ _ _ _ _ _ _ R A E2 HS).
    + rewrite HV. apply (last_bound cs); [exact NZ|]. apply loaded_last. exact NZ.
Qed.
(** what the tests say *)
Lemma report_test B w os p name r m ls code lines : report B w os p name r m ls (lines0 os) = Exits code lines ->
  (r = Some false -> get_bool os "test-proof" = true -> (exists text, proof_file w name ls = Some text /\ check_proof_file B (w_junk w 1) text (variables p) (problem p) = POk (Ok true)) -> In proof_verified lines /\ code = 0%Z) /\
  (r = Some true -> get_bool os "test-model" = true -> checkResult (problem p) m = Some true -> In model_verified lines /\ code = 0%Z).
Proof.
  intros K. destruct (report_cases _ _ _ _ _ _ _ _ _ _ _ K) as (vs & t & -> & _ & HT). split.
  - intros HS TP (text & PF & CK). destruct HT as [(_ & _ & _ & H)|[(H & _)|(_ & _ & text' & b & H1 & H2 & -> & ->)]]; [rewrite (H HS) in TP; discriminate|congruence|].
    rewrite PF in H1. injection H1 as <-. rewrite CK in H2. injection H2 as <-. split; [rewrite !in_app_iff; right; right; right; left; reflexivity|reflexivity].
  - intros HS TM CK. destruct HT as [(_ & _ & H & _)|[(_ & _ & b & H1 & -> & ->)|(H & _)]]; [rewrite (H HS) in TM; discriminate| |congruence].
    rewrite CK in H1. injection H1 as <-. split; [rewrite !in_app_iff; right; right; right; left; reflexivity|reflexivity].
Qed.
Lemma report_status B w os p name r m ls code lines b : report B w os p name r m ls (lines0 os) = Exits code lines -> (In (status_line b) lines <-> r = b).
Proof.
  intros E. split.
  - intros H. apply (report_line _ _ _ _ _ _ _ _ _ _ _ E) in H. destruct b as [[|]|]; which H; try discriminate H; destruct r as [[|]|]; try discriminate H; reflexivity.
  - intros <-. destruct (report_cases _ _ _ _ _ _ _ _ _ _ _ E) as (vs & t & -> & _). apply in_or_app. right. left. reflexivity.
Qed.
Lemma prog_proof_test w args cs : called_with buffer_size w args cs -> (forall a, In a args -> good cli_options a) -> unset args "inprocessing" ->
  switch args "pre" true = false -> switch args "test-proof" false = true -> (forall f, w_writable w f = true) -> List.length (w_junk w 1) = buffer_size -> ~ contradictory_units cs ->
  program buffer_size w args = Silent \/ program buffer_size w args = Unmodelled \/
  exists code lines, program buffer_size w args = Exits code lines /\ (In (bytes "s UNSATISFIABLE") lines -> In proof_verified lines).
Proof.
  intros HC G U HP HT HW HJ HN. assert (NZ := called_nz _ _ _ _ HC). destruct (called_report buffer_size w args cs HC G U (or_introl HP)) as [(code & E)|[E|[E|(os & kept & n & x & s & s' & EP & HA & E)]]]; auto.
  - right. right. exists code, []. split; [exact E|intros []].
  - destruct (answered_check args os kept n w cs x s s' EP U HP HT HW HJ HN NZ HA) as (TP & PF & CK).
    right. destruct (report_defined buffer_size w os (loaded cs) (proof_name os n) (r_status x) (r_model x) (rev (cert (sv_d s'))) (lines0 os)) as [K|(code & lines & K)].
    + intros HS. apply (answered_model args os kept w cs x s s' EP U HA HS).
    + intros HS _. exists (print_proof (rev (cert (sv_d s')))). split; [apply PF|apply CK; exact HS].
    + left. congruence.
    + right. exists code, lines. split; [congruence|]. intros HI. apply (report_status _ _ _ _ _ _ _ _ _ _ (Some false) K) in HI.
      destruct (report_test _ _ _ _ _ _ _ _ _ _ K) as (T & _). apply (T HI TP). exists (print_proof (rev (cert (sv_d s')))). split; [apply PF|apply CK; exact HI].
Qed.

(** ** The form of the output *)
Lemma print_values_head m vs t : print_values m vs = Some t -> exists u, t = 32 :: u.
Proof.
  destruct vs as [|v r]; cbn [print_values]; [intros E; injection E as <-; eexists; reflexivity|]. destruct (CNFModel.value m v); [|discriminate].
  destruct (print_values m r); intros E; [|discriminate]. injection E as <-. eexists. reflexivity.
Qed.
Lemma prog_lines B w args cs code lines t : called_with B w args cs -> switch args "use-lrb" false = false -> program B w args = Exits code lines -> In t lines ->
  starts "c " t = true \/ starts "v " t = true \/ In t [bytes "s SATISFIABLE"; bytes "s UNSATISFIABLE"; bytes "s INDETERMINATE"].
Proof.
  intros HC HL E Ht. destruct (ran_of _ _ _ _ _ _ _ HC E Ht) as (os & x & s & s' & R). destruct R as (kept & n & EP & _ & _ & ER).
  apply (report_line _ _ _ _ _ _ _ _ _ _ _ ER) in Ht. destruct Ht as [(_ & Ht)|[->|[(y & Hy & _ & Ht)|[(_ & [|] & _ & -> & _)|(_ & ? & [|] & _ & _ & -> & _)]]]]; try (left; reflexivity).
  - rewrite (done_bool args os kept "use-lrb" false EP) in Ht; [congruence|vm_compute; reflexivity].
  - right. right. cbn [In]. destruct (r_status x) as [[|]|]; auto.
  - right. left. unfold value_line in Ht. destruct (print_values _ _) as [u|] eqn:EU; [|discriminate]. apply print_values_head in EU. destruct EU as (z & ->). injection Ht as <-. reflexivity.
Qed.
Definition status (t : list nat) : bool := starts "s " t.
Lemma prog_one_status B w args cs code lines : called_with B w args cs -> program B w args = Exits code lines ->
  lines = [] \/ exists b, filter status lines = [status_line b].
Proof.
  intros HC E. destruct lines as [|t0 lines0']; [auto|right]. destruct (ran_of _ _ _ _ _ _ t0 HC E (or_introl eq_refl)) as (os & x & s & s' & R). remember (t0 :: lines0') as lines eqn:EL. clear EL.
  destruct R as (kept & n & EP & _ & _ & ER). exists (r_status x). destruct (report_cases _ _ _ _ _ _ _ _ _ _ _ ER) as (vs & t & -> & HV & HT). rewrite !filter_app.
  assert (H0 : filter status (lines0 os) = []) by (unfold lines0; destruct (get_bool os "use-lrb"); reflexivity).
  assert (H1 : filter status [status_line (r_status x)] = [status_line (r_status x)]) by (destruct (r_status x) as [[|]|]; reflexivity).
  assert (H2 : filter status vs = []).
  { destruct HV as [(-> & _)|(v & -> & _ & HV)]; [reflexivity|]. destruct (value_line_head _ _ _ HV) as (u & ->). destruct u; reflexivity. }
  assert (H3 : filter status t = []).
  { destruct HT as [(-> & _)|[(_ & _ & b & _ & -> & _)|(_ & _ & text & b & _ & _ & -> & _)]]; [reflexivity|destruct b; reflexivity..]. }
  rewrite H0, H1, H2, H3. reflexivity.
Qed.
Lemma done_limit B w args cs code : called_with B w args cs -> (forall a, In a args -> good cli_options a) -> unset args "test-limit" -> program B w args <> Exits code [].
Proof.
  intros HC G U E. rewrite (called_program B w args cs HC) in E. destruct (cli_values args G) as (os & EP & _). rewrite EP in E.
  unfold with_problem in E. rewrite (done_int args os _ "test-limit" 0 0 1000 EP U) in E by (vm_compute; reflexivity). cbn [Z.ltb Z.compare andb] in E.
  destruct (text_output args os _ G EP) as (n & EN). rewrite EN in E.
  assert (E' : (if get_bool os "gate-stats" then Unmodelled else run B w os (loaded cs) (proof_name os n)) = Exits code []) by (destruct (get_bool os "test-proof"); exact E).
  destruct (get_bool os "gate-stats"); [discriminate|]. unfold run in E'. destruct (unmodelled os); [discriminate|]. destruct (solver_init _ _ _ _) as [s|er]; cbn [bind] in E'; [|destruct er; discriminate].
  destruct (rsolve _ _ _ _ _ s) as [((x & q') & s')|er]; [|destruct er; discriminate]. destruct (report_cases _ _ _ _ _ _ _ _ _ _ _ E') as (vs & t & K & _). apply (f_equal (@List.length _)) in K. rewrite !app_length in K. cbn in K. lia.
Qed.
