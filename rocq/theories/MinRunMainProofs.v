(** The program with the option minimize answers. *)
Require Import List Arith ZArith NArith Lia String Ascii Bool.
Require Import Verif.Base Verif.Outcome Verif.OptModel Verif.OptSpec Verif.OptProofs Verif.CNFModel Verif.CNFProofs Verif.DimacsModel Verif.DimacsSpec Verif.DimacsProofs Verif.DimacsMore Verif.DbModel Verif.SolverModel
  Verif.SolverSpec Verif.RestartModel Verif.RestartSpec Verif.RestartProofs Verif.RestartLemmas Verif.DRATModel Verif.DratFileModel Verif.GateModel Verif.GateSpec Verif.GateMore Verif.MinModel Verif.MinSpec Verif.MinMore Verif.AigText Verif.AigText Verif.MainModel Verif.MainSpec
  Verif.MainOpt Verif.MainProofs Verif.MainMore Verif.MainDef Verif.MainTerm Verif.MinMainModel Verif.MinMainSpec Verif.MinMainProofs Verif.MinRunModel Verif.MinRunProofs Verif.MinRunMainModel Verif.MinRunMainSpec.
Import ListNotations.
Open Scope list_scope.

Lemma bound_all v (b : bool) : (Z.of_nat v < if b then 13107 else 65535)%Z -> (N.of_nat v < 65535)%N.
Proof. destruct b; lia. Qed.
Lemma bound_five v (b : bool) : (Z.of_nat v < if b then 13107 else 65535)%Z -> b = true -> (N.of_nat (5 * v) < 65535)%N.
Proof. intros H ->. lia. Qed.
Section Program.
Variables (MO : nat -> oracle) (MB : nat -> N -> bool) (G : GateModel.config).
Lemma called_rmin B w args cs : called_with B w args cs -> rmin_program MO MB G B w args =
  match parse_options true cli_options args with Help => Exits 0 [] | Unknown _ => Exits 1 [] | Range => Exits 1 [] | Done os _ => rmin_with_problem MO MB G B w os (loaded cs) end.
Proof.
  intros (text & (G1 & G2) & HB & HJ & ml & D1 & D2 & D3). unfold rmin_program. destruct (parse_options true cli_options args) as [os kept| | |] eqn:E; try reflexivity.
  apply cli_done in E. destruct E as (_ & ->). rewrite G1. assert (RD := readDimacs_ok B ml (w_junk w 0) text cs cnf_empty HB HJ D2 D3 D1).
  destruct (wanted args) as [|f|]; [| |destruct G2]; rewrite G2, RD; reflexivity.
Qed.
Lemma rmin_problem_ok B w os p n : get_text os "certified-output" = Ok n -> rmin_with_problem MO MB G B w os p =
  if ((0 <? get_int os "test-limit")%Z && (get_int os "test-limit" <? Z.of_nat (variables p))%Z)%bool then Exits 0 []
  else if get_bool os "gate-stats" then Unmodelled else rmin_run MO MB G B w os p (proof_name os n).
Proof. intros E. unfold rmin_with_problem. rewrite E. destruct (get_bool os "test-proof"); reflexivity. Qed.
(** what it prints the program of C66 prints *)
Lemma rmin_program_refine B w args code lines : rmin_program MO MB G B w args = Exits code lines ->
  exists f, min_program (restarting f MO) G B w args = Exits code lines.
Proof.
  unfold rmin_program, min_program. intros E. destruct (parse_options true cli_options args) as [os kept| | |]; try (exists (fun _ _ => false); exact E).
  destruct (match main_input (w_garbage w) args kept with Stdin => _ | File f => _ | NullName => _ end) as [[text|]|]; try (exists (fun _ _ => false); exact E).
  destruct (readDimacs _ _ _ _) as [p| | |]; try (exists (fun _ _ => false); exact E).
  unfold rmin_with_problem, min_with_problem in *. unfold rmin_run, min_run in *.
  assert (R : forall name r m ls l0, rmin_report MO MB G B w os p name r m ls l0 = Exits code lines -> exists f, min_report (restarting f MO) G B w os p name r m ls l0 = Exits code lines).
  { intros name r m ls l0 H. unfold rmin_report, min_report in *. destruct r as [[|]|]; try (exists (fun _ _ => false); exact H). destruct (get_bool os "minimize"); [|exists (fun _ _ => false); exact H].
    destruct (rmimimizeModel _ _ _ _ _ _ _ _ _ _ _ _) as [mm|[]] eqn:EM; try discriminate. destruct (rmin_refine _ _ _ _ _ _ _ _ _ _ _ _ _ EM) as (f & Ef). exists f.
    change (fun k => uninterrupted (restarting f MO k)) with (fun j => with_restart (f j) (uninterrupted (MO j))). rewrite Ef. exact H. }
  destruct (get_text os "certified-output") as [n|er], (get_bool os "test-proof"); try (exists (fun _ _ => false); exact E);
  (destruct ((0 <? _)%Z && _)%bool; [exists (fun _ _ => false); exact E|]; destruct (get_bool os "gate-stats"); [exists (fun _ _ => false); exact E|]; try (exists (fun _ _ => false); exact E);
   destruct (unmodelled os); [exists (fun _ _ => false); exact E|]; destruct (bind _ _) as [((x & q) & s)|er']; [|exists (fun _ _ => false); exact E]; apply R; exact E).
Qed.

Lemma self_sat B w os p name m ls l : model_sat m (problem p) -> exists code t, self_test B w os p name (Some true) m ls l = Exits code (l ++ t) /\ (t = [] \/ t = [model_verified]).
Proof.
  intros M. unfold self_test. rewrite (model_sat_check _ _ M). destruct (get_bool os "test-model"); [exists 0%Z, [model_verified]; auto|exists 10%Z, []; rewrite app_nil_r; auto].
Qed.
Lemma rmin_answers B w args cs : called_with B w args cs -> (forall a, In a args -> good cli_options a) ->
  unset args "threads" -> switch args "rsar-enable" false = false -> switch args "static-propagate" false = false -> switch args "rsil-enable" false = false ->
  switch args "use-vsidsc" false = false -> switch args "gate-stats" false = false ->
  unset args "test-limit" -> unset args "inprocessing" -> unset args "incReduceDB" -> switch args "pre" true = false -> switch args "test-proof" false = false ->
  (forall c z, In c cs -> In z c -> (Z.abs z < if switch args "minimize-minimal" false then 13107 else 65535)%Z) -> (forall k, o_term (w_oracle w) k = false) ->
  exists N, forall fuel, N <= fuel -> exists code lines, rmin_program MO MB G B (with_fuel fuel w) args = Exits code lines /\
    (In (bytes "s SATISFIABLE") lines <-> satisfiable (clauses cs)) /\ (In (bytes "s UNSATISFIABLE") lines <-> unsat (clauses cs)).
Proof.
  intros HC GD P0 P1 P2 P3 P4 P5 U1 U2 U3 HP HT HV HO. destruct (cli_values args GD) as (os & EP & _). destruct (text_output args os _ GD EP) as (n & EN).
  set (kept := filter (fun a => negb (flag a)) args) in *.
  assert (UM : unmodelled os = false).
  { unfold unmodelled. rewrite (done_int args os kept "threads" 1 1 16 EP P0) by (vm_compute; reflexivity).
    rewrite (done_bool args os kept "rsar-enable" false EP), (done_bool args os kept "static-propagate" false EP), (done_bool args os kept "rsil-enable" false EP), (done_bool args os kept "use-vsidsc" false EP), P1, P2, P3, P4 by (vm_compute; reflexivity).
    rewrite andb_false_r. reflexivity. }
  assert (GS : get_bool os "gate-stats" = false) by (rewrite (done_bool args os kept "gate-stats" false EP); [exact P5|vm_compute; reflexivity]).
  assert (MM : get_bool os "minimize-minimal" = switch args "minimize-minimal" false) by (apply (done_bool args os kept "minimize-minimal" false EP); vm_compute; reflexivity).
  assert (TP : get_bool os "test-proof" = false) by (rewrite (done_bool args os kept "test-proof" false EP); [exact HT|vm_compute; reflexivity]).
  assert (S1 := inproc_unset args os _ EP U2).
  assert (S2 : c_pre (cfg_of os) = false) by (unfold cfg_of, c_pre; rewrite (done_bool args os kept "pre" true EP); [exact HP|vm_compute; reflexivity]).
  assert (S3 : (0 < c_inc (cfg_of os))%N) by (unfold cfg_of, c_inc; rewrite (done_int args os _ "incReduceDB" 1300 0 smax EP U3) by (vm_compute; reflexivity); vm_compute; reflexivity).
  destruct (good_queues args os _ GD EP) as (_ & Q1 & Q2).
  assert (VB : (Z.of_nat (variables (loaded cs)) < if switch args "minimize-minimal" false then 13107 else 65535)%Z).
  { destruct (loaded_last cs (called_nz _ _ _ _ HC)) as (_ & [L|(c & z & Hc & Hz & L)]); [rewrite L; destruct (switch args "minimize-minimal" false); reflexivity|]. rewrite <- L. exact (HV c z Hc Hz). }
  assert (HN : (N.of_nat (variables (loaded cs)) < 65535)%N) by (exact (bound_all _ _ VB)).
  assert (H5 : get_bool os "minimize-minimal" = true -> (N.of_nat (5 * variables (loaded cs)) < 65535)%N) by (rewrite MM; exact (bound_five _ _ VB)).
  destruct (init_total (variables (loaded cs)) (problem (loaded cs)) (solver_new (cfg_of os)) eq_refl HN (loaded_ok cs)) as (s & EI).
  destruct (init_reach _ cs s EI) as (R & NV & A).
  destruct (first_decides (cfg_of os) (N.to_nat (u32 (get_int os "szLBDQueue"))) (N.to_nat (u32 (get_int os "szTrailQueue"))) _ s (or_introl S2) S1 S3 Q1 Q2 ltac:(rewrite NV; exact HN) R) as (N & HD).
  destruct (HD (w_oracle w) (w_block w) N HO (le_n N)) as (x & q' & s' & b & ES & EB & HB).
  rewrite A in HB. cbn [units map app] in HB. rewrite app_nil_r in HB.
  assert (HB' : b = true <-> satisfiable (clauses cs)) by (rewrite HB; split; intros (a & Ha); exists a; apply loaded_sat; exact Ha).
  assert (EQ : forall fuel, N <= fuel -> rmin_program MO MB G B (with_fuel fuel w) args = rmin_report MO MB G B (with_fuel fuel w) os (loaded cs) (proof_name os n) (Some b) (r_model x) (rev (cert (sv_d s'))) (lines0 os)).
  { intros fuel Hf. rewrite (called_rmin B (with_fuel fuel w) args cs HC), EP, (rmin_problem_ok B _ os (loaded cs) n EN). rewrite (done_int args os _ "test-limit" 0 0 1000 EP U1) by (vm_compute; reflexivity).
    cbn [Z.ltb Z.compare andb]. rewrite GS. unfold rmin_run. rewrite UM, EI. cbn [bind]. cbn [w_oracle w_block w_fuel with_fuel]. unfold rst_of.
    rewrite (rsolve_mono _ _ _ S1 S2 N fuel _ _ _ Hf ES). rewrite EB. reflexivity. }
  destruct (decided b cs HB') as (D1 & D2).
  assert (LL : forall l0, lines0 os = l0 -> ~ In (bytes "s SATISFIABLE") l0 /\ ~ In (bytes "s UNSATISFIABLE") l0).
  { intros l0 <-. unfold lines0. destruct (get_bool os "use-lrb"); split; intros HX; cbn [In] in HX; try tauto; destruct HX as [HX|[]]; discriminate HX. }
  destruct b.
  - destruct (get_bool os "minimize") eqn:EM.
    + assert (HA : answered (with_fuel N w) os cs x s s') by (split; [exact EI|]; destruct (rsolve_solve _ _ _ _ _ _ _ _ _ ES) as (f & Ef); eexists; exact Ef).
      destruct (answered_model args os kept _ cs x s s' EP U2 HA EB) as (M & T). assert (W : wf_problem (variables (loaded cs)) (problem (loaded cs))) by apply read_wf.
      destruct (rmin_total (cfg_of os) (fun k => uninterrupted (MO k)) MB _ _ G (loaded cs) (r_model x) (get_bool os "minimize-pruned") (get_bool os "minimize-minimal") (get_bool os "minimize-project")
        S3 Q1 Q2 (fun _ _ => eq_refl) W T HN H5) as (N2 & mm & HM).
      exists (max N N2). intros fuel Hf. rewrite (EQ fuel (Nat.le_trans _ _ _ (Nat.le_max_l N N2) Hf)). unfold rmin_report. rewrite EM. cbn [w_fuel with_fuel]. rewrite (HM fuel (Nat.le_trans _ _ _ (Nat.le_max_r N N2) Hf)).
      destruct (self_sat B (with_fuel fuel w) os (loaded cs) (proof_name os n) (r_model x) (rev (cert (sv_d s')))
        (lines0 os ++ [status_line (Some true); size_line (getModelLiterals mm)] ++ (if get_bool os "model" then [kept_line (getModelLiterals mm)] else [])) M) as (code & t & E & Ht).
      exists code. eexists. split; [exact E|]. rewrite <- D1, <- D2. split; [split; [reflexivity|intros _; rewrite !in_app_iff; left; right; left; left; reflexivity]|]. split; [|discriminate].
      intros HX. exfalso. rewrite !in_app_iff in HX. destruct HX as [[HX|[[HX|[HX|[]]]|HX]]|HX].
      * exact (proj2 (LL _ eq_refl) HX).
      * discriminate HX.
      * discriminate HX.
      * destruct (get_bool os "model"); [destruct HX as [HX|[]]; discriminate HX|destruct HX].
      * destruct Ht as [Ht|Ht]; rewrite Ht in HX; [destruct HX|destruct HX as [HX|[]]; discriminate HX].
    + assert (HA : answered (with_fuel N w) os cs x s s') by (split; [exact EI|]; destruct (rsolve_solve _ _ _ _ _ _ _ _ _ ES) as (f & Ef); eexists; exact Ef).
      exists N. intros fuel Hf. rewrite (EQ fuel Hf). unfold rmin_report. rewrite EM.
      destruct (report_defined B (with_fuel fuel w) os (loaded cs) (proof_name os n) (Some true) (r_model x) (rev (cert (sv_d s'))) (lines0 os)) as [K|(code & lines & K)].
      * intros _. exact (answered_model args os kept _ cs x s s' EP U2 HA EB).
      * discriminate.
      * exfalso. unfold report in K. rewrite EM in K. destruct (get_bool os "model"); [destruct (value_line _ _); [|discriminate]|]; unfold self_test in K; destruct (get_bool os "test-model"); try discriminate; destruct (checkResult _ _) as [[|]|]; discriminate.
      * exists code, lines. split; [exact K|]. rewrite <- D1, <- D2. split; [apply (report_status _ _ _ _ _ _ _ _ _ _ (Some true) K)|apply (report_status _ _ _ _ _ _ _ _ _ _ (Some false) K)].
  - exists N. intros fuel Hf. rewrite (EQ fuel Hf). unfold rmin_report.
    destruct (report_defined B (with_fuel fuel w) os (loaded cs) (proof_name os n) (Some false) (r_model x) (rev (cert (sv_d s'))) (lines0 os)) as [K|(code & lines & K)].
    + discriminate.
    + intros _ K. congruence.
    + exfalso. unfold report, self_test in K. rewrite TP in K. discriminate.
    + exists code, lines. split; [exact K|]. rewrite <- D1, <- D2. split; [apply (report_status _ _ _ _ _ _ _ _ _ _ (Some true) K)|apply (report_status _ _ _ _ _ _ _ _ _ _ (Some false) K)].
Qed.
(** so C66 holds of it *)
Lemma rmin_printed B w args cs code lines : called_with B w args cs -> unset args "inprocessing" -> switch args "minimize" false = true ->
  rmin_program MO MB G B w args = Exits code lines -> In (bytes "s SATISFIABLE") lines ->
  exists a ks, sat a (clauses cs) /\ agrees a ks /\ ascending ks /\
    (switch args "minimize-pruned" false = false -> switch args "minimize-project" false = false -> prime_implicant ks (clauses cs)) /\
    (exists t, In t lines /\ says_size (List.length ks) t /\ forall t', In t' lines -> starts "c Minimized-Model-Size:" t' = true -> t' = t) /\
    (if switch args "model" false then exists t, In t lines /\ says_kept ks t /\ forall t', In t' lines -> starts "c Minimized-Model:" t' = true -> t' = t
     else forall t, In t lines -> starts "c Minimized-Model:" t = false) /\
    (forall t, In t lines -> starts "v" t = false).
Proof. intros HC U HM E H. destruct (rmin_program_refine B w args code lines E) as (f & Ef). exact (min_sat _ G B w args cs code lines HC U HM Ef H). Qed.
End Program.
