(** The program answers. *)
Require Import List Arith ZArith NArith Lia String Ascii Bool.
Require Import Verif.Base Verif.Outcome Verif.OptModel Verif.OptSpec Verif.OptProofs Verif.CNFModel Verif.CNFSpec Verif.CNFProofs Verif.DimacsModel Verif.DimacsSpec Verif.DimacsProofs
  Verif.DimacsMore Verif.DbModel Verif.SolverModel Verif.PropSpec Verif.SolverSpec Verif.SolverBase Verif.SolverProofs Verif.SolverLemmas Verif.SolverElim Verif.IpasirProofs
  Verif.DRATModel Verif.DRATProofs Verif.DratFileModel Verif.DratFileProofs Verif.DratTextModel Verif.DratTextSolver Verif.MainModel Verif.MainSpec Verif.MainOpt Verif.MainProofs Verif.MainMore
  Verif.RestartModel Verif.RestartSpec Verif.RestartProofs Verif.RestartCount Verif.RestartLemmas Verif.MainDef Verif.SimpModel.
Import ListNotations.
Open Scope list_scope.

Lemma init_total n cs s : ev (sv_e s) = [] -> (N.of_nat n < 65535)%N -> Forall (clause_ok n) cs -> exists s', solver_init n cs true s = Ok s'.
Proof.
  intros HE HN HC. unfold solver_init. destruct (db_init n cs true (sv_d s)) as [d1|er] eqn:E; cbn [bind].
  - rewrite init_undo_none by auto. cbn [bind]. eexists. reflexivity.
  - exfalso. apply create_all_err in E. destruct E as (_ & c & Hc & HL). rewrite Forall_forall in HC. assert (L := wfc_length n c (HC c Hc)). lia.
Qed.
Lemma plain_modelled args os kept : plain_mode args -> parse_options true cli_options args = Done os kept ->
  unmodelled os = false /\ get_bool os "gate-stats" = false /\ get_bool os "minimize" = false.
Proof.
  intros (P0 & P1 & P2 & P3 & P4 & P5 & P6) E. unfold unmodelled.
  rewrite (done_int args os kept "threads" 1 1 16 E P0) by (vm_compute; reflexivity).
  rewrite (done_bool args os kept "rsar-enable" false E), P1 by (vm_compute; reflexivity).
  rewrite (done_bool args os kept "static-propagate" false E), P2 by (vm_compute; reflexivity).
  rewrite (done_bool args os kept "rsil-enable" false E), P3 by (vm_compute; reflexivity).
  rewrite (done_bool args os kept "use-vsidsc" false E), P4 by (vm_compute; reflexivity).
  rewrite (done_bool args os kept "gate-stats" false E), P5 by (vm_compute; reflexivity).
  rewrite (done_bool args os kept "minimize" false E), P6 by (vm_compute; reflexivity).
  rewrite andb_false_r. auto.
Qed.
(** what the solver says *)
Lemma called_answer B args cs : (forall a, In a args -> good cli_options a) -> plain_mode args -> unset args "test-limit" -> unset args "inprocessing" -> unset args "incReduceDB" ->
  switch args "pre" true = false \/ switch args "elim" true = false -> (forall c z, In c cs -> In z c -> (Z.abs z < 65535)%Z) -> exists N, forall w, called_with B w args cs -> (forall k, o_term (w_oracle w) k = false) -> N <= w_fuel w ->
  exists os kept n x s s' b, parse_options true cli_options args = Done os kept /\ get_text os "certified-output" = Ok n /\ answered w os cs x s s' /\
    program B w args = report B w os (loaded cs) (proof_name os n) (r_status x) (r_model x) (rev (cert (sv_d s'))) (lines0 os) /\
    r_status x = Some b /\ (b = true <-> satisfiable (clauses cs)).
Proof.
  intros G P U1 U2 U3 HP HV. destruct (cli_values args G) as (os & EP & _). destruct (text_output args os _ G EP) as (n & EN). destruct (plain_modelled args os _ P EP) as (M1 & M2 & M3).
  destruct (cfg_safe args os _ EP U2 HP) as (S1 & S2).
  assert (S3 : (0 < c_inc (cfg_of os))%N) by (unfold cfg_of, c_inc; rewrite (done_int args os _ "incReduceDB" 1300 0 smax EP U3) by (vm_compute; reflexivity); vm_compute; reflexivity).
  destruct (good_queues args os _ G EP) as (_ & Q1 & Q2).
  destruct (N.ltb_spec (N.of_nat (variables (loaded cs))) 65535) as [HN|HN].
  2: { exists 0. intros w HC. exfalso. destruct (loaded_last cs (called_nz _ _ _ _ HC)) as (_ & [L|(c & z & Hc & Hz & L)]); [lia|]. specialize (HV c z Hc Hz). lia. }
  destruct (init_total (variables (loaded cs)) (problem (loaded cs)) (solver_new (cfg_of os)) eq_refl HN (loaded_ok cs)) as (s & EI).
  destruct (init_reach _ cs s EI) as (R & NV & A).
  destruct (first_decides (cfg_of os) (N.to_nat (u32 (get_int os "szLBDQueue"))) (N.to_nat (u32 (get_int os "szTrailQueue"))) _ s S2 S1 S3 Q1 Q2 ltac:(rewrite NV; exact HN) R) as (N & HD).
  exists N. intros w HC HT Hf.
  destruct (HD (w_oracle w) (w_block w) (w_fuel w) HT Hf) as (x & q' & s' & b & ES & EB & HB). exists os, (filter (fun a => negb (flag a)) args), n, x, s, s', b.
  split; [exact EP|]. split; [exact EN|]. split; [split; [exact EI|]; destruct (rsolve_solve _ _ _ _ _ _ _ _ _ ES) as (f & Ef); eexists; exact Ef|]. split; [|split; [exact EB|]].
  - rewrite (called_program B w args cs HC), EP, (with_problem_ok B w os (loaded cs) n EN). rewrite (done_int args os _ "test-limit" 0 0 1000 EP U1) by (vm_compute; reflexivity).
    cbn [Z.ltb Z.compare andb]. rewrite M2. unfold run. rewrite M1, EI. cbn [bind]. unfold rst_of. rewrite ES. reflexivity.
  - rewrite A in HB. cbn [units map app] in HB. rewrite app_nil_r in HB. rewrite HB. split; intros (a & Ha); exists a; apply loaded_sat; exact Ha.
Qed.
Lemma decided b cs : (b = true <-> satisfiable (clauses cs)) -> (Some b = Some true <-> satisfiable (clauses cs)) /\ (Some b = Some false <-> unsat (clauses cs)).
Proof.
  intros H. split; [rewrite <- H; split; congruence|]. split.
  - intros E a Ha. assert (b = true) by (apply H; exists a; exact Ha). congruence.
  - intros U. destruct b; [|reflexivity]. exfalso. destruct (proj1 H eq_refl) as (a & Ha). exact (U a Ha).
Qed.
Lemma prog_answers B args cs : (forall a, In a args -> good cli_options a) -> plain_mode args -> unset args "test-limit" -> unset args "inprocessing" -> unset args "incReduceDB" ->
  switch args "pre" true = false \/ switch args "elim" true = false -> switch args "test-proof" false = false -> (forall c z, In c cs -> In z c -> (Z.abs z < 65535)%Z) ->
  exists N, forall w, called_with B w args cs -> (forall k, o_term (w_oracle w) k = false) -> N <= w_fuel w ->
  exists code lines, program B w args = Exits code lines /\
    (In (bytes "s SATISFIABLE") lines <-> satisfiable (clauses cs)) /\ (In (bytes "s UNSATISFIABLE") lines <-> unsat (clauses cs)).
Proof.
  intros G P U1 U2 U3 HP HT HV. destruct (called_answer B args cs G P U1 U2 U3 HP HV) as (N & HN). exists N. intros w HC HO Hf.
  destruct (HN w HC HO Hf) as (os & kept & n & x & s & s' & b & EP & EN & HA & E & EB & HB). destruct (plain_modelled args os _ P EP) as (_ & _ & M3).
  destruct (report_defined B w os (loaded cs) (proof_name os n) (r_status x) (r_model x) (rev (cert (sv_d s'))) (lines0 os)) as [K|(code & lines & K)].
  - intros HS. apply (answered_model args os kept w cs x s s' EP U2 HA HS).
  - intros _ K. exfalso. rewrite (done_bool args os kept "test-proof" false EP) in K; [congruence|vm_compute; reflexivity].
  - exfalso. unfold report in K. rewrite M3 in K. unfold self_test in K. rewrite (done_bool args os kept "test-proof" false EP), HT in K by (vm_compute; reflexivity).
    destruct (r_status x) as [[|]|]; [|discriminate..]. destruct (get_bool os "model"), (get_bool os "test-model"); [| | |discriminate];
      repeat match type of K with context [match ?y with _ => _ end] => destruct y end; discriminate.
  - exists code, lines. split; [congruence|]. destruct (decided b cs HB) as (D1 & D2). rewrite <- D1, <- D2, <- EB.
    split; [apply (report_status _ _ _ _ _ _ _ _ _ _ (Some true) K)|apply (report_status _ _ _ _ _ _ _ _ _ _ (Some false) K)].
Qed.
(** the same with the elimination of variables, where the program can crash *)
Lemma prog_ends B args cs O : (forall a, In a args -> good cli_options a) -> plain_mode args -> unset args "test-limit" -> unset args "inprocessing" -> unset args "incReduceDB" -> unset args "cl-lim" ->
  switch args "test-proof" false = false -> (forall c z, In c cs -> In z c -> (Z.abs z < 65535)%Z) -> (forall k, o_term O k = false) ->
  exists N, forall w, called_with B w args cs -> w_oracle w = O -> N <= w_fuel w ->
  program B w args = Crashes /\ satisfiable (clauses cs) \/ exists code lines, program B w args = Exits code lines /\
    (In (bytes "s SATISFIABLE") lines <-> satisfiable (clauses cs)) /\ (In (bytes "s UNSATISFIABLE") lines <-> unsat (clauses cs)).
Proof.
  intros G P U1 U2 U3 U4 HT HV HO. destruct (cli_values args G) as (os & EP & _). destruct (text_output args os _ G EP) as (n & EN). destruct (plain_modelled args os _ P EP) as (M1 & M2 & M3).
  assert (S1 := inproc_unset args os _ EP U2).
  assert (S3 : (0 < c_inc (cfg_of os))%N) by (unfold cfg_of, c_inc; rewrite (done_int args os _ "incReduceDB" 1300 0 smax EP U3) by (vm_compute; reflexivity); vm_compute; reflexivity).
  assert (S4 : c_lim (cfg_of os) = 20) by (unfold cfg_of, c_lim; rewrite (done_int args os _ "cl-lim" 20 0 imax EP U4) by (vm_compute; reflexivity); vm_compute; reflexivity).
  destruct (good_queues args os _ G EP) as (_ & Q1 & Q2).
  destruct (N.ltb_spec (N.of_nat (variables (loaded cs))) 65535) as [HN|HN].
  2: { exists 0. intros w HC. exfalso. destruct (loaded_last cs (called_nz _ _ _ _ HC)) as (_ & [L|(c & z & Hc & Hz & L)]); [lia|]. specialize (HV c z Hc Hz). lia. }
  destruct (init_total (variables (loaded cs)) (problem (loaded cs)) (solver_new (cfg_of os)) eq_refl HN (loaded_ok cs)) as (s & EI).
  destruct (init_reach _ cs s EI) as (R & NV & A).
  destruct (default_decides (cfg_of os) (N.to_nat (u32 (get_int os "szLBDQueue"))) (N.to_nat (u32 (get_int os "szTrailQueue"))) _ s O S1 S3 ltac:(intros _; rewrite S4; lia) Q1 Q2 ltac:(rewrite NV; exact HN) R HO) as (N & HD).
  exists N. intros w HC HW Hf. subst O.
  assert (EQ : program B w args = match rsolve (cfg_of os) (w_oracle w) (w_block w) (w_fuel w) (rst_of os) s with
    | Err UB => Crashes | Err _ => Silent | Ok (x, _, s) => report B w os (loaded cs) (proof_name os n) (r_status x) (r_model x) (rev (cert (sv_d s))) (lines0 os) end).
  { rewrite (called_program B w args cs HC), EP, (with_problem_ok B w os (loaded cs) n EN). rewrite (done_int args os _ "test-limit" 0 0 1000 EP U1) by (vm_compute; reflexivity).
    cbn [Z.ltb Z.compare andb]. rewrite M2. unfold run. rewrite M1, EI. cbn [bind]. reflexivity. }
  unfold rst_of in EQ. destruct (HD (w_block w) (w_fuel w) Hf) as [(E & HS)|(x & q' & s' & b & ES & EB & HB)]; [rewrite E in EQ; left; split; [exact EQ|]|right].
  { rewrite A in HS. cbn [units map app] in HS. rewrite app_nil_r in HS. destruct HS as (a & Ha). exists a. apply loaded_sat. exact Ha. }
  rewrite ES in EQ.
  assert (HA : answered w os cs x s s') by (split; [exact EI|]; destruct (rsolve_solve _ _ _ _ _ _ _ _ _ ES) as (f & Ef); eexists; exact Ef).
  rewrite A in HB. cbn [units map app] in HB. rewrite app_nil_r in HB.
  assert (HB' : b = true <-> satisfiable (clauses cs)) by (rewrite HB; split; intros (a & Ha); exists a; apply loaded_sat; exact Ha).
  destruct (report_defined B w os (loaded cs) (proof_name os n) (r_status x) (r_model x) (rev (cert (sv_d s'))) (lines0 os)) as [K|(code & lines & K)].
  - intros HS. apply (answered_model args os _ w cs x s s' EP U2 HA HS).
  - intros _ K. exfalso. rewrite (done_bool args os _ "test-proof" false EP) in K; [congruence|vm_compute; reflexivity].
  - exfalso. unfold report in K. rewrite M3 in K. unfold self_test in K. rewrite (done_bool args os _ "test-proof" false EP), HT in K by (vm_compute; reflexivity).
    destruct (r_status x) as [[|]|]; [|discriminate..]. destruct (get_bool os "model"), (get_bool os "test-model"); [| | |discriminate];
      repeat match type of K with context [match ?y with _ => _ end] => destruct y end; discriminate.
  - exists code, lines. split; [congruence|]. destruct (decided b cs HB') as (D1 & D2). rewrite <- D1, <- D2, <- EB.
    split; [apply (report_status _ _ _ _ _ _ _ _ _ _ (Some true) K)|apply (report_status _ _ _ _ _ _ _ _ _ _ (Some false) K)].
Qed.
Lemma prog_tested args cs : (forall a, In a args -> good cli_options a) -> plain_mode args -> unset args "test-limit" -> unset args "inprocessing" -> unset args "incReduceDB" ->
  switch args "pre" true = false -> switch args "test-proof" false = true -> switch args "test-model" false = true -> (forall c z, In c cs -> In z c -> (Z.abs z < 65535)%Z) -> ~ contradictory_units cs ->
  exists N, forall w, called_with buffer_size w args cs -> (forall f, w_writable w f = true) -> List.length (w_junk w 1) = buffer_size -> (forall k, o_term (w_oracle w) k = false) -> N <= w_fuel w ->
  exists lines, program buffer_size w args = Exits 0 lines /\
    (In (bytes "s SATISFIABLE") lines /\ In model_verified lines /\ satisfiable (clauses cs) \/ In (bytes "s UNSATISFIABLE") lines /\ In proof_verified lines /\ unsat (clauses cs)).
Proof.
  intros G P U1 U2 U3 HP HT HM HV HN. destruct (called_answer buffer_size args cs G P U1 U2 U3 (or_introl HP) HV) as (N & HN'). exists N. intros w HC HW HJ HO Hf.
  destruct (HN' w HC HO Hf) as (os & kept & n & x & s & s' & b & EP & EN & HA & E & EB & HB). destruct (plain_modelled args os _ P EP) as (_ & _ & M3).
  destruct (answered_check args os kept n w cs x s s' EP U2 HP HT HW HJ HN (called_nz _ _ _ _ HC) HA) as (TP & PF & CK). destruct (decided b cs HB) as (D1 & D2). rewrite <- EB in D1, D2.
  assert (TM : get_bool os "test-model" = true) by (rewrite (done_bool args os kept "test-model" false EP); [exact HM|vm_compute; reflexivity]).
  assert (MS := fun HS => answered_model args os kept w cs x s s' EP U2 HA HS).
  assert (PC : r_status x = Some false -> exists text, proof_file w (proof_name os n) (rev (cert (sv_d s'))) = Some text /\ check_proof_file buffer_size (w_junk w 1) text (variables (loaded cs)) (problem (loaded cs)) = POk (Ok true)).
  { intros HS. exists (print_proof (rev (cert (sv_d s')))). split; [apply PF|apply CK; exact HS]. }
  destruct (report_defined buffer_size w os (loaded cs) (proof_name os n) (r_status x) (r_model x) (rev (cert (sv_d s'))) (lines0 os) MS (fun HS _ => PC HS)) as [K|(code & lines & K)].
  - exfalso. unfold report in K. rewrite M3 in K. unfold self_test in K. rewrite TP, TM in K. destruct (r_status x) as [[|]|]; [| |discriminate].
    + destruct (MS eq_refl) as (M & T). rewrite (model_sat_check _ _ M) in K. destruct (value_line_some _ _ T) as (v & Ev). rewrite Ev in K. destruct (get_bool os "model"); discriminate.
    + destruct (PC eq_refl) as (text & P1 & P2). rewrite P1, P2 in K. discriminate.
  - destruct (report_test _ _ _ _ _ _ _ _ _ _ K) as (T1 & T2). destruct b.
    + destruct (T2 EB TM (model_sat_check _ _ (proj1 (MS EB)))) as (V & ->). exists lines. split; [congruence|]. left.
      split; [apply (report_status _ _ _ _ _ _ _ _ _ _ (Some true) K); exact EB|]. split; [exact V|apply D1; exact EB].
    + destruct (T1 EB TP (PC EB)) as (V & ->). exists lines. split; [congruence|]. right.
      split; [apply (report_status _ _ _ _ _ _ _ _ _ _ (Some false) K); exact EB|]. split; [exact V|apply D2; exact EB].
Qed.
