(** Proofs about the program with the option minimize. *)
Require Import List Arith ZArith NArith Lia String Ascii Bool.
Require Import Verif.Base Verif.Outcome Verif.OptModel Verif.OptSpec Verif.CNFModel Verif.CNFProofs Verif.DimacsModel Verif.DimacsSpec Verif.DimacsProofs Verif.DimacsMore Verif.DbModel Verif.SolverModel
  Verif.SolverSpec Verif.RestartModel Verif.RestartProofs Verif.DRATModel Verif.DratFileModel Verif.GateModel Verif.GateSpec Verif.MinModel Verif.MinSpec Verif.MinMore Verif.AigText Verif.MainModel Verif.MainSpec Verif.MainOpt
  Verif.MainProofs Verif.MainMore Verif.MainDef Verif.MinMainModel Verif.MinMainSpec.
Import ListNotations.
Open Scope list_scope.

Section MinMain.
Variables (MO : nat -> oracle) (G : GateModel.config).
Notation min_report := (min_report MO G).
Notation min_program := (min_program MO G).

Lemma min_report_same B w os p name r m ls l0 : r <> Some true \/ get_bool os "minimize" = false -> min_report B w os p name r m ls l0 = report B w os p name r m ls l0.
Proof. intros H. unfold MinMainModel.min_report. destruct r as [[|]|]; try reflexivity. destruct H as [H|H]; [congruence|rewrite H; reflexivity]. Qed.
Lemma same_program B w args : switch args "minimize" false = false -> min_program B w args = program B w args.
Proof.
  intros H. unfold MinMainModel.min_program, program. destruct (parse_options true cli_options args) as [os kept| | |] eqn:EP; try reflexivity.
  assert (M : get_bool os "minimize" = false) by (rewrite (done_bool args os kept "minimize" false EP); [exact H|vm_compute; reflexivity]).
  destruct (match main_input (w_garbage w) args kept with Stdin => _ | File f => _ | NullName => _ end) as [[text|]|]; try reflexivity.
  destruct (readDimacs _ _ _ _) as [p| | |]; try reflexivity. unfold min_with_problem, with_problem. unfold min_run, run. destruct (get_text os "certified-output") as [nm|]; [|reflexivity].
  destruct (unmodelled os); [reflexivity|]. destruct (bind _ _) as [((x & q) & s)|er]; [|reflexivity]. rewrite min_report_same by auto. reflexivity.
Qed.
(** the run with the minimiser *)
Definition minimised (B : nat) (w : world) (args : list string) (cs : list (list Z)) (os : list opt) (x : sresult) (s s' : SolverModel.solver) (e : ending) : Prop :=
  exists kept n, parse_options true cli_options args = Done os kept /\ answered w os cs x s s' /\ r_status x = Some true /\ get_bool os "minimize" = true /\
    min_report B w os (loaded cs) (proof_name os n) (Some true) (r_model x) (rev (cert (sv_d s'))) (lines0 os) = e.
Lemma min_link B w args cs : called_with B w args cs ->
  min_program B w args = program B w args \/ program B w args = Unmodelled /\ exists os x s s', minimised B w args cs os x s s' (min_program B w args).
Proof.
  intros HC. rewrite (called_program B w args cs HC). destruct HC as (text & (G1 & G2) & HB & HJ & ml & D1 & D2 & D3). unfold MinMainModel.min_program, minimised.
  destruct (parse_options true cli_options args) as [os kept| | |] eqn:E; auto.
  assert (K : kept = filter (fun a => negb (flag a)) args) by (apply cli_done in E; destruct E as (_ & E); exact E).
  rewrite K, G1. assert (RD := readDimacs_ok B ml (w_junk w 0) text cs cnf_empty HB HJ D2 D3 D1).
  assert (L : min_with_problem MO G B w os (loaded cs) = with_problem B w os (loaded cs) \/
    with_problem B w os (loaded cs) = Unmodelled /\ exists n x s s', answered w os cs x s s' /\ r_status x = Some true /\ get_bool os "minimize" = true /\
      min_report B w os (loaded cs) (proof_name os n) (Some true) (r_model x) (rev (cert (sv_d s'))) (lines0 os) = min_with_problem MO G B w os (loaded cs)).
  { unfold min_with_problem, with_problem. destruct (get_text os "certified-output") as [n|er].
    2: { left. destruct (get_bool os "test-proof"); reflexivity. }
    assert (R : min_run MO G B w os (loaded cs) (proof_name os n) = run B w os (loaded cs) (proof_name os n) \/
      run B w os (loaded cs) (proof_name os n) = Unmodelled /\ exists x s s', answered w os cs x s s' /\ r_status x = Some true /\ get_bool os "minimize" = true /\
      min_report B w os (loaded cs) (proof_name os n) (Some true) (r_model x) (rev (cert (sv_d s'))) (lines0 os) = min_run MO G B w os (loaded cs) (proof_name os n)).
    { unfold min_run, run. destruct (unmodelled os); [auto|]. destruct (solver_init _ _ _ _) as [s|er] eqn:EI; cbn [bind]; [|auto].
      destruct (rsolve _ _ _ _ _ s) as [((x & q') & s')|er] eqn:ES; [|auto].
      destruct (get_bool os "minimize") eqn:EM; [|left; apply min_report_same; auto].
      destruct (r_status x) as [[|]|] eqn:ER; [|left; apply min_report_same; left; discriminate..].
      right. split; [unfold report; rewrite EM; reflexivity|]. exists x, s, s'. split; [|auto]. split; [assumption|]. destruct (rsolve_solve _ _ _ _ _ _ _ _ _ ES) as (f & Ef). eexists. exact Ef. }
    destruct (get_bool os "test-proof"); destruct ((0 <? _)%Z && _)%bool; auto; destruct (get_bool os "gate-stats"); auto; destruct R as [R|(R & x & s & s' & H)]; auto; right; split; auto; exists n, x, s, s'; exact H. }
  destruct (wanted args) as [|f|]; [| |destruct G2]; rewrite G2, RD; cbn [bind]; change (readClauses cnf_empty (clauses cs)) with (loaded cs);
    (destruct L as [L|(L & n & x & s & s' & H1 & H2 & H3 & H4)]; [left; exact L|]; right; split; [exact L|]; exists os, x, s, s', (filter (fun a => negb (flag a)) args), n; rewrite <- K; auto).
Qed.

Lemma implicant_loaded cs ks : implicant ks (problem (loaded cs)) <-> implicant ks (clauses cs).
Proof. split; intros H a Ha; apply loaded_sat; apply H; exact Ha. Qed.
Lemma prime_loaded cs ks : prime_implicant ks (problem (loaded cs)) -> prime_implicant ks (clauses cs).
Proof.
  intros (H1 & H2). split; [apply implicant_loaded; exact H1|]. intros l Hl. destruct (H2 l Hl) as (a & A1 & A2). exists a. split; [exact A1|].
  intros S. apply A2. apply loaded_sat. exact S.
Qed.
Lemma from_bound m : forall v l, In l (getModelLiterals_from v m) -> v <= lvar l.
Proof.
  induction m as [|[b|] r IH]; intros v l H; cbn [getModelLiterals_from] in H; [destruct H| |].
  - destruct H as [<-|H]; [rewrite lvar_mk; lia|]. apply IH in H. lia.
  - apply IH in H. lia.
Qed.
Lemma from_ascending m : forall v, ascending (getModelLiterals_from v m).
Proof.
  induction m as [|[b|] r IH]; intros v; cbn [getModelLiterals_from ascending]; [exact I| |apply IH].
  split; [|apply IH]. intros l' H. apply from_bound in H. rewrite lvar_mk. lia.
Qed.
Lemma says_size_line ks : says_size (List.length ks) (size_line ks).
Proof. exists (dec (N.of_nat (List.length ks))). split; [|reflexivity]. destruct (dec_ok (N.of_nat (List.length ks))) as (H & _). rewrite nat_N_Z in H. exact H. Qed.
Lemma says_kept_line ks : says_kept ks (kept_line ks).
Proof.
  exists (map print_lit ks). split; [unfold kept_line; rewrite map_map; reflexivity|]. induction ks as [|l r IH]; constructor; [|exact IH]. apply print_lit_number.
Qed.
(** what is printed *)
Lemma min_lines B w os p name m ls l0 code lines : get_bool os "minimize" = true -> min_report B w os p name (Some true) m ls l0 = Exits code lines ->
  exists mm t, mimimizeModel (cfg_of os) (fun k => uninterrupted (MO k)) G (w_fuel w) p m (get_bool os "minimize-pruned") (get_bool os "minimize-minimal") (get_bool os "minimize-project") = Ok mm /\
  lines = l0 ++ [status_line (Some true); size_line (getModelLiterals mm)] ++ (if get_bool os "model" then [kept_line (getModelLiterals mm)] else []) ++ t /\
  (t = [] /\ code = 10%Z /\ get_bool os "test-model" = false \/
   get_bool os "test-model" = true /\ exists b, checkResult (problem p) m = Some b /\ t = [if b then model_verified else model_refused] /\ code = (if b then 0 else 1)%Z).
Proof.
  intros HM E. unfold MinMainModel.min_report in E. rewrite HM in E. destruct (mimimizeModel _ _ _ _ _ _ _ _ _) as [mm|[]]; try discriminate. exists mm.
  unfold self_test in E. destruct (get_bool os "test-model").
  - destruct (checkResult (problem p) m) as [[|]|] eqn:EC; [| |discriminate]; injection E as <- <-; [exists [model_verified]|exists [model_refused]]; (split; [reflexivity|]; split; [rewrite <- !app_assoc; reflexivity|]); right; (split; [reflexivity|]); eexists; split; try reflexivity; auto.
  - injection E as <- <-. exists []. split; [reflexivity|]. split; [rewrite app_nil_r; reflexivity|]. left. auto.
Qed.
Lemma min_ran B w args cs code lines : called_with B w args cs -> min_program B w args = Exits code lines -> In (bytes "s SATISFIABLE") lines -> switch args "minimize" false = true ->
  exists os x s s', minimised B w args cs os x s s' (Exits code lines).
Proof.
  intros HC E H HM. destruct (min_link B w args cs HC) as [L|(_ & L)]; [|rewrite E in L; exact L]. exfalso. rewrite E in L. symmetry in L.
  destruct (ran_of _ _ _ _ _ _ _ HC L H) as (os & x & s & s' & R). assert (HS := ran_status _ _ _ _ _ _ _ _ _ _ (Some true) R H).
  destruct R as (kept & n & EP & _ & _ & ER). rewrite HS in ER. unfold report in ER. rewrite (done_bool args os kept "minimize" false EP) in ER; [|vm_compute; reflexivity]. rewrite HM in ER. discriminate.
Qed.
Lemma min_unsat B w args cs code lines : called_with B w args cs -> min_program B w args = Exits code lines -> In (bytes "s UNSATISFIABLE") lines -> unsat (clauses cs).
Proof.
  intros HC E H. destruct (min_link B w args cs HC) as [L|(_ & os & x & s & s' & L)]; [rewrite E in L; symmetry in L; exact (prog_unsat B w args cs code lines HC L H)|].
  exfalso. rewrite E in L. destruct L as (kept & n & EP & _ & _ & EM & L). destruct (min_lines _ _ _ _ _ _ _ _ _ _ EM L) as (mm & t & _ & -> & HT).
  apply in_app_iff in H. destruct H as [H|H].
  - unfold lines0 in H. destruct (get_bool os "use-lrb"); [destruct H as [H|[]]; discriminate H|destruct H].
  - apply in_app_iff in H. destruct H as [[H|[H|[]]]|H]; try discriminate H. apply in_app_iff in H. destruct H as [H|H].
    + destruct (get_bool os "model"); [destruct H as [H|[]]; discriminate H|destruct H].
    + destruct HT as [(-> & _)|(_ & [|] & _ & -> & _)]; [destruct H|destruct H as [H|[]]; discriminate H..].
Qed.
Lemma min_sat B w args cs code lines : called_with B w args cs -> unset args "inprocessing" -> switch args "minimize" false = true ->
  min_program B w args = Exits code lines -> In (bytes "s SATISFIABLE") lines ->
  exists a ks, sat a (clauses cs) /\ agrees a ks /\ ascending ks /\
    (switch args "minimize-pruned" false = false -> switch args "minimize-project" false = false -> prime_implicant ks (clauses cs)) /\
    (exists t, In t lines /\ says_size (List.length ks) t /\ forall t', In t' lines -> starts "c Minimized-Model-Size:" t' = true -> t' = t) /\
    (if switch args "model" false then exists t, In t lines /\ says_kept ks t /\ forall t', In t' lines -> starts "c Minimized-Model:" t' = true -> t' = t
     else forall t, In t lines -> starts "c Minimized-Model:" t = false) /\
    (forall t, In t lines -> starts "v" t = false).
Proof.
  intros HC U HM E H. destruct (min_ran _ _ _ _ _ _ HC E H HM) as (os & x & s & s' & kept & n & EP & HA & HS & EM & L).
  destruct (answered_model args os kept w cs x s s' EP U HA HS) as (M & T). destruct (min_lines _ _ _ _ _ _ _ _ _ _ EM L) as (mm & t & E1 & -> & HT).
  assert (W : wf_problem (variables (loaded cs)) (problem (loaded cs))) by apply read_wf.
  exists (value_of (r_model x)), (getModelLiterals mm). split; [apply loaded_sat, model_sat_value; exact M|]. split; [|split; [apply from_ascending|split; [|split; [|split]]]].
  - intros l Hl. assert (HL := min_subset _ _ _ _ _ _ _ _ _ _ W M T E1 l Hl). unfold model_lit in HL. unfold lit_holds, lit_val, value_of. rewrite HL. destruct (lsign l); reflexivity.
  - intros P1 P2. apply prime_loaded. rewrite (done_bool args os kept "minimize-pruned" false EP), (done_bool args os kept "minimize-project" false EP) in E1 by (vm_compute; reflexivity). rewrite P1, P2 in E1.
    refine (proj1 (min_prime _ _ _ _ _ _ _ _ W M T _ E1)). intros k i. reflexivity.
  - exists (size_line (getModelLiterals mm)). split; [rewrite !in_app_iff; right; left; right; left; reflexivity|]. split; [apply says_size_line|]. intros t' Ht Hs. revert Hs.
    rewrite !in_app_iff in Ht. destruct Ht as [Ht|[[Ht|[Ht|[]]]|[Ht|Ht]]].
    + unfold lines0 in Ht. destruct (get_bool os "use-lrb"); [destruct Ht as [<-|[]]; discriminate|destruct Ht].
    + subst t'. discriminate.
    + auto.
    + destruct (get_bool os "model"); [destruct Ht as [<-|[]]; discriminate|destruct Ht].
    + destruct HT as [(-> & _)|(_ & [|] & _ & -> & _)]; [destruct Ht|destruct Ht as [<-|[]]; discriminate..].
  - rewrite (done_bool args os kept "model" false EP) by (vm_compute; reflexivity).
    assert (K : forall t', In t' (lines0 os ++ [status_line (Some true); size_line (getModelLiterals mm)] ++ (if switch args "model" false then [kept_line (getModelLiterals mm)] else []) ++ t) ->
      starts "c Minimized-Model:" t' = true -> switch args "model" false = true /\ t' = kept_line (getModelLiterals mm)).
    { intros t' Ht Hs. revert Hs. rewrite !in_app_iff in Ht. destruct Ht as [Ht|[[Ht|[Ht|[]]]|[Ht|Ht]]].
      + unfold lines0 in Ht. destruct (get_bool os "use-lrb"); [destruct Ht as [<-|[]]; discriminate|destruct Ht].
      + subst t'. discriminate.
      + subst t'. discriminate.
      + destruct (switch args "model" false); [destruct Ht as [<-|[]]; auto|destruct Ht].
      + destruct HT as [(-> & _)|(_ & [|] & _ & -> & _)]; [destruct Ht|destruct Ht as [<-|[]]; discriminate..]. }
    destruct (switch args "model" false) eqn:EO.
    + exists (kept_line (getModelLiterals mm)). split; [rewrite !in_app_iff; right; right; left; left; reflexivity|]. split; [apply says_kept_line|]. intros t' Ht Hs. apply (K t' Ht Hs).
    + intros t' Ht. destruct (starts "c Minimized-Model:" t') eqn:ES; [|reflexivity]. destruct (K t' Ht ES) as (C & _). discriminate C.
  - intros t' Ht. rewrite !in_app_iff in Ht. destruct Ht as [Ht|[[Ht|[Ht|[]]]|[Ht|Ht]]].
    + unfold lines0 in Ht. destruct (get_bool os "use-lrb"); [destruct Ht as [<-|[]]; reflexivity|destruct Ht].
    + subst t'. reflexivity.
    + subst t'. reflexivity.
    + destruct (get_bool os "model"); [destruct Ht as [<-|[]]; reflexivity|destruct Ht].
    + destruct HT as [(-> & _)|(_ & [|] & _ & -> & _)]; [destruct Ht|destruct Ht as [<-|[]]; reflexivity..].
Qed.
Lemma min_exit B w args cs code lines : called_with B w args cs -> min_program B w args = Exits code lines -> In (bytes "s SATISFIABLE") lines -> switch args "minimize" false = true ->
  (switch args "test-model" false = false -> code = 10%Z) /\
  (switch args "test-model" false = true -> unset args "inprocessing" -> code = 0%Z /\ In model_verified lines).
Proof.
  intros HC E H HM. destruct (min_ran _ _ _ _ _ _ HC E H HM) as (os & x & s & s' & kept & n & EP & HA & HS & EM & L).
  destruct (min_lines _ _ _ _ _ _ _ _ _ _ EM L) as (mm & t & E1 & -> & HT). rewrite (done_bool args os kept "test-model" false EP) in HT by (vm_compute; reflexivity).
  split; [intros TM|intros TM U]; rewrite TM in HT; destruct HT as [(-> & -> & HT)|(HT & b & HC1 & -> & ->)]; try discriminate; [reflexivity|].
  destruct (answered_model args os kept w cs x s s' EP U HA HS) as (M & T). rewrite (model_sat_check _ _ M) in HC1. injection HC1 as <-. split; [reflexivity|].
  rewrite !in_app_iff. right. right. right. left. reflexivity.
Qed.
Lemma min_main_defined B w args cs : called_with B w args cs -> (forall a, In a args -> good cli_options a) -> unset args "inprocessing" ->
  switch args "pre" true = false \/ switch args "elim" true = false -> switch args "test-proof" false = false ->
  min_program B w args = Silent \/ min_program B w args = Unmodelled \/ exists code lines, min_program B w args = Exits code lines.
Proof.
  intros HC HG U HE HT. destruct (min_link B w args cs HC) as [L|(_ & os & x & s & s' & kept & n & EP & HA & HS & EM & L)]; [rewrite L; apply (prog_defined B w args cs); assumption|].
  rewrite <- L. destruct (answered_model args os kept w cs x s s' EP U HA HS) as (M & T). assert (W : wf_problem (variables (loaded cs)) (problem (loaded cs))) by apply read_wf.
  unfold MinMainModel.min_report. rewrite EM. destruct (mimimizeModel _ _ _ _ _ _ _ _ _) as [mm|er] eqn:E1.
  - right. right. unfold self_test. rewrite (model_sat_check _ _ M). destruct (get_bool os "test-model"); eexists; eexists; reflexivity.
  - destruct er; auto. exfalso. exact (min_defined _ _ _ _ _ _ _ _ _ W T E1).
Qed.
(** what is not modelled is not hidden: the modes are those of MainModel.v *)
Lemma min_modes B w args cs : called_with B w args cs -> min_program B w args = Unmodelled -> program B w args = Unmodelled /\
  (unset args "threads" -> switch args "rsar-enable" false = false -> switch args "static-propagate" false = false -> switch args "rsil-enable" false = false ->
   switch args "use-vsidsc" false = false -> switch args "gate-stats" false = false -> False).
Proof.
  intros HC E. destruct (min_link B w args cs HC) as [L|(L & os & x & s & s' & kept & n & EP & HA & HS & EM & K)].
  2: { exfalso. rewrite E in K. unfold MinMainModel.min_report in K. rewrite EM in K. destruct (mimimizeModel _ _ _ _ _ _ _ _ _) as [mm|[]]; try discriminate.
       unfold self_test in K. destruct (get_bool os "test-model"); [destruct (checkResult _ _) as [[|]|]|]; discriminate. }
  split; [congruence|]. intros M1 M2 M3 M4 M5 M6. revert E. clear L. destruct HC as (text & (G1 & G2) & HB & HJ & ml & D1 & D2 & D3). unfold MinMainModel.min_program.
  destruct (parse_options true cli_options args) as [os kept| | |] eqn:EP; try discriminate.
  assert (K : kept = filter (fun a => negb (flag a)) args) by (apply cli_done in EP; destruct EP as (_ & EP); exact EP).
  assert (UM : unmodelled os = false).
  { unfold unmodelled. rewrite (done_int args os kept "threads" 1 1 16 EP M1) by (vm_compute; reflexivity).
    rewrite (done_bool args os kept "rsar-enable" false EP), (done_bool args os kept "static-propagate" false EP), (done_bool args os kept "rsil-enable" false EP), (done_bool args os kept "use-vsidsc" false EP), M2, M3, M4, M5 by (vm_compute; reflexivity).
    rewrite andb_false_r. reflexivity. }
  assert (GS : get_bool os "gate-stats" = false) by (rewrite (done_bool args os kept "gate-stats" false EP); [exact M6|vm_compute; reflexivity]).
  assert (L : forall p, min_with_problem MO G B w os p <> Unmodelled).
  { assert (SR : forall p name r m ls l, self_test B w os p name r m ls l <> Unmodelled).
    { intros p name r m ls l. unfold self_test. destruct r as [[|]|]; try discriminate.
      - destruct (get_bool os "test-model"); [destruct (checkResult _ _) as [[|]|]|]; discriminate.
      - destruct (get_bool os "test-proof"); [|discriminate]. destruct (proof_file _ _ _); [|discriminate]. destruct (check_proof_file _ _ _ _ _) as [[[|]|[]]| | |]; discriminate. }
    intros p. unfold min_with_problem. rewrite GS. assert (R : forall name, min_run MO G B w os p name <> Unmodelled).
    { intros name. unfold min_run. rewrite UM. destruct (bind _ _) as [((x & q) & s)|er]; [|destruct er; discriminate]. unfold MinMainModel.min_report, report.
      destruct (r_status x) as [[|]|]; try apply SR. destruct (get_bool os "minimize").
      - destruct (mimimizeModel _ _ _ _ _ _ _ _ _) as [mm|[]]; try discriminate. apply SR.
      - destruct (get_bool os "model"); [destruct (value_line _ _); [|discriminate]|]; apply SR. }
    destruct (get_text os "certified-output") as [n|]; destruct (get_bool os "test-proof"); try discriminate; destruct ((0 <? _)%Z && _)%bool; cbn beta iota; first [discriminate|apply R]. }
  destruct (match main_input (w_garbage w) args kept with Stdin => _ | File f => _ | NullName => _ end) as [[tx|]|]; try discriminate. destruct (readDimacs _ _ _ _); try discriminate. apply L.
Qed.
End MinMain.
