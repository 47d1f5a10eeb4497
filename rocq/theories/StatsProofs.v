(** The option gate-stats: what is printed. *)
Require Import List Arith ZArith Bool NArith Lia Permutation String.
Require Import Verif.Base Verif.Outcome Verif.OptModel Verif.OptSpec Verif.OptProofs Verif.CNFModel Verif.CNFProofs Verif.DimacsModel Verif.DimacsSpec Verif.DimacsProofs Verif.DimacsMore Verif.TrailProofs Verif.GateModel Verif.GateSpec Verif.BlockProofs Verif.BlockMore Verif.GatePat Verif.GateProofs Verif.GateMore
  Verif.AigText Verif.MainModel Verif.MainSpec Verif.MainOpt Verif.MainProofs Verif.MainDef Verif.StatsModel Verif.StatsSpec Verif.StatsRun.
Import ListNotations.
Open Scope list_scope.
Open Scope nat_scope.

Section S.
Variable cfg : GateModel.config.
Variable conf : nat -> nat.
Variable cs : list clause.
Variable n : nat.
Hypothesis WF : wf_problem n cs.
Notation SI := (SI cfg conf cs).
Lemma next_ok R a s fr a3 s3 : AI cfg cs n R a -> SI a s -> (forall l, In l fr -> inq n a l) -> srecognition cfg conf (S (List.length cs)) cs fr a s = Ok (a3, s3) -> SI a3 s3 /\ exists R3, AI cfg cs n R3 a3.
Proof.
  intros HA HS HF E. split; [apply (srecognition_SI cfg conf cs n WF _ R a s fr HA HS HF a3 s3 E)|].
  destruct (recognition_ok cfg cs n WF (S (List.length cs)) R a fr HA HF) as (a' & R' & E' & A' & _); [pose proof (part_len cfg cs n R a HA); lia|].
  pose proof (srecognition_rec cfg conf cs (S (List.length cs)) fr a s) as H. rewrite E in H. unfold erased in H. cbn [bind] in H. rewrite E' in H. injection H as ->. exists R'. exact A'.
Qed.
Lemma sloop_SI : forall fuel R a s count, AI cfg cs n R a -> SI a s -> (count = 0 -> forall c, In c R <-> c < List.length cs) -> forall a' s', sloop cfg conf fuel cs n count a s = Ok (a', s') -> SI a' s'.
Proof.
  induction fuel as [|fuel IH]; intros R a s count HA HS H0 a' s' E; [discriminate|]. cbn [sloop] in E. destruct (_ && _) in E; [|injection E as <- <-; exact HS]. destruct (Nat.eqb_spec count 0) as [->|Hc].
  - set (rs := unit_ids cs) in *. assert (HR : forall c, In c rs -> In c R /\ cl cs c <> []) by (intros c Hc; unfold rs, unit_ids in Hc; apply filter_In in Hc; destruct Hc as (Hc & EL); apply in_seq in Hc; split; [apply (H0 eq_refl); lia|intros EN; rewrite EN in EL; discriminate]).
    assert (HN : NoDup rs) by apply NoDup_filter, seq_NoDup. destruct (remove_ok cs n WF rs R _ (a_inv _ _ _ _ _ HA) (a_ci _ _ _ _ _ HA)) as (R1 & I1 & C1 & M1).
    assert (HA2 : AI cfg cs n (filter (fun c => negb (existsb (Nat.eqb c) rs)) R) (mkGA (bl_remove cs rs (blist a)) (add_roots cs rs (gprob a)) (calls a))). { apply (roots_ok cfg cs n WF); auto. apply (Inv_ext cs n R1); auto. intros c. rewrite M1, filter_mem. reflexivity. }
    assert (HS2 := roots_SI cfg conf cs a s rs (bl_remove cs rs (blist a)) HS). cbv beta iota in E. destruct rs as [|c0 rs0] eqn:Ers.
    + apply (IH _ _ s 1 HA2) in E; [exact E|exact HS2|discriminate].
    + rewrite <- Ers in *. apply bind_ok in E. destruct E as ((a3, s3) & E3 & E). destruct (next_ok _ _ s (flat_map (cl cs) rs) a3 s3 HA2 HS2) as (S3 & R3 & A3); [|exact E3|apply (IH R3 a3 s3 1 A3 S3) in E; [exact E|discriminate]].
      intros l Hl. split; [apply in_flat_map in Hl; destruct Hl as (c & _ & Hl); apply (cl_wf cs n WF c); auto|]. cbn [gprob]. apply (add_roots_inputs cs n WF); [apply (a_used _ _ _ _ _ HA)|auto].
  - destruct (getMinimallyUnblockedLiteral cs n (blist a)) as (ol, b1) eqn:EM. destruct (min_ok cs n R _ (a_inv _ _ _ _ _ HA) (a_ci _ _ _ _ _ HA) _ _ EM) as (I1 & C1 & EI & HM). destruct ol as [o|]; cbv beta iota in E.
    + destruct HM as (Ho & _). destruct (stripUnblockedClauses cs o b1) as (rs, b2) eqn:ES. destruct (strip_ok cs n WF R b1 o I1 C1 Ho _ _ ES) as (N1 & M1 & R2 & I2 & C2 & M2). cbv beta iota in E.
      assert (HR : forall c, In c rs -> In c R /\ cl cs c <> []) by (intros c Hcc; apply M1 in Hcc; destruct Hcc as (Hcc & _); apply (i_in _ _ _ _ I1) in Hcc; destruct Hcc as (Hcc & Hco); split; auto; intros EN; rewrite EN in Hco; destruct Hco).
      assert (HA1 : AI cfg cs n R (mkGA b1 (gprob a) (calls a))) by (destruct HA; split; auto).
      assert (HA2 : AI cfg cs n (filter (fun c => negb (existsb (Nat.eqb c) rs)) R) (mkGA b2 (add_roots cs rs (gprob a)) (calls a))). { apply (roots_ok cfg cs n WF R _ rs b2 HA1); auto. apply (Inv_ext cs n R2); auto. intros c. rewrite M2, filter_mem. reflexivity. }
      assert (HS2 := roots_SI cfg conf cs a s rs b2 HS). destruct rs as [|c0 rs0] eqn:Ers.
      * apply (IH _ _ s (S count) HA2) in E; [exact E|exact HS2|discriminate].
      * rewrite <- Ers in *. apply bind_ok in E. destruct E as ((a3, s3) & E3 & E). destruct (next_ok _ _ s (flat_map (cl cs) rs) a3 s3 HA2 HS2) as (S3 & R3 & A3); [|exact E3|apply (IH R3 a3 s3 (S count) A3 S3) in E; [exact E|discriminate]].
        intros l Hl. split; [apply in_flat_map in Hl; destruct Hl as (c & _ & Hl); apply (cl_wf cs n WF c); auto|]. cbn [gprob]. apply (add_roots_inputs cs n WF); [apply (a_used _ _ _ _ _ HA)|auto].
    + injection E as <- <-. apply (SI_ext cfg conf cs a); auto.
Qed.
Lemma init_SI : SI (mkGA (bl_new n cs) (gp_new n) 0) gs_new.
Proof.
  split; cbn [gprob calls gp_new gate_count monoton_gate_count gs_new st_pat st_sem st_hol st_hist st_fail gates]; auto; try (intros; destruct i; reflexivity); try (split; intros H; destruct (H eq_refl)).
  - clear WF. induction n as [|k IH]; auto.
Qed.
End S.

Lemma stats_refines cfg conf p : (' (x, _) <- sanalyze cfg conf p ;; Ok (fst x)) = analyze cfg p.
Proof.
  unfold sanalyze, analyze. cbv zeta. rewrite <- (sloop_loop cfg conf (problem p) (variables p) _ 0 _ gs_new). destruct (sloop _ _ _ _ _ _ _ _) as [(a, s)|e]; reflexivity.
Qed.
Lemma stats_inv cfg conf p g s k : wf_problem (variables p) (problem p) -> sanalyze cfg conf p = Ok (g, s, k) ->
  analyze cfg p = Ok g /\ exists a, gates (gprob a) = gates g /\ gate_count (gprob a) = gate_count g /\ monoton_gate_count (gprob a) = monoton_gate_count g /\ calls a = k /\ SI cfg conf (problem p) a s.
Proof.
  intros WF E. split; [rewrite <- (stats_refines cfg conf p), E; reflexivity|]. unfold sanalyze in E. apply bind_ok in E. destruct E as ((a, s0) & E0 & E). injection E as <- <- <-. exists a. cbn [gates gate_count monoton_gate_count].
  split; [|split; [|split; [|split]]]; auto. apply (sloop_SI cfg conf (problem p) (variables p) WF _ (seq 0 (List.length (problem p))) _ gs_new 0 (init_ok cfg _ _ WF) (init_SI cfg conf _ _)) in E0; auto. intros _ c. rewrite in_seq. lia.
Qed.
Lemma count_split (P Q : nat -> Prop) (q : nat -> bool) a b : count_is P a -> count_is (fun v => P v /\ q v = false) b -> (forall v, P v -> (q v = true <-> Q v)) -> exists c, count_is (fun v => P v /\ Q v) c /\ a = b + c.
Proof.
  intros (L & NL & ML & <-) (M & NM & MM & <-) HQ. exists (List.length (filter q L)). split.
  - exists (filter q L). split; [apply NoDup_filter; auto|]. split; auto. intros x. rewrite filter_In, ML. split; intros (H1 & H2); split; auto; apply (HQ x H1); auto.
  - assert (PM : Permutation M (filter (fun v => negb (q v)) L)). { apply NoDup_Permutation; auto; [apply NoDup_filter; auto|]. intros x. rewrite filter_In, ML, MM, negb_true_iff. reflexivity. }
    rewrite (Permutation_length PM). clear. induction L as [|x L IH]; auto. cbn [filter]. destruct (q x); cbn [negb List.length]; lia.
Qed.

(** ** The counts *)
Lemma stats_counts cfg conf p g s k : wf_problem (variables p) (problem p) -> sanalyze cfg conf p = Ok (g, s, k) ->
  count_is (fun v => defined (gates g) v = true) (gate_count g) /\
  count_is (needs_test g) (st_pat s + st_sem s + st_hol s) /\ gate_count g = monoton_gate_count g + (st_pat s + st_sem s + st_hol s) /\
  count_is (fun v => needs_test g v /\ usePatterns cfg = true /\ matches (problem p) g v) (st_pat s) /\
  (useSemantic cfg = false -> st_sem s = 0) /\ (useHolistic cfg = false -> st_hol s = 0).
Proof.
  intros WF E. destruct (stats_inv cfg conf p g s k WF E) as (EA & a & E1 & E2 & E3 & E4 & HS). destruct HS as [H1 H2 H3 H4 H5 H6 H7 H8 H9]. rewrite E1, E2, E3, E4 in *. destruct (counts_ok cfg p g WF EA) as (C1 & C2).
  split; [exact C1|]. split; [|split; [lia|split; [|split; auto]]].
  - destruct (count_split _ (fun v => g_notMono (nth v (gates g) gate_none) = true) (fun v => g_notMono (nth v (gates g) gate_none)) _ _ C1 C2) as (c & C3 & C4); [intros v _; reflexivity|]. replace (st_pat s + st_sem s + st_hol s) with c by lia. exact C3.
  - rewrite H8, filter_seq. eexists. split; [|split; [|reflexivity]]; [apply NoDup_filter, seq_NoDup|].
    intros v. rewrite filter_In, in_seq. unfold needs_test, matches, defined, pat_gate.
    destruct (Nat.lt_ge_cases v (List.length (gates g))) as [L|L]; [|rewrite nth_overflow by auto; cbn; intuition (try discriminate; lia)].
    destruct (g_out (nth v (gates g) gate_none)) as [o|]; [|intuition (try discriminate)]. rewrite !andb_true_iff. split.
    + intros (_ & (K1 & K2) & K3). split; auto. split; auto. exists o. auto.
    + intros ((_ & K1) & K2 & o' & Eo & K3). injection Eo as <-. split; [lia|]. auto.
Qed.
Lemma stats_histogram cfg conf p g s k : wf_problem (variables p) (problem p) -> sanalyze cfg conf p = Ok (g, s, k) ->
  list_sum (st_hist s) = st_sem s + st_hol s /\ tidy (st_hist s) /\ tidy (st_fail s) /\
  (forall i c, count_is (fun j => j < k /\ conf j = i) c -> nth i (st_hist s) 0 + nth i (st_fail s) 0 <= c /\
     (useSemantic cfg && useHolistic cfg = false -> nth i (st_hist s) 0 + nth i (st_fail s) 0 = c)) /\
  (useSemantic cfg = false -> useHolistic cfg = false -> k = 0 /\ st_hist s = [] /\ st_fail s = []).
Proof.
  intros WF E. destruct (stats_inv cfg conf p g s k WF E) as (EA & a & E1 & E2 & E3 & E4 & HS). destruct HS as [H1 H2 H3 H4 H5 H6 H7 H8 (H9 & H10)]. rewrite E4 in *. split; [exact H2|]. split; [exact H9|]. split; [exact H10|]. split.
  - intros i c (L & NL & ML & <-). assert (T : tally conf i k = List.length L).
    { unfold tally. apply Permutation_length, NoDup_Permutation; auto; [apply NoDup_filter, seq_NoDup|]. intros x. rewrite filter_In, in_seq, ML, Nat.eqb_eq. intuition lia. }
    rewrite <- T. split; auto.
  - intros U1 U2. destruct (H5 U1 U2) as (F & K). split; auto. split; auto. rewrite (H3 U1), (H4 U2) in H2. destruct (st_hist s) as [|x h] eqn:EH; auto. exfalso. assert (NE : x :: h <> []) by discriminate. specialize (H9 NE).
    assert (Z : forall l : list nat, list_sum l = 0 -> last l 0 = 0). { clear. induction l as [|y l IH]; auto. intros Hl. unfold list_sum in *. cbn [fold_right] in Hl. destruct l; [cbn; lia|]. change (last (y :: n :: l) 0) with (last (n :: l) 0). apply IH. lia. } apply H9, Z. exact H2.
Qed.
(** ** The text *)
Lemma num_says name k : says name k (bytes name ++ num k).
Proof. exists (num k). split; auto. unfold num. replace (Z.of_nat k) with (Z.of_N (N.of_nat k)) by lia. apply dec_ok. Qed.
Lemma histogram_classes : forall h i, classes i h (histogram i h).
Proof.
  induction h as [|c h IH]; intros i; [constructor|]. change (histogram i (c :: h)) with (bytes " " ++ num i ++ bytes ":" ++ num c ++ histogram (S i) h).
  assert (NU : forall k, number (Z.of_nat k) (num k)) by (intros k; unfold num; replace (Z.of_nat k) with (Z.of_N (N.of_nat k)) by lia; apply dec_ok). constructor; auto.
Qed.
Lemma hist_shows name h : draws name h (bytes name ++ histogram 0 h).
Proof. exists (histogram 0 h). split; auto. apply histogram_classes. Qed.
Lemma called_stats B w gw args cs : called_with B w args cs -> gs_program B w gw args =
  match parse_options true cli_options args with Help => Exits 0 [] | Unknown _ => Exits 1 [] | Range => Exits 1 [] | Done os _ => gs_with_problem B w gw os (loaded cs) end.
Proof.
  intros (text & (G1 & G2) & HB & HJ & ml & D1 & D2 & D3). unfold gs_program. destruct (parse_options true cli_options args) as [os kept| | |] eqn:E; try reflexivity.
  apply cli_done in E. destruct E as (_ & ->). rewrite G1. assert (RD := readDimacs_ok B ml (w_junk w 0) text cs cnf_empty HB HJ D2 D3 D1).
  destruct (wanted args) as [|f|]; [| |destruct G2]; rewrite G2, RD; reflexivity.
Qed.

Lemma lines_report cfg conf p g s k rt : wf_problem (variables p) (problem p) -> sanalyze cfg conf p = Ok (g, s, k) -> reports (usePatterns cfg) p g (stats_lines p g s rt).
Proof.
  intros WF E. destruct (stats_counts cfg conf p g s k WF E) as (C1 & C2 & C3 & C4 & _). destruct (stats_histogram cfg conf p g s k WF E) as (H1 & H2 & H3 & _). destruct (stats_inv cfg conf p g s k WF E) as (EA & _). destruct (counts_ok cfg p g WF EA) as (_ & C5).
  unfold reports, stats_lines. do 12 eexists. exists (gate_count g), (monoton_gate_count g), (st_pat s), (st_sem s), (st_hol s), (st_hist s), (st_fail s). split; [reflexivity|].
  split; [apply num_says|]. split; [apply num_says|]. split; [apply num_says|]. split; [apply num_says|]. split; [exact C1|]. split; [apply num_says|]. split; [exact C5|]. split; [apply num_says|]. split; [apply num_says|]. split; [apply num_says|]. split; [apply num_says|].
  split; [exact C2|]. split; [exact C4|]. split; [apply hist_shows|]. split; [apply hist_shows|]. auto.
Qed.
Lemma stats_total cfg conf p : wf_problem (variables p) (problem p) -> exists g s k, sanalyze cfg conf p = Ok (g, s, k).
Proof.
  intros WF. destruct (partition_ok cfg p WF) as (g & E & _). rewrite <- (stats_refines cfg conf p) in E. destruct (sanalyze cfg conf p) as [((g', s), k)|e]; [exists g', s, k; reflexivity|discriminate].
Qed.
Lemma gs_prints B w gw args cs : called_with B w args cs -> (forall a, In a args -> OptSpec.good cli_options a) -> unset args "test-limit" -> switch args "gate-stats" false = true ->
  exists cfg g lines, analyze cfg (loaded cs) = Ok g /\ gs_program B w gw args = Exits 0 lines /\ reports (usePatterns cfg) (loaded cs) g lines /\
  GateModel.solver cfg = gw_solver gw /\ GateModel.timeout cfg = gw_timeout gw /\
  (unset args "gate-recognition-method" -> usePatterns cfg = true /\ useSemantic cfg = true /\ useHolistic cfg = false) /\ (unset args "gate-tries" -> maxTries cfg = 0).
Proof.
  intros HC G U HG. rewrite (called_stats B w gw args cs HC). destruct (cli_values args G) as (os & EP & _). rewrite EP. destruct (text_output args os _ G EP) as (nm & EN).
  assert (WF : wf_problem (variables (loaded cs)) (problem (loaded cs))) by apply read_wf. destruct (stats_total (gate_cfg os gw) (gw_conf gw) (loaded cs) WF) as (g & s & k & E).
  exists (gate_cfg os gw), g, (stats_lines (loaded cs) g s (gw_time gw)). split; [apply (stats_inv _ _ _ _ _ _ WF E)|]. split.
  - unfold gs_with_problem. rewrite EN. rewrite (done_int args os _ "test-limit" 0 0 1000 EP U) by (vm_compute; reflexivity). cbn [Z.ltb Z.compare andb]. rewrite (done_bool args os _ "gate-stats" false EP) by (vm_compute; reflexivity). rewrite HG, E. destruct (get_bool os "test-proof"); reflexivity.
  - split; [apply (lines_report _ (gw_conf gw) _ _ _ k _ WF E)|]. split; [reflexivity|]. split; [reflexivity|]. split.
    + intros UM. unfold gate_cfg. cbn [usePatterns useSemantic useHolistic]. rewrite (done_int args os _ "gate-recognition-method" 10 0 30 EP UM) by (vm_compute; reflexivity). auto.
    + intros UT. unfold gate_cfg. cbn [maxTries]. rewrite (done_int args os _ "gate-tries" 0 0 imax EP UT) by (vm_compute; reflexivity). reflexivity.
Qed.
Lemma gs_other B w gw args : switch args "gate-stats" false = false -> gs_program B w gw args = program B w args.
Proof.
  intros HG. unfold gs_program, program. destruct (parse_options true cli_options args) as [os kept| | |] eqn:EP; auto. destruct (match main_input (w_garbage w) args kept with Stdin => _ | File _ => _ | NullName => _ end) as [[text|]|e]; auto.
  destruct (readDimacs B (w_junk w 0) text cnf_empty) as [p| | |]; auto. unfold gs_with_problem. rewrite (done_bool args os _ "gate-stats" false EP) by (vm_compute; reflexivity). rewrite HG.
  unfold with_problem. rewrite (done_bool args os _ "gate-stats" false EP) by (vm_compute; reflexivity). rewrite HG. destruct (get_text os "certified-output"); destruct (get_bool os "test-proof"); auto; destruct (_ && _); auto.
Qed.
Lemma clause_sum cfg p : wf_problem (variables p) (problem p) -> (forall c, In c (problem p) -> c <> []) -> exists g, analyze cfg p = Ok g /\
  List.length (problem p) = List.length (roots g) + list_sum (map (fun gt => List.length (g_fwd gt) + List.length (g_bwd gt)) (gates g)) + List.length (remainder g).
Proof.
  intros WF NE. destruct (partition_full cfg p WF NE) as (g & E & P). exists g. split; [exact E|]. apply Permutation_length in P. rewrite seq_length, !app_length in P. rewrite <- P.
  assert (F : forall gs : list gate, List.length (flat_map (fun gt => g_fwd gt ++ g_bwd gt) gs) = list_sum (map (fun gt => List.length (g_fwd gt) + List.length (g_bwd gt)) gs)).
  { clear. induction gs as [|x gs IH]; auto. cbn [flat_map map]. rewrite !app_length, IH. unfold list_sum. cbn [fold_right]. lia. }
  rewrite F. lia.
Qed.
