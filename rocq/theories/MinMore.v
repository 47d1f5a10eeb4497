(** Model minimisation: definedness, pruning and the top level. *)
Require Import List Arith Bool NArith ZArith Lia Permutation.
Require Import Verif.Base Verif.Outcome Verif.CNFModel Verif.CNFSpec Verif.CNFProofs Verif.TrailModel Verif.DbModel Verif.PropSpec.
Require Import Verif.GateModel Verif.GateSpec Verif.BlockProofs Verif.GateProofs Verif.GateProps Verif.SolverModel Verif.SolverSpec Verif.SolverProofs Verif.SolverLemmas Verif.IpasirProofs Verif.MinModel Verif.MinSpec Verif.MinProofs.
Import ListNotations.

(** ** No undefined behaviour *)
Lemma load_defined C F s p : c_inproc C = 0%N -> c_pre C = false -> sreach C problem_op F s -> load p s <> Err UB.
Proof.
  intros H1 H2 HR. assert (HR2 := no_elim_reach C problem_op F s H1 H2 HR).
  assert (HK := reach_KI (no_elim C) F s (no_elim_quiet C H1) H2 HR2).
  exact (init_defined F _ _ _ s (ki_ev _ _ HK) (reach_BI _ _ _ _ HR)).
Qed.
Section Def.
Variables (C : cfg) (O : nat -> oracle) (sf n : nat).
Hypothesis (HI : c_inproc C = 0%N) (HC : c_pre C = false).
Lemma shrink_defined fuel : forall k K N F s, sreach C problem_op F s -> (forall v, In v N -> v < nvars s) -> (forall v, v < n -> In v K \/ In v N) ->
  shrink C O sf n fuel k (map ngv K) (map ngv N) s <> Err UB /\
  forall card k' s', shrink C O sf n fuel k (map ngv K) (map ngv N) s = Ok (card, k', s') -> exists F', sreach C problem_op F' s'.
Proof.
  induction fuel as [|fuel IH]; intros k K N F s HR HN HA; [split; discriminate|]. cbn [shrink].
  assert (H0 : Forall (clause_ok (variables cnf_empty)) (problem cnf_empty)) by constructor.
  destruct (read_ok [map ngv K] cnf_empty H0) as (P1 & _ & P3 & P4). set (pc := readClauses cnf_empty [map ngv K]) in *.
  assert (D1 := load_defined C F s pc HI HC HR).
  destruct (load pc s) as [s1|e] eqn:E1; cbn [bind]; [|split; [intros X; injection X as ->; auto|discriminate]].
  destruct (load_reach C F s pc s1 HR P1 E1) as (L1 & L2 & L3).
  assert (HKn : forall v, In v K -> v < nvars s1).
  { intros v Hv. assert (Hx := P3 _ (ngv v) (or_introl eq_refl) (in_map ngv _ _ Hv)). unfold ngv in Hx. rewrite lvar_mk in Hx. lia. }
  assert (HNn : forall v, In v N -> v < nvars s1) by (intros v Hv; specialize (HN v Hv); lia).
  assert (A1 : sreach C problem_op (F ++ problem pc) (solver_assume (map ngv N) s1)).
  { apply sr_assume; auto; [exact I|]. intros l Hl. apply in_map_iff in Hl. destruct Hl as (v & <- & Hv). unfold ngv. rewrite lvar_mk. auto. }
  assert (D2 := history_safe C _ _ (O k) sf HI HC A1).
  destruct (solve C (O k) sf (solver_assume (map ngv N) s1)) as [(x & s2)|e] eqn:E2; cbn [bind]; [|split; [intros X; injection X as ->; auto|discriminate]].
  assert (A5 : sreach C problem_op (F ++ problem pc) s2) by (eapply sr_solve; [exact A1|exact I|exact E2]).
  assert (A4 : nvars s2 = nvars s1) by (exact (sreach_solve_nv _ _ _ _ _ _ _ _ A1 E2)).
  destruct (r_status x) as [[|]|].
  - rewrite (trues_K n), (others_N n). apply (IH _ _ _ (F ++ problem pc)); auto.
    + intros v Hv. apply (Nof_in n) in Hv. rewrite A4. destruct (HA v (proj1 Hv)); auto.
    + intros v Hv. rewrite (Nof_in n). destruct (in_dec Nat.eq_dec v (Kof n (r_model x))); auto.
  - split; [discriminate|]. intros card k' s' X. injection X as <- <- <-. eauto.
  - split; [discriminate|]. intros card k' s' X. injection X as <- <- <-. eauto.
Qed.
Lemma count_defined outs fuel : forall k lt card F s, sreach C problem_op F s -> count_down C O sf n fuel k outs lt card s <> Err UB.
Proof.
  induction fuel as [|fuel IH]; intros k lt card F s HR; [discriminate|]. cbn [count_down]. cbv zeta.
  assert (H0 : Forall (clause_ok (variables (mkCnf [] (variables lt)))) (problem (mkCnf [] (variables lt)))) by constructor.
  destruct (read_ok (lessThan outs (length card) []) _ H0) as (P1 & _ & P3 & P4). set (pc := readClauses (mkCnf [] (variables lt)) (lessThan outs (length card) [])) in *.
  assert (D1 := load_defined C F s pc HI HC HR).
  destruct (load pc s) as [s1|e] eqn:E1; cbn [bind]; [|intros X; injection X as ->; auto].
  destruct (load_reach C F s pc s1 HR P1 E1) as (L1 & L2 & L3). assert (D2 := history_safe C _ _ (O k) sf HI HC L1).
  destruct (solve C (O k) sf s1) as [(x & s2)|e] eqn:E2; cbn [bind]; [|intros X; injection X as ->; auto].
  assert (A5 : sreach C problem_op (F ++ problem pc) s2) by (eapply sr_solve; [exact L1|exact I|exact E2]).
  destruct (r_status x) as [[|]|]; [eauto|discriminate|discriminate].
Qed.
Lemma iter_defined fuel hs minimal : iterativeMinimization C O sf n fuel hs minimal <> Err UB.
Proof.
  unfold iterativeMinimization. assert (H0 : Forall (clause_ok (variables cnf_empty)) (problem cnf_empty)) by constructor.
  destruct (read_ok hs cnf_empty H0) as (P1 & _ & P3 & P4). assert (D1 := load_defined C [] _ (readClauses cnf_empty hs) HI HC (sr_new C problem_op)).
  destruct (load (readClauses cnf_empty hs) (solver_new C)) as [s0|e] eqn:E0; cbn [bind]; [|intros X; injection X as ->; auto].
  destruct (load_reach C [] _ _ _ (sr_new C problem_op) P1 E0) as (L1 & L2 & L3).
  change (map (fun v => mkLit v true) (seq 0 n)) with (map ngv (seq 0 n)).
  change (shrink C O sf n fuel 0 (map ngv (seq 0 n)) [] s0) with (shrink C O sf n fuel 0 (map ngv (seq 0 n)) (map ngv []) s0).
  destruct (shrink_defined fuel 0 (seq 0 n) [] _ s0 L1) as (S1 & S2); [intros v []|intros v Hv; left; apply in_seq; lia|].
  destruct (shrink C O sf n fuel 0 (map ngv (seq 0 n)) (map ngv []) s0) as [((card & k) & s1)|e] eqn:Es; cbn [bind]; [|intros X; injection X as ->; exact (S1 Es)].
  destruct (S2 _ _ _ Es) as (F & HF). destruct minimal; [|discriminate].
  destruct (genParCounter n (map (fun v => mkLit v false) (seq 0 n)) cnf_empty) as (outs & counter) eqn:Eg.
  assert (Hc := counter_ok n (map (fun v => mkLit v false) (seq 0 n)) cnf_empty H0). rewrite Eg in Hc. cbn [snd] in Hc.
  assert (D2 := load_defined C F s1 counter HI HC HF).
  destruct (load counter s1) as [s2|e] eqn:E4; cbn [bind]; [|intros X; injection X as ->; auto].
  destruct (load_reach C F s1 counter s2 HF Hc E4) as (J1 & J2 & J3). assert (D3 := count_defined outs fuel k cnf_empty card _ s2 J1).
  destruct (count_down C O sf n fuel k outs cnf_empty card s2) as [c|e]; cbn [bind]; [discriminate|intros X; injection X as ->; auto].
Qed.
End Def.

(** ** Pruning *)
Definition weight (gs : list gate) (visited : list var) : nat :=
  list_sum (map (fun v => if existsb (Nat.eqb v) visited then 0 else length (g_inp (nth v gs gate_none))) (seq 0 (length gs))).
Lemma weight_visit gs visited v : v < length gs -> existsb (Nat.eqb v) visited = false ->
  weight gs (v :: visited) + length (g_inp (nth v gs gate_none)) = weight gs visited.
Proof.
  intros Hv Hn. unfold weight. assert (HIN : In v (seq 0 (length gs))) by (apply in_seq; lia). assert (HND := seq_NoDup (length gs) 0).
  revert HIN HND. generalize (seq 0 (length gs)). induction l as [|w l IH]; intros HIN HND; [destruct HIN|]. inversion HND as [|? ? N1 N2]; subst.
  cbn [map list_sum fold_right]. destruct HIN as [->|HIN].
  - cbn [existsb]. rewrite Nat.eqb_refl. cbn [orb]. rewrite Hn.
    assert (E : map (fun v0 => if (v0 =? v) || existsb (Nat.eqb v0) visited then 0 else length (g_inp (nth v0 gs gate_none))) l = map (fun v0 => if existsb (Nat.eqb v0) visited then 0 else length (g_inp (nth v0 gs gate_none))) l).
    { apply map_ext_in. intros w Hw. destruct (Nat.eqb_spec w v); [subst; contradiction|]. reflexivity. }
    rewrite E. unfold list_sum. lia.
  - specialize (IH HIN N2). cbn [existsb] in *. destruct (Nat.eqb_spec w v) as [->|Hw]; [contradiction|]. cbn [orb].
    unfold list_sum in *. lia.
Qed.
Lemma defined_len gs v : defined gs v = true -> v < length gs.
Proof. unfold defined. destruct (Nat.lt_ge_cases v (length gs)); auto. rewrite nth_overflow by auto. discriminate. Qed.
Definition gate_cls (gs : list gate) : list nat := flat_map (fun gt => g_fwd gt ++ g_bwd gt) gs.
Lemma prune_ok gs m fuel : forall work visited res, length work + weight gs visited <= fuel ->
  exists r, prune_loop fuel gs m work visited res = Ok r /\ (forall c, In c res -> In c r) /\ forall c, In c r -> In c res \/ In c (gate_cls gs).
Proof.
  induction fuel as [|fuel IH]; intros work visited res Hf; destruct work as [|o work]; cbn [prune_loop].
  - exists res. auto.
  - cbn in Hf. lia.
  - exists res. auto.
  - cbn [length] in Hf. destruct (defined gs (lvar o)) eqn:Ed; [|cbn [andb]; apply IH; lia].
    destruct (existsb (Nat.eqb (lvar o)) visited) eqn:Ev; [cbn [andb negb]; apply IH; lia|].
    set (gt := nth (lvar o) gs gate_none) in *. destruct (g_notMono gt || satisfies m o) eqn:Es; [cbn [andb negb]|cbn [andb negb]; apply IH; lia].
    assert (Hl := defined_len gs _ Ed). assert (HW := weight_visit gs visited _ Hl Ev). change (nth (lvar o) gs gate_none) with gt in HW.
    destruct (IH (rev (g_inp gt) ++ work) (lvar o :: visited) (res ++ g_fwd gt ++ (if g_notMono gt then g_bwd gt else []))) as (r & R1 & R2 & R3).
    { rewrite app_length, rev_length. clear - Hf HW. clearbody gt. unfold lit, var in *. lia. }
    exists r. split; auto. split; [intros c Hc; apply R2; apply in_or_app; auto|]. intros c Hc. destruct (R3 c Hc) as [H|H]; auto.
    apply in_app_or in H. destruct H as [H|H]; auto. right. unfold gate_cls. apply in_flat_map. exists gt. split; [apply nth_In; auto|].
    apply in_app_or in H. apply in_or_app. destruct H as [H|H]; auto. destruct (g_notMono gt); [auto|destruct H].
Qed.
Lemma weight_all gs : weight gs [] <= length (flat_map g_inp gs).
Proof.
  unfold weight. cbn [existsb]. assert (E : flat_map g_inp gs = flat_map (fun v => g_inp (nth v gs gate_none)) (seq 0 (length gs))).
  { rewrite !flat_map_concat_map. f_equal. rewrite <- (map_map (fun v => nth v gs gate_none) g_inp). f_equal.
    clear. apply nth_ext with (d := gate_none) (d' := gate_none); [rewrite map_length, seq_length; auto|].
    intros i Hi. assert (X := map_nth (fun v => nth v gs gate_none) (seq 0 (length gs)) (length gs) i).
    transitivity (nth i (map (fun v => nth v gs gate_none) (seq 0 (length gs))) (nth (length gs) gs gate_none)); [rewrite X, seq_nth by auto; reflexivity|].
    apply nth_indep. rewrite map_length, seq_length. auto. }
  rewrite E. clear E. induction (seq 0 (length gs)) as [|v l IH]; [cbn; lia|]. cbn [map flat_map list_sum fold_right]. rewrite app_length. unfold list_sum in *. lia.
Qed.
Lemma pruned_ok cs g m : exists ids, getPrunedProblem cs g m = Ok ids /\
  (forall c, In c (roots g) \/ In c (remainder g) -> In c ids) /\
  forall c, In c ids -> In c (roots g ++ gate_cls (gates g) ++ remainder g).
Proof.
  unfold getPrunedProblem. destruct (prune_ok (gates g) m (prune_fuel cs g) (rev (getRootLiterals cs g)) [] (roots g)) as (r & R1 & R2 & R3).
  { unfold prune_fuel. rewrite rev_length. assert (H := weight_all (gates g)). lia. }
  rewrite R1. cbn [bind]. exists (r ++ remainder g). split; auto. split.
  - intros c [H|H]; apply in_or_app; auto.
  - intros c Hc. apply in_app_or in Hc. rewrite !in_app_iff. destruct Hc as [H|H]; auto. destruct (R3 c H); auto.
Qed.

(** ** The whole function *)
Lemma pos_var K : map lvar (map pos K) = K.
Proof. rewrite map_map. rewrite <- (map_id K) at 2. apply map_ext. intros v. apply lvar_mk. Qed.
Lemma wf_lt n cs c l : wf_problem n cs -> In c cs -> In l c -> lvar l < n.
Proof. intros H Hc Hl. apply (H c Hc). auto. Qed.
Lemma pruned_clauses G p g m : wf_problem (variables p) (problem p) -> analyze G p = Ok g -> exists ids, getPrunedProblem (problem p) g m = Ok ids /\
  (forall c, In c (roots g) \/ In c (remainder g) -> In c ids) /\ forall c, In c ids -> In (cl (problem p) c) (problem p).
Proof.
  intros HW HG. destruct (C34_partition_nonempty G p HW) as (g' & E & HP). rewrite HG in E. injection E as <-.
  destruct (pruned_ok (problem p) g m) as (ids & I1 & I2 & I3). exists ids. split; auto. split; auto. intros c Hc.
  assert (HX := Permutation_in _ HP (I3 c Hc)). apply filter_In in HX. destruct HX as (HX & _). apply in_seq in HX. apply nth_In. lia.
Qed.

Lemma min_core C O G fuel p m pruning minimal project mm f : wf_problem (variables p) (problem p) -> model_sat m (problem p) -> model_total (variables p) m ->
  mimimizeModel C O G fuel p m pruning minimal project = Ok mm ->
  (pruning = false -> f = problem p) -> (pruning = true -> forall g ids, analyze G p = Ok g -> getPrunedProblem (problem p) g m = Ok ids -> f = map (cl (problem p)) ids) ->
  exists K K1 g, (if pruning || project then analyze G p else Ok (gp_new (variables p))) = Ok g /\
    iterativeMinimization (min_cfg C) O fuel (variables p) fuel (map (pure m) f) minimal = Ok (map pos K) /\
    incl f (problem p) /\ NoDup K /\ (forall v, In v K -> v < variables p) /\ hits K (map (pure m) f) /\
    (noterm O -> (forall v, In v K -> ~ hits (remove Nat.eq_dec v K) (map (pure m) f)) /\
      iterativeMinimization (min_cfg C) O fuel (variables p) fuel (map (pure m) f) false = Ok (map pos K)) /\
    (project = false -> K1 = K) /\ incl K1 K /\ NoDup K1 /\
    mm = fold_left (fun r l => setModelValue r (if satisfies m l then l else lneg l)) (map pos K1) [].
Proof.
  intros HW HM HT E F1 F2. unfold mimimizeModel in E. apply bind_ok in E. destruct E as (g & Eg & E). apply bind_ok in E. destruct E as (hs & Eh & E).
  assert (HF : incl f (problem p) /\ hs = map (pure m) f).
  { destruct pruning; cbn [orb] in *.
    - apply bind_ok in Eh. destruct Eh as (ids & Ei & Eh). rewrite (F2 eq_refl g ids Eg Ei) in *.
      destruct (pruned_clauses G p g m HW Eg) as (ids' & I1 & I2 & I3). rewrite Ei in I1. injection I1 as <-.
      assert (HIN : incl (map (cl (problem p)) ids) (problem p)) by (intros c Hc; apply in_map_iff in Hc; destruct Hc as (i & <- & Hi); auto).
      split; auto. rewrite purify_ok in Eh; [congruence|]. intros c l Hc Hl. apply (total_len (variables p)); auto. apply (wf_lt _ (problem p) c); auto.
    - rewrite (F1 eq_refl). split; [apply incl_refl|]. rewrite purify_ok in Eh; [congruence|]. intros c l Hc Hl. apply (total_len (variables p)); auto. apply (wf_lt _ (problem p) c); auto. }
  destruct HF as (HIN & ->). apply bind_ok in E. destruct E as (k & Ek & E). injection E as <-.
  assert (HP : pos_formula (variables p) (map (pure m) f)).
  { apply pure_pos; [intros c l Hc Hl; apply (wf_lt _ (problem p) c); auto|intros c Hc; apply HM; auto]. }
  destruct (iter_spec (min_cfg C) O fuel (variables p) _ eq_refl eq_refl HP fuel minimal k Ek) as (K & -> & K1 & K2 & K3 & K4).
  exists K, (map lvar (if project then filter (fun l => negb (defined (gates g) (lvar l))) (map pos K) else map pos K)), g.
  split; auto. split; auto. split; auto. split; auto. split; auto. split; auto. split; auto. split; [intros ->; apply pos_var|].
  assert (HS : forall P : lit -> bool, map lvar (filter P (map pos K)) = filter (fun v => P (pos v)) K /\ filter P (map pos K) = map pos (filter (fun v => P (pos v)) K)).
  { intros P. assert (HX : filter P (map pos K) = map pos (filter (fun v => P (pos v)) K)).
    { clear. induction K as [|v K IH]; auto. cbn [map filter]. destruct (P (pos v)); cbn [map]; rewrite IH; auto. }
    split; auto. rewrite HX. apply pos_var. }
  destruct project.
  - destruct (HS (fun l => negb (defined (gates g) (lvar l)))) as (S1 & S2). rewrite S1. split; [intros v Hv; apply filter_In in Hv; tauto|]. split; [apply NoDup_filter; auto|]. rewrite S2. reflexivity.
  - rewrite pos_var. split; [apply incl_refl|]. split; auto.
Qed.

Lemma kept_lits m K l : NoDup K -> In l (getModelLiterals (fold_left (fun r l => setModelValue r (if satisfies m l then l else lneg l)) (map pos K) [])) <-> In l (map (pol m) (map pos K)).
Proof. intros H. apply kept_in. rewrite pos_var. auto. Qed.
Lemma implicant_ext k k' f : (forall l, In l k <-> In l k') -> implicant k f -> implicant k' f.
Proof. intros H HI a Ha. apply HI. intros l Hl. apply Ha, H, Hl. Qed.

Lemma min_subset C O G fuel p m pruning minimal project mm : wf_problem (variables p) (problem p) -> model_sat m (problem p) -> model_total (variables p) m ->
  mimimizeModel C O G fuel p m pruning minimal project = Ok mm -> forall l, In l (getModelLiterals mm) -> model_lit m l.
Proof.
  intros HW HM HT E l Hl.
  assert (Hf : exists f, (pruning = false -> f = problem p) /\ (pruning = true -> forall g ids, analyze G p = Ok g -> getPrunedProblem (problem p) g m = Ok ids -> f = map (cl (problem p)) ids)).
  { destruct pruning; [|exists (problem p); split; [auto|discriminate]]. destruct (C34_partition_nonempty G p HW) as (g & Eg & _). destruct (pruned_clauses G p g m HW Eg) as (ids & Ei & _).
    exists (map (cl (problem p)) ids). split; [discriminate|]. intros _ g' ids' X Y. congruence. }
  destruct Hf as (f & F1 & F2).
  destruct (min_core C O G fuel p m pruning minimal project mm f HW HM HT E F1 F2) as (K & K1 & g & _ & _ & _ & _ & HK & _ & _ & _ & HI & HN & ->).
  apply kept_lits in Hl; auto. apply in_map_iff in Hl. destruct Hl as (x & <- & Hx). apply in_map_iff in Hx. destruct Hx as (v & <- & Hv).
  apply (pol_spec (variables p) m v); auto. rewrite pol_var. apply lvar_mk.
Qed.

Lemma min_implicant C O G fuel p m minimal mm : wf_problem (variables p) (problem p) -> model_sat m (problem p) -> model_total (variables p) m ->
  mimimizeModel C O G fuel p m false minimal false = Ok mm -> implicant (getModelLiterals mm) (problem p).
Proof.
  intros HW HM HT E. destruct (min_core C O G fuel p m false minimal false mm (problem p) HW HM HT E (fun _ => eq_refl)) as (K & K1 & g & _ & _ & _ & H1 & H2 & H3 & _ & H4 & _ & H5 & ->); [discriminate|].
  rewrite (H4 eq_refl) in *. apply (implicant_ext (map (pol m) (map pos K))); [intros l; symmetry; apply kept_lits; auto|]. apply (hits_implicant (variables p)); auto.
Qed.
Lemma min_prime C O G fuel p m minimal mm : wf_problem (variables p) (problem p) -> model_sat m (problem p) -> model_total (variables p) m ->
  (forall k i, o_term (O k) i = false) ->
  mimimizeModel C O G fuel p m false minimal false = Ok mm -> prime_implicant (getModelLiterals mm) (problem p) /\
  mimimizeModel C O G fuel p m false false false = Ok mm.
Proof.
  intros HW HM HT HO E. split; [split; [apply (min_implicant C O G fuel p m minimal); auto|]|].
  - destruct (min_core C O G fuel p m false minimal false mm (problem p) HW HM HT E (fun _ => eq_refl)) as (K & K1 & g & _ & _ & _ & H1 & H2 & H3 & H6 & H4 & _ & H5 & ->); [discriminate|].
    rewrite (H4 eq_refl) in *. intros l Hl. apply kept_lits in Hl; auto. apply in_map_iff in Hl. destruct Hl as (x & <- & Hx). apply in_map_iff in Hx. destruct Hx as (v & <- & Hv).
    destruct (H6 HO) as (H7 & _). destruct (miss_falsify (variables p) m (problem p) (remove Nat.eq_dec v K)) as (a & A1 & A2); auto.
    { intros w Hw. apply in_remove in Hw. apply H2. tauto. }
    exists a. split; auto. intros l' Hl' Hne. apply A1. apply kept_lits in Hl'; auto. rewrite map_map in *. apply in_map_iff in Hl'. destruct Hl' as (w & <- & Hw).
    apply in_map_iff. exists w. split; auto. apply in_in_remove; auto.
  - assert (E2 := E). destruct (min_core C O G fuel p m false minimal false mm (problem p) HW HM HT E (fun _ => eq_refl)) as (K & K1 & g & _ & I1 & _ & H1 & H2 & H3 & H6 & H4 & _ & H5 & Hm); [discriminate|].
    destruct (H6 HO) as (_ & H7). unfold mimimizeModel in *. cbn [orb bind] in *.
    assert (HPu : purify m (problem p) = Ok (map (pure m) (problem p))) by (apply purify_ok; intros c l Hc Hl; apply (total_len (variables p)); auto; apply (wf_lt _ (problem p) c); auto).
    rewrite HPu in *. cbn [bind] in *. rewrite I1 in E2. rewrite H7. cbn [bind] in *. exact E2.
Qed.
Lemma min_pruned C O G fuel p m minimal mm g : wf_problem (variables p) (problem p) -> model_sat m (problem p) -> model_total (variables p) m ->
  mimimizeModel C O G fuel p m true minimal false = Ok mm -> analyze G p = Ok g ->
  exists ids, getPrunedProblem (problem p) g m = Ok ids /\ incl (roots g ++ remainder g) ids /\ implicant (getModelLiterals mm) (map (cl (problem p)) ids).
Proof.
  intros HW HM HT E Eg. destruct (pruned_clauses G p g m HW Eg) as (ids & Ei & I2 & I3). exists ids. split; auto. split; [intros c Hc; apply I2; apply in_app_or; auto|].
  destruct (min_core C O G fuel p m true minimal false mm (map (cl (problem p)) ids) HW HM HT E) as (K & K1 & g' & _ & _ & _ & H1 & H2 & H3 & _ & H4 & _ & H5 & ->); [discriminate|intros _ g' ids' X Y; congruence|].
  rewrite (H4 eq_refl) in *. apply (implicant_ext (map (pol m) (map pos K))); [intros l; symmetry; apply kept_lits; auto|]. apply (hits_implicant (variables p)); auto.
Qed.
Lemma min_defined C O G fuel p m pruning minimal project : wf_problem (variables p) (problem p) -> model_total (variables p) m ->
  mimimizeModel C O G fuel p m pruning minimal project <> Err UB.
Proof.
  intros HW HT. unfold mimimizeModel. destruct (C34_partition_nonempty G p HW) as (g & Eg & _).
  assert (HPu : forall f, incl f (problem p) -> purify m f = Ok (map (pure m) f)) by (intros f Hf; apply purify_ok; intros c l Hc Hl; apply (total_len (variables p)); auto; apply (wf_lt _ (problem p) c); auto).
  assert (HD := fun hs => iter_defined (min_cfg C) O fuel (variables p) eq_refl eq_refl fuel hs minimal).
  destruct pruning; [|destruct project]; cbn [orb]; rewrite ?Eg; cbn [bind].
  - destruct (pruned_clauses G p g m HW Eg) as (ids & Ei & _ & I3). rewrite Ei. cbn [bind]. rewrite HPu by (intros c Hc; apply in_map_iff in Hc; destruct Hc as (i & <- & Hi); auto). cbn [bind].
    specialize (HD (map (pure m) (map (cl (problem p)) ids))). destruct (iterativeMinimization _ _ _ _ _ _ _); cbn [bind]; [discriminate|intros X; injection X as ->; auto].
  - rewrite HPu by apply incl_refl. cbn [bind]. specialize (HD (map (pure m) (problem p))). destruct (iterativeMinimization _ _ _ _ _ _ _); cbn [bind]; [discriminate|intros X; injection X as ->; auto].
  - rewrite HPu by apply incl_refl. cbn [bind]. specialize (HD (map (pure m) (problem p))). destruct (iterativeMinimization _ _ _ _ _ _ _); cbn [bind]; [discriminate|intros X; injection X as ->; auto].
Qed.
