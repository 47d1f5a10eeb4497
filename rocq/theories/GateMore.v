(** The theorems about gates, assembled. *)
Require Import List Arith Bool NArith Lia Permutation.
From Coq Require Import ZifyBool ZifyNat ZifyN.
Require Import Verif.Base Verif.Outcome Verif.CNFModel Verif.CNFProofs Verif.TrailProofs Verif.GateModel Verif.GateSpec Verif.BlockProofs Verif.BlockMore Verif.GatePat Verif.GateProofs Verif.DfsProofs.
Import ListNotations.

Lemma len1 {A} (l : list A) : length l = 1 -> exists x, l = [x].
Proof. destruct l as [|x [|y l]]; cbn; intros H; try discriminate. eauto. Qed.
Lemma nodup_len (l m : list nat) : NoDup l -> NoDup m -> (forall x, In x l <-> In x m) -> length l = length m.
Proof. intros H1 H2 H. apply Nat.le_antisymm; apply NoDup_incl_length; auto; intros x Hx; apply H; auto. Qed.

Lemma pattern_functional cfg cs n o g : wf_problem n cs -> good cfg cs n o g -> patternCheck cs o (g_fwd g) (g_bwd g) = true -> (length (g_fwd g) = length (g_bwd g) -> complete_clauses cs g) -> functional cs o (gate_clauses g).
Proof.
  intros WF HG HP HC. destruct HG as [_ _ _ HF HB ND HT HI _]. unfold gate_clauses in *. set (fwd := g_fwd g) in *. set (bwd := g_bwd g) in *. unfold patternCheck in HP. fold (fwd_inp cs o fwd) in HP. fold (bwd_inp cs o bwd) in HP.
  destruct (list_eq_dec Nat.eq_dec (fwd_inp cs o fwd) (bwd_inp cs o bwd)) as [HE|]; [|discriminate]. cbn [negb] in HP.
  destruct ((length fwd =? 1) && (length bwd =? 1) && (length (cl cs (hd 0 fwd)) =? 2) && (length (cl cs (hd 0 bwd)) =? 2)) eqn:E1.
  { rewrite !andb_true_iff, !Nat.eqb_eq in E1. destruct E1 as (((E1 & E2) & E3) & E4). apply len1 in E1. apply len1 in E2. destruct E1 as (c & E1), E2 as (d & E2). apply (pat_or cs n WF o fwd bwd HF HB HT HE c E1). rewrite E2 in *. intros x [<-|[]]. auto. }
  clear E1. destruct ((length fwd =? 1) && fixedClauseSize cs bwd 2) eqn:E2.
  { apply andb_true_iff in E2. rewrite Nat.eqb_eq in E2. destruct E2 as (E2 & E3). apply len1 in E2. destruct E2 as (c & E2). apply (pat_or cs n WF o fwd bwd HF HB HT HE c E2). intros x Hx. unfold fixedClauseSize in E3. rewrite forallb_forall in E3. apply Nat.eqb_eq. auto. }
  clear E2. destruct ((length bwd =? 1) && fixedClauseSize cs fwd 2) eqn:E2.
  { apply andb_true_iff in E2. rewrite Nat.eqb_eq in E2. destruct E2 as (E2 & E3). apply len1 in E2. destruct E2 as (c & E2). apply (pat_and cs n WF o fwd bwd HF HB HT HE c E2). intros x Hx. unfold fixedClauseSize in E3. rewrite forallb_forall in E3. apply Nat.eqb_eq. auto. }
  clear E2. destruct ((length fwd =? length bwd) && _) eqn:E3; [|discriminate]. apply andb_true_iff in E3. rewrite Nat.eqb_eq in E3. destruct E3 as (EL & E3). apply N.eqb_eq in E3. apply Nat.eqb_eq in HP. fold (vars_inp cs o fwd) in HP.
  destruct (HC EL) as (C1 & C2). unfold gate_clauses in *. fold fwd in C1, C2. fold bwd in C1, C2.
  assert (EV : length (nodup Nat.eq_dec (map lvar (g_inp g))) = length (vars_inp cs o fwd)).
  { apply nodup_len; [apply NoDup_nodup|apply to_set_nodup|]. intros v. rewrite nodup_In, in_map_iff, vars_in. split; intros (l & A & A').
    - exists l. split; auto. apply (fwd_inp_in cs n WF o fwd HF). apply HI in A'. destruct A' as (c & Hc & Hl). exists c. split; auto. apply (fwd_rest cs n WF o fwd HF c l Hc). auto.
    - exists l. split; auto. apply HI. apply (fwd_inp_in cs n WF o fwd HF) in A. destruct A as (c & Hc & Hl). exists c. split; auto. apply (fwd_rest cs n WF o fwd HF c l Hc). auto. }
  rewrite EV in C1. apply (pat_full cs n WF o fwd bwd); auto.
  - apply (NoDup_app_l _ _ ND).
  - clear - ND. induction fwd as [|x f IH]; auto. inversion ND; auto.
  - rewrite <- HP in E3. replace (N.of_nat (2 * length (vars_inp cs o fwd)) / 2)%N with (N.of_nat (length (vars_inp cs o fwd))) in E3; [|rewrite Nat2N.inj_mul; change (N.of_nat 2) with 2%N; rewrite N.mul_comm, N.div_mul; auto; discriminate].
    apply Nat2N.inj. rewrite Nat2N.inj_mul, Nat2N.inj_pow. exact E3.
Qed.

Lemma partition_ok cfg p : wf_problem (variables p) (problem p) ->
  exists g, analyze cfg p = Ok g /\
    Permutation (roots g ++ flat_map gate_clauses (gates g) ++ remainder g) (filter (fun c => negb (length (cl (problem p) c) =? 0)) (seq 0 (length (problem p)))).
Proof.
  intros WF. destruct (analyze_ok cfg p WF) as (g & E & _ & HP & _). exists g. split; auto. set (cs := problem p) in *.
  assert (HS : Permutation (filter (fun c => negb (length (cl cs c) =? 0)) (seq 0 (length cs)) ++ filter (fun c => match cl cs c with [] => true | _ => false end) (seq 0 (length cs))) (seq 0 (length cs))).
  { clear. induction (seq 0 (length cs)) as [|c l IH]; cbn [filter app]; auto. destruct (cl cs c); cbn [length Nat.eqb negb app]; [rewrite <- Permutation_middle|]; constructor; auto. }
  apply (fun H => Permutation_trans H (Permutation_sym HS)) in HP. rewrite (app_assoc (flat_map gate_clauses (gates g))) in HP. rewrite app_assoc in HP. apply Permutation_app_inv_r in HP. auto.
Qed.
Lemma partition_full cfg p : wf_problem (variables p) (problem p) -> (forall c, In c (problem p) -> c <> []) ->
  exists g, analyze cfg p = Ok g /\ Permutation (roots g ++ flat_map gate_clauses (gates g) ++ remainder g) (seq 0 (length (problem p))).
Proof.
  intros WF NE. destruct (partition_ok cfg p WF) as (g & E & HP). exists g. split; auto. rewrite HP. rewrite (filter_ext_in _ (fun _ => true)); [clear; induction (seq 0 _); cbn; auto|]. intros c Hc. apply in_seq in Hc. assert (HI : In (cl (problem p) c) (problem p)) by (unfold cl; apply nth_In; lia). apply NE in HI. destruct (cl (problem p) c); [contradiction|auto].
Qed.
Lemma gates_ok cfg p g v o : wf_problem (variables p) (problem p) -> analyze cfg p = Ok g -> g_out (nth v (gates g) gate_none) = Some o ->
  let gt := nth v (gates g) gate_none in
  lvar o = v /\ v < variables p /\ g_fwd gt <> [] /\ (forall c, In c (g_fwd gt) -> In (lneg o) (cl (problem p) c)) /\ (forall c, In c (g_bwd gt) -> In o (cl (problem p) c)) /\
  (forall l, In l (g_inp gt) <-> exists c, In c (g_fwd gt) /\ In l (cl (problem p) c) /\ l <> lneg o) /\
  left_total (problem p) o (gate_clauses gt) /\
  (g_notMono gt = true -> sound_solver cfg -> (usePatterns cfg = true -> length (g_fwd gt) = length (g_bwd gt) -> complete_clauses (problem p) gt) ->
     functional (problem p) o (gate_clauses gt) \/ (useHolistic cfg = true /\ forall x, ~ (sat (make_true x o) (problem p) /\ sat (make_true x (lneg o)) (problem p)))).
Proof.
  intros WF E EO gt. destruct (analyze_ok cfg p WF) as (g' & E' & HL & _ & HG & _). rewrite E in E'. injection E' as <-.
  assert (Hv : v < variables p). { destruct (Nat.lt_ge_cases v (variables p)); auto. rewrite nth_overflow in EO by lia. discriminate. }
  destruct (HG v Hv) as [H|(o' & Ev & Hgood)]; [rewrite H in EO; discriminate|]. fold gt in Hgood, EO. assert (o' = o) by (pose proof (gd_out _ _ _ _ _ Hgood); congruence). subst o'.
  split; auto. split; auto. split; [apply (gd_ne _ _ _ _ _ Hgood)|]. split; [apply (gd_fwd _ _ _ _ _ Hgood)|]. split; [apply (gd_bwd _ _ _ _ _ Hgood)|]. split; [apply (gd_inp _ _ _ _ _ Hgood)|]. split.
  - apply (gate_left_total (problem p) (variables p) WF); destruct Hgood; auto.
  - intros HM SO HC. destruct (gd_why _ _ _ _ _ Hgood SO HM) as [(EP & HP)|[(ES & HF)|(EH & HD)]]; auto. left. apply (pattern_functional cfg (problem p) (variables p)); auto.
Qed.

(** ** the counter overflows at 65536 occurrences *)
Definition many (k : nat) : list clause := repeat [0] k.
Lemma many_wf k : wf_problem 1 (many k).
Proof. intros c Hc. apply repeat_spec in Hc. subst c. split; [repeat constructor; intros []|]. split; [intros (l & [<-|[]] & [H|[]]); discriminate|]. intros l [<-|[]]. cbn. lia. Qed.
Lemma many_cl k c : In (lneg 0) (cl (many k) c) -> False.
Proof. unfold cl. destruct (nth_in_or_default c (many k) []) as [H| ->]; [apply repeat_spec in H; rewrite H; intros [H'|[]]; discriminate|intros []]. Qed.
Lemma many_overflow k : N.of_nat k = 65536%N -> (forall c, In c (seq 0 k) -> In 0 (cl (many k) c) -> blocked (many k) (seq 0 k) 0 c) /\ fst (isBlockedSet (many k) 0 (bl_new 1 (many k))) = false.
Proof.
  intros Ek. assert (HB : forall c, In c (seq 0 k) -> In 0 (cl (many k) c) -> blocked (many k) (seq 0 k) 0 c) by (intros c _ _ d _ Hd; exfalso; apply (many_cl k d Hd)). split; auto.
  destruct (new_ok (many k) 1 (many_wf k)) as (HI & HC). assert (EK : length (many k) = k) by apply repeat_length. rewrite EK in HI. destruct (isBlockedSet (many k) 0 (bl_new 1 (many k))) as (r, b') eqn:E. cbn [fst]. destruct (set_ok (many k) 1 _ _ 0 HI HC ltac:(lia) _ _ E) as (HS & _). apply (all_blocked_iff (many k) 1 (many_wf k) _ _ 0 HI) in HB. destruct r; auto. exfalso. destruct HS as (HS & _). specialize (HS eq_refl). rewrite HB in HS.
  assert (EL : length (occs (bl_new 1 (many k)) 0) = k).
  { transitivity (length (seq 0 k)); [|apply seq_length]. apply nodup_len; [apply (i_nd _ _ _ _ HI)|apply seq_NoDup|]. intros c. rewrite (i_in _ _ _ _ HI). split; [tauto|]. intros H. split; auto. apply in_seq in H. assert (HX : In (cl (many k) c) (many k)) by (unfold cl; apply nth_In; lia). apply repeat_spec in HX. rewrite HX. left. auto. }
  rewrite EL, Ek in HS. vm_compute in HS. discriminate.
Qed.

(** ** GateBuilder *)
Ltac gate_tac x o a b := rewrite <- satb_spec; unfold satb, sat_clauseb; cbn [forallb existsb]; rewrite ?lit_val_neg; destruct (lit_val x o), (lit_val x a), (lit_val x b); cbn; split; auto; discriminate.
Lemma and_full x o a b : sat x (and_gate o a b true) <-> lit_val x o = lit_val x a && lit_val x b.
Proof. unfold and_gate. gate_tac x o a b. Qed.
Lemma or_full x o a b : sat x (or_gate o a b true) <-> lit_val x o = lit_val x a || lit_val x b.
Proof. unfold or_gate. gate_tac x o a b. Qed.
Lemma xor_full x o a b : sat x (xor_gate o a b true) <-> lit_val x o = xorb (lit_val x a) (lit_val x b).
Proof. unfold xor_gate. gate_tac x o a b. Qed.
Lemma and_half x o a b : sat x (and_gate o a b false) <-> implb (lit_val x o) (lit_val x a && lit_val x b) = true.
Proof. unfold and_gate. gate_tac x o a b. Qed.
Lemma or_half x o a b : sat x (or_gate o a b false) <-> implb (lit_val x o) (lit_val x a || lit_val x b) = true.
Proof. unfold or_gate. gate_tac x o a b. Qed.
Lemma xor_half x o a b : sat x (xor_gate o a b false) <-> implb (lit_val x o) (xorb (lit_val x a) (lit_val x b)) = true.
Proof. unfold xor_gate. gate_tac x o a b. Qed.

(** ** Concrete cases and consequences *)
Lemma overflow_refuted : exists cs n o, wf_problem n cs /\ o < 2 * n /\
  (forall c, In c (seq 0 (length cs)) -> In o (cl cs c) -> blocked cs (seq 0 (length cs)) o c) /\
  fst (isBlockedSet cs o (block_state cs n [])) = false.
Proof.
  pose proof (N2Nat.id 65536) as HK. revert HK. generalize (N.to_nat 65536). intros k HK. destruct (many_overflow k HK) as (H1 & H2). exists (many k), 1, 0. split; [apply many_wf|]. split; [lia|]. assert (EK : length (many k) = k) by apply repeat_length. rewrite EK. auto.
Qed.
Lemma wf_check n cs : forallb (fun c => forallb (fun l => negb (existsb (Nat.eqb (lneg l)) c)) c && (length (nodup Nat.eq_dec c) =? length c) && forallb (fun l => lvar l <? n) c) cs = true -> wf_problem n cs.
Proof.
  intros H c Hc. rewrite forallb_forall in H. specialize (H c Hc). rewrite !andb_true_iff in H. destruct H as ((H1 & H2) & H3). split; [|split; [intros (l & T1 & T2); rewrite forallb_forall in H1; specialize (H1 l T1); rewrite (proj2 (mem_spec _ _) T2) in H1; discriminate|]].
  - apply Nat.eqb_eq in H2. eapply NoDup_incl_NoDup; [apply (NoDup_nodup Nat.eq_dec c)|apply Nat.eq_le_incl; symmetry; exact H2|intros x Hx; apply nodup_In in Hx; exact Hx].
  - intros l Hl. rewrite forallb_forall in H3. apply Nat.ltb_lt, H3. auto.
Qed.
Lemma gates_left_total cfg p g v o : wf_problem (variables p) (problem p) -> analyze cfg p = Ok g ->
  g_out (nth v (gates g) gate_none) = Some o -> lvar o = v /\ left_total (problem p) o (gate_clauses (nth v (gates g) gate_none)).
Proof. intros WF E EO. destruct (gates_ok cfg p g v o WF E EO) as (A1 & A2 & A3 & A4 & A5 & A6 & A7 & A8). auto. Qed.
Lemma gates_functional cfg p g v o : wf_problem (variables p) (problem p) -> analyze cfg p = Ok g ->
  let gt := nth v (gates g) gate_none in
  g_out gt = Some o -> g_notMono gt = true -> sound_solver cfg ->
  (usePatterns cfg = true -> length (g_fwd gt) = length (g_bwd gt) -> complete_clauses (problem p) gt) ->
  functional (problem p) o (gate_clauses gt) \/
  (useHolistic cfg = true /\ forall x, ~ (sat (make_true x o) (problem p) /\ sat (make_true x (lneg o)) (problem p))).
Proof. intros WF E gt EO HM SO HC. destruct (gates_ok cfg p g v o WF E EO) as (A1 & A2 & A3 & A4 & A5 & A6 & A7 & A8). auto. Qed.
Lemma gates_shape cfg p g v o : wf_problem (variables p) (problem p) -> analyze cfg p = Ok g ->
  let gt := nth v (gates g) gate_none in g_out gt = Some o ->
  g_fwd gt <> [] /\ (forall c, In c (g_fwd gt) -> In (lneg o) (cl (problem p) c)) /\ (forall c, In c (g_bwd gt) -> In o (cl (problem p) c)) /\
  (forall l, In l (g_inp gt) <-> exists c, In c (g_fwd gt) /\ In l (cl (problem p) c) /\ l <> lneg o).
Proof. intros WF E gt EO. destruct (gates_ok cfg p g v o WF E EO) as (A1 & A2 & A3 & A4 & A5 & A6 & A7 & A8). auto. Qed.
Lemma empty_refuted : exists p, p = readClauses cnf_empty [[]] /\ unsat (problem p) /\ forall cfg, exists g,
  analyze cfg p = Ok g /\ roots g = [] /\ flat_map (fun gt => g_fwd gt ++ g_bwd gt) (gates g) = [] /\ remainder g = [].
Proof.
  eexists. split; [reflexivity|]. split; [intros a Ha; apply (sat_clause_nil a); apply Ha; left; auto|]. intros cfg. destruct (partition_ok cfg (readClauses cnf_empty [[]])) as (g & E & HP); [apply wf_check; reflexivity|]. exists g. split; auto. cbn in HP. apply Permutation_sym, Permutation_nil in HP. apply app_eq_nil in HP. destruct HP as (H1 & H2). apply app_eq_nil in H2. auto.
Qed.
Lemma topo_ok gs root_lits : in_range gs root_lits -> exists order, getTopoOrder gs root_lits = Ok order /\
  NoDup order /\ (forall v, In v order <-> reachable (fun _ => false) gs root_lits v) /\
  (acyclic (fun _ => false) gs -> forall u v, In u order -> child (fun _ => false) gs u v -> before v u order).
Proof. intros _. destruct (dfs_ok (fun _ => false) gs root_lits) as (es & E & (H & _)). exists (backtracked es). unfold getTopoOrder. rewrite E. cbn [bind]. split; auto. Qed.

(** ** The gates of an analysis have no cycle *)
Lemma recognised_acyclic prune gs : recognised gs -> acyclic prune gs.
Proof.
  intros (L & LN & LD & LO).
  assert (DF : forall v, defined gs v = true -> In v L). { intros v. rewrite LD. unfold defined. destruct (g_out _); discriminate. }
  assert (ST : forall u v, In u L -> child prune gs u v -> exists x y z, L = x ++ v :: y ++ u :: z).
  { intros u v Hu (D & _ & i & Hi & <-). destruct (in_split _ _ Hu) as (x & y & E). pose proof (LO x u y E i Hi) as HN. pose proof (DF _ D) as HV. rewrite E in HV. apply in_app_iff in HV. destruct HV as [HV|HV]; [|contradiction].
    destruct (in_split _ _ HV) as (a & b & Ex). exists a, b, y. rewrite E, Ex, <- app_assoc. reflexivity. }
  assert (PD : forall u v, path prune gs u v -> defined gs v = true) by (induction 1 as [u v (D & _)|]; auto).
  assert (PT : forall u v, path prune gs u v -> In u L -> exists x y z, L = x ++ v :: y ++ u :: z).
  { induction 1 as [u v C|u v w C P IH]; intros Hu; auto. assert (HV : In v L) by (apply DF, C). destruct (IH HV) as (x & y & z & E1). destruct (ST _ _ Hu C) as (a & b & c & E2).
    rewrite app_comm_cons, app_assoc in E1. rewrite E1 in E2. assert (LN2 := LN). rewrite E1 in LN2. 
    assert (EQ : forall (p q r s : list var), NoDup (p ++ v :: q) -> p ++ v :: q = r ++ v :: s -> q = s).
    { clear. induction p as [|k p IH]; intros q r s ND E; destruct r as [|k' r]; [injection E as E1; auto|injection E as E1 E2; subst|injection E as E1 E2; subst|injection E as E1 E2; subst].
      - inversion ND as [|? ? N1 N2]. exfalso. apply N1, in_or_app. right. left. auto.
      - inversion ND as [|? ? N1 N2]. exfalso. apply N1, in_or_app. right. left. auto.
      - inversion ND; subst. eapply IH; eauto. }
    apply EQ in E2; auto. subst z. exists x, (y ++ v :: b), c. rewrite E1. cbn [app]. rewrite <- !app_assoc. reflexivity. }
  intros v P. destruct (PT v v P (DF _ (PD _ _ P))) as (x & y & z & E). rewrite E in LN. apply NoDup_remove_2 in LN. apply LN, in_or_app. right. apply in_or_app. right. left. auto.
Qed.
Lemma analyze_acyclic cfg p g : wf_problem (variables p) (problem p) -> analyze cfg p = Ok g ->
  (forall prune, acyclic prune (gates g)) /\
  (forall root_lits, (forall l, In l root_lits -> lvar l < variables p) -> in_range (gates g) root_lits).
Proof.
  intros WF E. destruct (analyze_ok cfg p WF) as (g' & E' & HL & _ & HG & HR). rewrite E in E'. injection E' as <-. split; [intros prune; apply recognised_acyclic; auto|].
  intros rl Hrl. split; [rewrite HL; auto|]. intros gt l Hg Hl. apply (In_nth _ _ gate_none) in Hg. destruct Hg as (v & Hv & <-). rewrite HL in *. destruct (HG v Hv) as [H|(o & Ev & Hgood)]; [rewrite H in Hl; destruct Hl|].
  apply (gd_inp _ _ _ _ _ Hgood) in Hl. destruct Hl as (c & _ & Hl & _). apply lvar_lt, (cl_wf _ _ WF c). auto.
Qed.
Lemma analyze_order cfg p g root_lits : wf_problem (variables p) (problem p) -> analyze cfg p = Ok g -> (forall l, In l root_lits -> lvar l < variables p) ->
  exists order, getTopoOrder (gates g) root_lits = Ok order /\ NoDup order /\ (forall v, In v order <-> reachable (fun _ => false) (gates g) root_lits v) /\
    forall u v, In u order -> child (fun _ => false) (gates g) u v -> before v u order.
Proof.
  intros WF E HR. destruct (analyze_acyclic cfg p g WF E) as (A & IR). destruct (topo_ok (gates g) root_lits (IR _ HR)) as (order & E1 & E2 & E3 & E4). exists order. split; auto.
Qed.
