(** The solver with its restart policy always returns. *)
Require Import List Arith Bool NArith ZArith Permutation Lia.
From Coq Require Import ZifyBool ZifyNat ZifyN.
Require Import Verif.Base Verif.CNFModel Verif.CNFProofs Verif.Outcome Verif.TrailModel Verif.TrailSpec Verif.TrailProofs Verif.TrailLemmas Verif.DbModel Verif.PropModel Verif.PropProofs Verif.DbProofs
  Verif.PropSpec Verif.PropLemmas Verif.AnalyzeModel Verif.AnalyzeProofs Verif.AnalyzeLemmas Verif.SimpModel Verif.SubsProofs Verif.SimpProofs Verif.SimpSpec Verif.SimpLemmas
  Verif.VEProofs Verif.ReduceModel Verif.SolverModel Verif.SolverBase Verif.SolverUnits Verif.SolverSimp Verif.SolverSearch Verif.SolverProofs Verif.SolverSpec Verif.SolverLemmas
  Verif.ContainersModel Verif.RestartModel Verif.RestartSpec Verif.RestartProofs Verif.RestartCount Verif.SimpTerm.
Import ListNotations.

Section Term.
Variables (P : assignment -> Prop) (C : cfg) (O : oracle) (bl : N -> bool) (n : nat).
Hypothesis HQ : quiet C.
Hypothesis Hn : (N.of_nat n < 65535)%N.
Hypothesis Hinc : (0 < c_inc C)%N.
Notation Q := (quiet C).
Notation L s := (live n (sv_d s)).
Notation M := (most n).
Definition mu (s : solver) : nat := (M - L s) * (n + 2) + (n + 1 - length (tr (sv_t s))).
(** what a search keeps and how it ends *)
Record sfin (s s' : solver) : Prop := {
  sf_pot : (sv_conf s' + N.of_nat (M - L s') <= sv_conf s + N.of_nat (M - L s))%N;
  sf_calls : sv_calls s' = sv_calls s;
  sf_nb : sv_nb s' = sv_nb s }.
Lemma sfin_trans s1 s2 s3 : sfin s1 s2 -> sfin s2 s3 -> sfin s1 s3.
Proof. intros [A1 A2 A3] [B1 B2 B3]. constructor; [lia|congruence|congruence]. Qed.

Lemma assume_len d k : forall t r t1, assume_loop k d t = (r, t1) -> length (tr t1) = length (tr t).
Proof.
  induction k as [|k IH]; intros t r t1 E; cbn [assume_loop] in E; [injection E as <- <-; auto|].
  destruct (hasAssumptionsNotSet t); [|injection E as <- <-; auto]. destruct (value t (nextAssumption t)) as [[|]|]; [|injection E as <- <-; auto|injection E as <- <-; auto].
  rewrite (IH _ _ _ E). reflexivity.
Qed.
Lemma rsearch_total fuel : forall q s, QI q -> nv (sv_d s) = n -> V P Q (sv_d s) (sv_w s) (sv_t s) -> mu s < fuel ->
  exists r cs q' s', rsearch C O bl fuel q s = Ok (r, cs, q', s') /\ sfin s s'.
Proof.
  induction fuel as [|f IH]; intros q s HQI En0 HV Hmu; [lia|]. cbn [rsearch].
  destruct (V_propagate P Q _ _ _ HV) as (k & d & w & t & E1 & HST & HB & Ea & Ed & En & HK & Edl & Hqh). rewrite E1. cbn [bind].
  destruct (SInv_propagate _ _ _ (proj1 HV)) as (k' & d' & w' & t' & E1' & HR & _). rewrite E1 in E1'. injection E1' as <- <- <- <-.
  destruct HR as (A1 & A2 & A3 & A4 & A5 & A6 & A7 & A8 & A9 & A10 & A11).
  rewrite En0 in En. assert (HT := pi_TI _ _ _ A1). assert (HDI := ci_D _ _ (vb_C _ _ _ HB)).
  assert (P1 : PR (sv_d s) d) by (rewrite A5; apply PR_aperm; auto). assert (L1 := PR_live n _ _ P1). assert (LM := live_most n d).
  assert (T1 : length (tr (sv_t s)) <= length (tr t)) by exact (text_len _ _ A2).
  assert (T2 : length (tr t) <= n) by (rewrite <- En, <- (vb_n _ _ _ HB); apply TI_length; auto).
  destruct k as [c|].
  - cbn [SStateQ] in HST. assert (SB := sc_B _ _ _ _ HST). destruct (Nat.eqb_spec (dlevel t) 0) as [H0|H0].
    { eexists _, _, _, _. split; [reflexivity|]. constructor; cbn [core sv_conf sv_d sv_calls sv_nb]; auto. lia. }
    destruct (V_learn P Q C d w t c HST HB) as (an & d0 & E2 & Hent & Hwf & HS); [lia|]. rewrite E2. cbn [bind].
    destruct (SConf_analysis d w t c HST (vb_D _ _ _ HB)) as (an' & E2' & LO & Hinv & Hlev & Htl & Hnil & Hy & Hlbd & HH); [lia|].
    rewrite E2 in E2'. injection E2' as <- ->.
    destruct (process_ok bl (sv_conf s + 1) (N.of_nat (length (tr t))) (N.of_nat (an_lbd an)) q HQI) as (q1 & Eq & Q1 & _). rewrite Eq. cbn [bind].
    rewrite En in Hwf. assert (Hlen := wfc_length n _ Hwf).
    cbv zeta in HS. set (d1 := if c_recalc C then reestimate t (an_involved an) d else d) in *.
    destruct (createClause (an_learnt an) (N.of_nat (an_lbd an)) false d1) as [(c' & d2)|e] eqn:E3.
    2: { exfalso. revert E3. unfold createClause. destruct (N.leb_spec 65536 (N.of_nat (length (an_learnt an)))); [lia|discriminate]. }
    cbn [safe bind] in HS |- *. destruct HS as (N2 & K2 & t2 & T3 & T4 & T5 & HV2). rewrite T3. cbn [bind].
    assert (HDI1 : DI (nv d) d1).
    { unfold d1. destruct (c_recalc C); auto. apply reestimate_DI; auto. intros x Hx. destruct (Hinv x Hx) as [->|(q0 & Q2 & Q3)].
      - destruct (sc_use _ _ _ _ HST) as (U1 & [U2|U2]); auto.
      - destruct (sb_RD _ _ _ SB q0 x Q2 Q3) as (U1 & [U2|U2]); auto. }
    assert (PW : PR d d1). { unfold d1. destruct (c_recalc C); [|apply PR_refl]. apply (PR_reestimate n); auto. rewrite <- En. apply (di_WFA _ _ HDI). }
    assert (P2 : PR d d2) by (apply (PR_trans _ d1); auto; exact (PR_create _ _ _ _ _ _ _ HDI1 E3)).
    assert (HC := createClause_created _ _ _ _ _ _ E3). assert (El : clits d2 c' = an_learnt an) by exact (clits_new _ _ _ _ HC).
    assert (LV2 : LV d2 c').
    { split; [replace (cls d2) with (cls d1 ++ [c']) by (symmetry; apply HC); apply in_or_app; right; left; auto|].
      unfold isDeleted. rewrite cwt_awt, (createClause_wt _ _ _ _ _ _ E3). replace c' with (length (arena d1)) by (symmetry; apply HC).
      unfold awt. rewrite app_nth2, Nat.sub_diag by lia. cbn [nth wt]. rewrite Hlbd. destruct (length (an_learnt an) <? 3); [reflexivity|]. apply (small_wt n); auto. }
    assert (L2 : live n d < live n d2).
    { apply (PR_new n d d2 c' P2 LV2); [rewrite El; auto|rewrite <- En; apply (di_WFA _ _ HDI)|]. rewrite El.
      apply (learnt_new Q d w t c (an_learnt an) HQ HST (vb_U _ _ _ HB) (ci_N _ _ (vb_C _ _ _ HB)) (vb_e _ _ _ HB)); auto. lia. }
    assert (LM2 := live_most n d2).
    set (w2 := if 2 <? length (an_learnt an) then attachClause d2 c' w else w) in *.
    set (s1 := with_log (sv_conf s + 1) (sv_log s) (core d2 w2 t2 s)) in *.
    destruct (callback_same (an_learnt an) s1) as (C1 & C2 & C3 & C4 & C5 & C6 & C7 & _).
    destruct (IH q1 (ipasir_callback (an_learnt an) s1)) as (r & cs & q' & s' & E & [S1 S2 S3]); auto.
    + rewrite C1. cbn [s1 with_log core sv_d]. congruence.
    + rewrite C1, C2, C3. exact HV2.
    + unfold mu in *. rewrite C1, C3. cbn [s1 with_log core sv_d sv_t]. nia.
    + exists r, cs, q', s'. split; auto. rewrite C1, C5 in S1. rewrite C6 in S2. rewrite C7 in S3. cbn [s1 with_log core sv_d sv_conf sv_calls sv_nb] in S1, S2, S3. constructor; auto. lia.
  - cbn [SStateQ] in HST. specialize (Hqh eq_refl).
    destruct (trigger_ok (sv_conf s) (o_restart O (sv_clk s)) q HQI) as (b & q1 & Eq & Q1 & _). rewrite Eq. cbn [bind]. destruct b.
    { eexists _, _, _, _. split; [reflexivity|]. constructor; cbn [core tick sv_conf sv_d sv_calls sv_nb]; auto. lia. }
    destruct (assume_loop (S (length (assum t))) d t) as (ar, t1) eqn:EA.
    destruct (assume_loop_V P Q (S (length (assum t))) d w t ar t1 (conj HST HB) Hqh) as (V1 & V2 & B1 & B2 & HR); [lia|exact EA|].
    assert (T6 : length (tr t1) = length (tr t)) by exact (assume_len _ _ _ _ _ EA).
    assert (HB1 := proj2 V1).
    assert (HEnd : sfin s (core d w t1 (tick (core d w t s)))) by (constructor; cbn [core tick sv_conf sv_d sv_calls sv_nb]; auto; lia).
    assert (Hnext : forall p, value t1 p = None -> lvar p < nvt t1 -> (dlevel t1 < length (assum t1) -> p = nth (dlevel t1) (assum t1) 0) ->
      exists r cs q' s', (t2 <- decide p (newDecisionLevel t1);; rsearch C O bl f q1 (core d w t2 (core d w t1 (tick (core d w t s))))) = Ok (r, cs, q', s') /\ sfin s s').
    { intros p Hp1 Hp2 Hp3. destruct (V_decide P Q d w t1 p V1 V2 Hp1 Hp2 Hp3) as (t2 & E5 & V3 & _). rewrite E5. cbn [bind].
      assert (T7 : length (tr t2) = S (length (tr t1))).
      { unfold decide in E5. apply bind_ok in E5. destruct E5 as (t3 & E6 & E5). injection E5 as <-. unfold set_value in E6. cbn [newDecisionLevel tr nvt asg] in E6.
        destruct (_ <? _); [|discriminate]. injection E6 as <-. cbn [set_vd tr]. rewrite app_length. cbn. lia. }
      assert (T8 : length (tr t2) <= n). { rewrite <- En, <- (vb_n _ _ _ (proj2 V3)). apply TI_length. exact (V_TI _ _ _ _ _ V3). }
      destruct (IH q1 (core d w t2 (core d w t1 (tick (core d w t s))))) as (r & cs & q' & s' & E & S1); auto.
      - unfold mu in *. cbn [core tick sv_d sv_t]. nia.
      - exists r, cs, q', s'. split; auto. destruct S1 as [S1 S2 S3]. cbn [core tick sv_conf sv_d sv_calls sv_nb] in S1, S2, S3. constructor; auto. lia. }
    destruct ar as [cs'|p|].
    + eexists _, _, _, _. split; [reflexivity|]. exact HEnd.
    + destruct HR as (R1 & R2 & R3). apply (Hnext p); auto. apply (vb_as _ _ _ HB1). subst p. apply nth_In. auto.
    + destruct (pick (o_pick O (sv_clk s)) t1) as [p|] eqn:EP.
      * destruct (pick_some _ _ _ EP) as (R1 & R2). apply (Hnext p); auto. lia.
      * eexists _, _, _, _. split; [reflexivity|]. exact HEnd.
Qed.

(** ** Between two searches *)
(** [k] reductions *)
Definition istep (k : nat) (s s' : solver) : Prop :=
  (sv_conf s' + N.of_nat (M - L s') <= sv_conf s + N.of_nat (M - L s) + N.of_nat (k * M))%N /\
  sv_calls s' = (sv_calls s + N.of_nat k)%N /\ (sv_nb s + N.of_nat k <= sv_nb s')%N /\ (k = 1 -> (sv_calls s * sv_nb s <= sv_conf s)%N).
Lemma victims_none persist median cand d : 1 <? length (red_candidates persist d) = false -> red_victims persist median cand d = [].
Proof.
  intros H. unfold red_victims. cbv zeta.
  assert (E : length (std_sort (fun a b => (cwt d a <? cwt d b)%N) cand (red_candidates persist d)) = length (red_candidates persist d)) by (apply Permutation_length, std_sort_perm).
  unfold cid in *. rewrite E, H. reflexivity.
Qed.
Lemma maintain_step fuel s : DI n (sv_d s) -> exists s1 k, maintain C O fuel s = Ok s1 /\ k <= 1 /\ istep k s s1 /\ sv_conf s1 = sv_conf s.
Proof.
  intros HD. destruct HQ as (_ & HI). unfold maintain, trigger_reduce. destruct (N.leb_spec (sv_calls s * sv_nb s) (sv_conf s)) as [Hc|Hc].
  2: { exists (with_red (sv_calls s) (sv_nb s) (sv_last s) s), 0. split; auto. split; auto. split; auto. unfold istep. cbn [with_red sv_conf sv_d sv_calls sv_nb]. split; [lia|]. split; [lia|]. split; [lia|discriminate]. }
  rewrite HI. cbn [N.ltb N.compare andb].
  destruct (reduce (c_persist C) (c_median C) (o_cands O (sv_clk s)) (sv_d s)) as (inc, d) eqn:Er. unfold reduce in Er. injection Er as Ei Ed. cbn [bind core sv_d sv_t].
  destruct inc.
  - eexists _, 1. split; [reflexivity|]. split; auto. split; [|reflexivity]. unfold istep. cbn [core with_red tick sv_conf sv_d sv_calls sv_nb]. assert (LM := live_most n (reorganize d)). split; [lia|]. split; [lia|]. split; [lia|auto].
  - eexists _, 0. split; [reflexivity|]. split; auto. split; [|reflexivity]. unfold istep. cbn [core with_red tick sv_conf sv_d sv_calls sv_nb].
    rewrite (victims_none _ _ _ _ Ei) in Ed. cbn [fold_left] in Ed. subst d. assert (LL := PR_live n _ _ (PR_reorganize n _ HD)). split; [lia|]. split; [lia|]. split; [lia|discriminate].
Qed.
Lemma riter_total fuel q s : QI q -> nv (sv_d s) = n -> BI P s -> BW' s -> M * (n + 2) + n + 1 < fuel ->
  exists r cs q' s' k, rsolve_iter C O bl fuel q s = Ok (r, cs, q', s') /\ k <= 1 /\ istep k s s'.
Proof.
  intros HQI En0 [B1 B2 B3 B4 B5] HW Hf. unfold rsolve_iter. set (s0 := core (sv_d s) (sv_w s) (trail_reset (sv_t s)) s) in *.
  assert (B0 : BI P s0) by (constructor; auto; exact (TI_TL _ (TI_TLreset _ B2))).
  assert (D0 : DI n (sv_d s0)) by (rewrite <- En0; apply B1).
  destruct (maintain_step fuel s0 D0) as (s1 & k & E1 & Hk & (K1 & K2 & K3 & K4) & Ec). rewrite E1. cbn [bind]. cbn [s0 core sv_d sv_conf sv_calls sv_nb] in K1, K2, K3, K4, Ec.
  assert (MS := maintain_spec P C O fuel s0 B0 HW eq_refl eq_refl (TI_TLreset _ B2)).
  rewrite E1 in MS. cbn [safe] in MS. destruct MS as (Z1 & W1' & _ & R1 & K5).
  assert (HT1 := pi_TI _ _ _ (z_P _ _ _ _ Z1)).
  assert (S1 : empt (sv_d s1) = false -> SInvQ (quiet C) (sv_d s1) (sv_w s1) (sv_t s1)).
  { intros Em. apply SInvQ_facts; auto; try apply Z1; auto.
    - rewrite (z_n _ _ _ _ Z1). apply Z1.
    - rewrite (z_n _ _ _ _ Z1). exact W1'.
    - intros HQ'. apply (K5 HQ'). }
  destruct (pmu_spec P (quiet C) _ _ _ Z1) as (d & w & t & E2 & [A1 A2 A3 A4 A5 A6 A7 A8]). rewrite E2. cbn [bind].
  assert (D1 : DI n (sv_d s1)) by (rewrite <- En0; rewrite <- (r_nv _ _ _ R1 : nv (sv_d s1) = nv (sv_d s)); apply Z1).
  assert (LL := PR_live n _ _ (PR_mstep n t _ _ D1 A2)). assert (LM := live_most n d).
  destruct (empt d) eqn:Em.
  { eexists _, _, _, _, k. split; [reflexivity|]. split; auto. unfold istep. cbn [core sv_conf sv_d sv_calls sv_nb]. split; [lia|]. split; [lia|]. split; [lia|auto]. }
  assert (Em1 : empt (sv_d s1) = false) by (destruct (empt (sv_d s1)) eqn:Ex; auto; discriminate (A3 eq_refl)).
  assert (S2 := A8 eq_refl (S1 Em1)). assert (HT := pi_TI _ _ _ (z_P _ _ _ _ A1)).
  assert (EN : nv d = nv (sv_d s)) by (rewrite (ms_nv _ _ _ A2); apply (r_nv _ _ _ R1)).
  assert (EA : assum t = assum (sv_t s)) by (rewrite A6; apply (r_assum _ _ _ R1)).
  assert (L0 : forall l, In l (tr t) -> level t (lvar l) = 0).
  { intros l Hl. apply In_nth_error in Hl. destruct Hl as (i & Hi). apply (dlevel0_level t i l HT); auto. unfold dlevel. rewrite (z_lim _ _ _ _ A1). reflexivity. }
  assert (VV : V P (quiet C) d w t).
  { split; auto. constructor; auto; try apply A1.
    - intros i l Hi _. left. apply L0. exact (nth_error_In _ _ Hi).
    - intros l a Hl _ Ha. exact (z_T _ _ _ _ A1 l a Hl Ha).
    - constructor; [intros l Hl _ H; rewrite (L0 l Hl) in H; lia|]. unfold dlevel. rewrite (z_lim _ _ _ _ A1). cbn. lia.
    - intros c l Hc Hl. assert (H := A7 eq_refl c l Hc Hl). auto.
    - rewrite (z_n _ _ _ _ A1), EN, EA. exact B4. }
  destruct (rsearch_total fuel q (core d w t s1) HQI) as (r & cs & q' & s' & E & [F1 F2 F3]); auto.
  - cbn [core sv_d]. congruence.
  - unfold mu. cbn [core sv_d sv_t]. nia.
  - exists r, cs, q', s', k. split; auto. split; auto. cbn [core sv_d sv_conf sv_calls sv_nb] in F1, F2, F3. unfold istep. rewrite F2, F3. split; [lia|]. split; [lia|]. split; [lia|auto].
Qed.

(** ** The loop *)
Section Loop.
Variables (c0 : nat) (calls0 nb0 : N).
Definition cmax : nat := c0 + (c0 + M + 2) * M.
Definition LI (s : solver) : Prop := exists k, k <= c0 + M + 1 /\ sv_calls s = (calls0 + N.of_nat k)%N /\ (nb0 + N.of_nat k <= sv_nb s)%N /\
  N.to_nat (sv_conf s) + (M - L s) <= c0 + (k + 1) * M.
Lemma LI_conf s : LI s -> N.to_nat (sv_conf s) <= cmax.
Proof. intros (k & K1 & K2 & K3 & K4). unfold cmax. nia. Qed.
Lemma LI_step k s s' : k <= 1 -> istep k s s' -> LI s -> LI s'.
Proof.
  intros Hk (A1 & A2 & A3 & A4) (j & K1 & K2 & K3 & K4). destruct k as [|[|]]; [| |lia].
  - exists j. rewrite A2, K2. split; auto. split; [lia|]. split; [lia|]. lia.
  - specialize (A4 eq_refl). exists (j + 1).
    assert (J : j * j <= N.to_nat (sv_conf s)) by nia.
    assert (J1 : j <= c0 + M) by nia.
    split; [lia|]. rewrite A2, K2. split; [lia|]. split; [lia|]. nia.
Qed.
Definition ready (q : rst) : nat := if fill q =? cap q then 1 else 0.
Lemma rloop_total fuel m : M * (n + 2) + n + 1 < fuel -> forall q s, QI q -> nv (sv_d s) = n -> BI P s -> BW' s -> LI s ->
  2 * (cmax - N.to_nat (sv_conf s)) + ready q < m -> exists r cs q' s', rsolve_loop C O bl m fuel q s = Ok (r, cs, q', s').
Proof.
  intros Hf. induction m as [|m IH]; intros q s HQI En HB HW HL Hm; [lia|]. cbn [rsolve_loop]. destruct (o_term O (sv_clk s)); [eexists _, _, _, _; reflexivity|].
  assert (BT : BI P (tick s)) by (destruct HB; constructor; auto).
  destruct (riter_total fuel q (tick s) HQI En BT HW Hf) as (r & cs & q' & s' & k & E & Hk & HS). rewrite E. cbn [bind].
  destruct r as [b|]; [eexists _, _, _, _; reflexivity|].
  assert (HL' : LI s') by exact (LI_step k s s' Hk HS HL).
  destruct (riter_policy C O bl fuel q (tick s) _ _ _ _ HQI E) as (Q1 & Q2 & Q3 & Q4). destruct (Q4 eq_refl) as (Q5 & Q6). cbn [tick sv_conf] in Q3, Q6.
  destruct (riter_iter C O bl fuel q (tick s) _ _ _ _ E) as (_ & g & Hg). assert (Hg' := Hg g (fun k _ => eq_refl)).
  assert (HI := solve_iter_spec P C (with_restart g O) fuel (tick s) BT HW). rewrite Hg' in HI. cbn [safe] in HI.
  assert (HX := ip_R _ _ _ _ _ _ HI).
  apply IH; auto.
  - rewrite (r_nv _ _ _ HX). exact En.
  - apply HI.
  - apply HI; auto.
  - assert (C1 := LI_conf s HL). assert (C2 := LI_conf s' HL'). assert (R' : ready q' = 0).
    { unfold ready. rewrite Q5. destruct (Nat.eqb_spec 0 (cap q')); auto. destruct Q1 as ((X & _) & _). unfold cap in *. lia. }
    rewrite R'. unfold ready in Hm. destruct (Nat.eqb_spec (fill q) (cap q)) as [Ef|Ef]; [lia|].
    assert (fill q <= cap q) by (destruct HQI as ((_ & _ & [(X & _)|(X & _)] & _) & _); unfold fill, cap; lia). lia.
Qed.
End Loop.

(** ** Solve *)
Definition enough (s : solver) : nat := M * (n + 2) + n + 2 + 2 * cmax (N.to_nat (sv_conf s)) + 2 + (presize s + 2).
Lemma start_total fuel s : BI P s -> ev (sv_e s) = [] -> presize s + 2 <= fuel ->
  exists s1, solve_start C O fuel s = Ok s1 /\ sv_conf s1 = sv_conf s /\ ev (sv_e s1) = [].
Proof.
  intros HB He Hf. unfold solve_start. destruct HB as [B1 B2 B3 B4 B5]. assert (HT0 : TI (trail_reset (sv_t s))) by (apply TI_TLreset; auto).
  destruct (ve_reset_spec P (nv (sv_d s)) (sv_e s) (trail_reset (sv_t s)) B5 B3 B4) as (cor & e1 & t1 & Ev & V1 & _ & _ & Hev).
  rewrite Ev. cbn [bind]. destruct (Hev He) as (-> & -> & He1). cbn [create_corr bind]. destruct (c_pre C); [|eexists; split; [reflexivity|]; split; [reflexivity|exact He1]].
  set (s1 := with_e e1 (core (sv_d s) (prop_reset (sv_d s)) (trail_reset (sv_t s)) s)).
  assert (Z1 : Z P (sv_d s1) (sv_w s1) (sv_t s1)) by (apply Z_start; auto; apply WS_reset; apply B1).
  destruct (process_total P C O fuel s1 (proj1 HQ) Z1 V1 Hf) as (s2 & E2). rewrite E2. cbn [bind]. eexists. split; [reflexivity|].
  assert (HP := process_spec P C O fuel s1 Z1 V1). rewrite E2 in HP. cbn [safe] in HP. destruct HP as (_ & _ & _ & _ & X5).
  split; [exact (process_conf C O fuel s1 s2 E2)|]. cbn [core sv_e]. rewrite (proj2 (X5 (proj1 HQ))). exact He1.
Qed.
Lemma rsolve_total fuel q s : QI q -> nv (sv_d s) = n -> BI P s -> ev (sv_e s) = [] -> enough s <= fuel ->
  exists x q' s', rsolve C O bl fuel q s = Ok (x, q', s').
Proof.
  intros HQI En HB He Hf. unfold enough in Hf. unfold rsolve.
  destruct (start_total fuel s HB He ltac:(lia)) as (s1 & E1 & Ec & He1). rewrite E1. cbn [bind].
  assert (HS := solve_start_spec P C O fuel s HB). rewrite E1 in HS. cbn [safe] in HS. destruct HS as (X1 & X2 & X3 & _).
  assert (N1 : nv (sv_d s1) = n) by (rewrite (r_nv _ _ _ X3); exact En).
  destruct (empt (sv_d s1)) eqn:Em.
  { cbn [bind solve_finish]. eexists _, _, _. reflexivity. }
  assert (HL : LI (N.to_nat (sv_conf s)) (sv_calls s1) (sv_nb s1) s1).
  { exists 0. rewrite Ec. split; [lia|]. split; [lia|]. split; lia. }
  destruct (rloop_total _ _ _ fuel fuel ltac:(lia) q s1 HQI N1 X1 X2 HL) as (r & cs & q2 & s2 & E2).
  { unfold ready. destruct (_ =? _); lia. }
  rewrite E2. cbn [bind]. destruct r as [[|]|]; cbn [solve_finish bind]; try (eexists _, _, _; reflexivity).
  destruct (rloop_loop C O bl fuel fuel q s1 _ _ _ _ E2) as (_ & g & Hg). assert (Hg' := Hg g (fun k _ => eq_refl)).
  assert (HI := solve_loop_spec P C (with_restart g O) fuel fuel s1 X1 X2). rewrite Hg' in HI. cbn [safe] in HI.
  assert (K := ip_K _ _ _ _ _ _ HI HQ). unfold propagate_eliminated. rewrite (k_ev _ _ K), He1. cbn [rev prop_elim_list bind]. eexists _, _, _. reflexivity.
Qed.
End Term.

Lemma create_corr_err cor : forall d w e, create_corr cor d w = Err e -> e = TooLong.
Proof.
  induction cor as [|c r IH]; intros d w e E; cbn [create_corr] in E; [discriminate|]. destruct (createClause c 0 false d) as [(x & d1)|er] eqn:Ec; cbn [bind] in E.
  - exact (IH _ _ _ E).
  - injection E as <-. revert Ec. unfold createClause. destruct (_ <=? _)%N; congruence.
Qed.
Lemma create_corr_short n cor : (N.of_nat n < 65535)%N -> (forall c, In c cor -> wfc n c) -> forall d w, exists x, create_corr cor d w = Ok x.
Proof.
  intros Hn. induction cor as [|c r IH]; intros HC d w; cbn [create_corr]; [eauto|]. destruct (createClause c 0 false d) as [(x & d1)|er] eqn:Ec; cbn [bind].
  - apply IH. intros c' Hc'. apply HC. right. exact Hc'.
  - exfalso. assert (HL := wfc_length n c (HC c (or_introl eq_refl))). revert Ec. unfold createClause. destruct (N.leb_spec 65536 (N.of_nat (length c))); [lia|discriminate].
Qed.
(** the part before the first search, with variable elimination as well *)
Lemma start_process P C O s : BI P s -> (N.of_nat (nv (sv_d s)) < 65535)%N -> exists N, forall fuel, N <= fuel -> finished C (solve_start C O fuel s).
Proof.
  intros HB Hn. destruct HB as [B1 B2 B3 B4 B5]. unfold solve_start. assert (HT0 : TI (trail_reset (sv_t s))) by (apply TI_TLreset; auto).
  destruct (ve_reset_spec P (nv (sv_d s)) (sv_e s) (trail_reset (sv_t s)) B5 B3 B4) as (cor & e1 & t1 & Ev & V1 & TS & Hcor & Hev). rewrite Ev. cbn [bind].
  assert (HT1 := tsame_TI _ _ TS HT0). destruct TS as [T1 T2 T3 T4 T5 T6 T7].
  assert (HC := create_corr_spec P (nv (sv_d s)) cor _ _ B1 eq_refl (WS_reset _ _ (ci_D _ _ B1)) Hcor).
  destruct (create_corr_short _ cor Hn (fun c Hc => proj1 (Hcor c Hc)) (sv_d s) (prop_reset (sv_d s))) as ((d1 & w1) & Ec). rewrite Ec in HC |- *. cbn [bind safe] in HC |- *.
  destruct HC as (C1 & N1 & W1' & K1 & D1). destruct (c_pre C); [|exists 0; intros; exact I].
  assert (HN1 : nvt t1 = nv d1) by (rewrite T1, N1; exact B3).
  set (s1 := with_e e1 (core d1 w1 t1 s)).
  assert (Z1 : Z P (sv_d s1) (sv_w s1) (sv_t s1)) by (apply Z_start; auto; cbn [s1 with_e core sv_w sv_d]; rewrite N1; exact W1').
  assert (V1' : VEok P (nv (sv_d s1)) (sv_e s1)) by (cbn [s1 with_e core sv_d sv_e]; rewrite N1; exact V1).
  destruct (process_ends P C O s1 Z1 V1') as (N & HN). exists N. intros fuel Hf. specialize (HN fuel Hf). destruct (processClauseDatabase C O fuel s1); cbn [bind]; [exact I|exact HN].
Qed.
Lemma start_ends P C O s : BI P s -> exists N, forall fuel, N <= fuel -> solve_start C O fuel s <> Err Fuel.
Proof.
  intros HB. destruct HB as [B1 B2 B3 B4 B5]. unfold solve_start. assert (HT0 : TI (trail_reset (sv_t s))) by (apply TI_TLreset; auto).
  destruct (ve_reset_spec P (nv (sv_d s)) (sv_e s) (trail_reset (sv_t s)) B5 B3 B4) as (cor & e1 & t1 & Ev & V1 & TS & Hcor & Hev). rewrite Ev. cbn [bind].
  assert (HT1 := tsame_TI _ _ TS HT0). destruct TS as [T1 T2 T3 T4 T5 T6 T7].
  assert (HC := create_corr_spec P (nv (sv_d s)) cor _ _ B1 eq_refl (WS_reset _ _ (ci_D _ _ B1)) Hcor).
  destruct (create_corr cor (sv_d s) (prop_reset (sv_d s))) as [(d1, w1)|er] eqn:Ec; cbn [bind].
  2: { exists 0. intros fuel _. assert (HE := create_corr_err _ _ _ _ Ec). congruence. }
  destruct HC as (C1 & N1 & W1' & K1 & D1). destruct (c_pre C); [|exists 0; discriminate].
  assert (HN1 : nvt t1 = nv d1) by (rewrite T1, N1; exact B3).
  set (s1 := with_e e1 (core d1 w1 t1 s)).
  assert (Z1 : Z P (sv_d s1) (sv_w s1) (sv_t s1)) by (apply Z_start; auto; cbn [s1 with_e core sv_w sv_d]; rewrite N1; exact W1').
  assert (V1' : VEok P (nv (sv_d s1)) (sv_e s1)) by (cbn [s1 with_e core sv_d sv_e]; rewrite N1; exact V1).
  destruct (process_ends P C O s1 Z1 V1') as (N & HN). exists N. intros fuel Hf. specialize (HN fuel Hf). destruct (processClauseDatabase C O fuel s1); cbn [bind]; [discriminate|].
  destruct HN as (-> & _). discriminate.
Qed.
Lemma start_conf P C O fuel s s1 : BI P s -> solve_start C O fuel s = Ok s1 -> sv_conf s1 = sv_conf s.
Proof.
  intros _ E. unfold solve_start in E. apply bind_ok in E. destruct E as (((cor & e1) & t1) & _ & E). apply bind_ok in E. destruct E as ((d1 & w1) & _ & E).
  destruct (c_pre C); [|injection E as <-; reflexivity]. apply bind_ok in E. destruct E as (s2 & E2 & E). injection E as <-. exact (process_conf _ _ _ _ _ E2).
Qed.
