(** The simplification loop of the solver. *)
Require Import List Arith Bool NArith ZArith Permutation Lia.
From Coq Require Import ZifyBool ZifyNat ZifyN.
Require Import Verif.Base Verif.CNFModel Verif.CNFProofs Verif.Outcome Verif.TrailModel Verif.TrailSpec Verif.TrailProofs Verif.TrailLemmas Verif.DbModel Verif.PropModel Verif.PropProofs Verif.DbProofs
  Verif.PropSpec Verif.PropLemmas Verif.AnalyzeModel Verif.AnalyzeProofs Verif.AnalyzeLemmas Verif.SimpModel Verif.SubsProofs Verif.SimpProofs Verif.SimpSpec Verif.SimpLemmas
  Verif.VEProofs Verif.AsymmProofs Verif.AsymmLemmas Verif.ReduceModel Verif.SolverModel Verif.SolverBase Verif.SolverUnits.
Import ListNotations.

(** The simplification loop of the solver. *)

Lemma PInv_same d w t t' : nvt t' = nvt t -> asg t' = asg t -> vd t' = vd t -> tr t' = tr t -> qh t' = qh t -> lim t' = lim t ->
  PInv d w t -> PInv d w t'.
Proof.
  destruct t, t'. cbn. intros -> -> -> -> -> -> [[A1 A2 A3 A4 A5 A6 A7 A8 A9] B C D E F G]. constructor; auto. constructor; assumption.
Qed.
Lemma SI_mstep n t d d' s : SI n d s -> DI n d' -> LenOk d' -> mstep t d d' -> SI n d' s.
Proof.
  intros [S1 S2 S3 S4 S5 S6 S7 S8 S9] HD HL HM.
  assert (Hp : forall i c, wclause s i = Some c -> Permutation (clits d c) (clits d' c)).
  { intros i c Hi. apply (ms_lits _ _ _ HM). exact (cls_lt _ _ _ S1 (proj1 (S3 i c Hi))). }
  constructor; auto.
  - intros i c Hi. destruct (S3 i c Hi) as (A & B). split; [apply (ms_cls _ _ _ HM); auto|]. intros E. apply B.
    apply Permutation_nil. rewrite <- E. apply Permutation_sym, (Hp i c Hi).
  - intros v i c Hv Hi. destruct (S4 v i c Hv Hi) as (l & A & B). exists l. split; auto. exact (Permutation_in _ (Hp i c Hi) A).
  - intros i c l Hi Hl. apply (S5 i c); auto. exact (Permutation_in _ (Permutation_sym (Hp i c Hi)) Hl).
Qed.
Lemma SL_mstep n t d d' s : SI n d s -> mstep t d d' -> SL d s -> SL d' s.
Proof.
  intros HS HM [A B]. constructor; auto. intros i c Hi. unfold isDeleted. rewrite (ms_wt _ _ _ HM); [exact (A i c Hi)|].
  exact (cls_lt _ _ _ (s_D _ _ _ HS) (proj1 (s_cls _ _ _ HS i c Hi))).
Qed.
Lemma Cover_mstep n t d d' : DI n d -> mstep t d d' -> Cover d d'.
Proof.
  intros HD HM c (H1 & H2). assert (Hlt := cls_lt _ _ _ HD H1). exists c. split; [|split].
  - split; [apply (ms_cls _ _ _ HM); auto|]. unfold isDeleted in *. rewrite (ms_wt _ _ _ HM); auto.
  - intros l Hl. exact (Permutation_in _ (Permutation_sym (ms_lits _ _ _ HM c Hlt)) Hl).
  - rewrite (ms_wt _ _ _ HM); auto.
Qed.

Section Simp.
Variables (P : assignment -> Prop) (C : cfg) (O : oracle).

Record SS (d : db) (w : watches) (t : trail_t) (s : sdb) (e : ve) : Prop := {
  ss_Z : Z P d w t;
  ss_I : SI (nv d) d s;
  ss_E : VEok P (nv d) e }.
Record rst (d : db) (t : trail_t) (s : sdb) (e : ve) (d' : db) (t' : trail_t) (s' : sdb) (e' : ve) : Prop := {
  rs_nv : nv d' = nv d;
  rs_assum : assum t' = assum t;
  rs_empt : empt d = true -> empt d' = true;
  rs_dec : length (dec t') = length (dec t);
  rs_ev : c_elim C = false -> dec t' = dec t /\ ev e' = ev e;
  rs_cov : c_elim C = false -> SL d s -> SL d' s' /\ Cover d d' }.
Lemma rst_refl d t s e : rst d t s e d t s e.
Proof. constructor; auto. intros _ H. split; auto. apply Cover_refl. Qed.
Lemma rst_trans d t s e d1 t1 s1 e1 d2 t2 s2 e2 : rst d t s e d1 t1 s1 e1 -> rst d1 t1 s1 e1 d2 t2 s2 e2 -> rst d t s e d2 t2 s2 e2.
Proof.
  intros [A1 A2 A3 A4 A5 A6] [B1 B2 B3 B4 B5 B6]. constructor; try congruence; auto.
  - intros H. destruct (A5 H), (B5 H). split; congruence.
  - intros H HS. destruct (A6 H HS) as (X1 & X2). destruct (B6 H X1) as (Y1 & Y2). split; auto. exact (Cover_trans _ _ _ X2 Y2).
Qed.

Lemma pmu_SS d w t s e : SS d w t s e ->
  exists d' w' t', pmu d w t = Ok (d', w', t') /\ SS d' w' t' s e /\ rst d t s e d' t' s e.
Proof.
  intros [HZ HI HE]. destruct (pmu_spec P False d w t HZ) as (d' & w' & t' & E & [A1 A2 A3 A4 A5 A6 A7 A8]).
  exists d', w', t'. split; auto. assert (Hn := ms_nv _ _ _ A2). split.
  - constructor; auto.
    + rewrite Hn. apply (SI_mstep _ t' d); auto; [rewrite <- Hn|]; apply A1.
    + rewrite Hn. auto.
  - constructor; auto; try congruence. intros _ HS. split; [apply (SL_mstep (nv d) t' d d'); auto|].
    apply (Cover_mstep (nv d) t'); auto. apply HI.
Qed.
Lemma SS_fail d w t s e b : SS d w t s e -> (b = false -> forall a, ~ P a) -> SS (fail_if b d) w t s e /\ rst d t s e (fail_if b d) t s e.
Proof.
  intros [[Z1 Z2 Z3 Z4 Z5 Z6] HI HE] HP. destruct b; cbn [fail_if].
  { split; [constructor; auto; constructor; auto|apply rst_refl]. }
  split.
  - constructor; auto.
    + constructor; auto; [apply CI_empty; auto|apply PInv_empty; auto|discriminate].
    + apply (SI_mstep _ t d); auto; [apply emptyClause_DI; apply Z1|exact (ci_L _ _ Z1)|apply empty_mstep].
  - constructor; auto. intros _ HS. split; [apply (SL_mstep (nv d) t d); auto; apply empty_mstep|].
    apply (Cover_mstep (nv d) t); [apply Z1|apply empty_mstep].
Qed.
Lemma SS_cleanup d w t s e n : SS d w t s e -> SS d w t (cleanup_if n s) e /\ rst d t s e d t (cleanup_if n s) e.
Proof.
  intros [Z1 Z2 Z3]. unfold cleanup_if. destruct (0 <? n); [|split; [constructor; auto|apply rst_refl]].
  split; [constructor; auto; apply sdb_cleanup_SI; auto|]. constructor; auto.
  intros _ [H1 H2]. split; [constructor; auto|apply Cover_refl].
Qed.
Lemma Z_dstep d w t d' : Z P d w t -> dstep d d' -> DI (nv d) d' -> LenOk d' -> NE P d d' -> Z P d' w t.
Proof.
  intros [Z1 Z2 Z3 Z4 Z5 Z6] HS HD HL HN. assert (Hn := ds_nv _ _ HS). constructor; auto.
  - apply (CI_pstep P d); auto; [apply dstep_pstep; auto|rewrite Hn; auto].
  - apply (PInv_dstep d); auto. rewrite Z4. auto.
  - congruence.
  - rewrite (ds_empt _ _ HS). auto.
Qed.

Lemma subsume_SS ptr d w t s e : SS d w t s e ->
  exists b d' s' k, subsume_all ptr d s = Ok (b, d', s', k) /\ SS (fail_if b d') w t s' e /\ rst d t s e (fail_if b d') t s' e.
Proof.
  intros [HZ HI HE]. destruct (subsume_list_spec ptr (nv d) (seq 0 (length (subs s))) d s cnt0 HI) as (b & d' & s' & k & E & [A1 A2 A3 A4 A5 A6 A7 A8] & HF).
  exists b, d', s', k. split; auto.
  assert (HW : WE P d s) by (exact (AE_WE _ _ _ _ (ci_A _ _ (z_C _ _ _ _ HZ)) HI)).
  destruct (A3 P HW) as (W1 & W2). assert (Hn := ds_nv _ _ A2).
  assert (HS : SS d' w t s' e).
  { constructor; [|rewrite Hn; auto|rewrite Hn; auto]. apply (Z_dstep d); auto; apply A1. }
  destruct (SS_fail d' w t s' e b HS) as (X1 & X2). { intros Hb a. exact (HF Hb P a HW). }
  split; auto. eapply rst_trans; [|exact X2]. constructor; auto. rewrite (ds_empt _ _ A2); auto.
Qed.

Lemma asymm_SS d w t s e : SS d w t s e -> empt d = false ->
  exists b n d' w' t' s', asymm_reduce (c_asymm C) d w t s = Ok (b, n, d', w', t', s') /\
    SS (fail_if b d') w' t' s' e /\ rst d t s e (fail_if b d') t' s' e.
Proof.
  intros [HZ HI HE] He. assert (HZ' := HZ). destruct HZ as [Z1 Z2 Z3 Z4 Z5 Z6]. assert (HI2 : SI (nvt t) d s) by (rewrite Z4; auto).
  destruct (asymm_reduce_spec (c_asymm C) d w t s HI2 Z2 Z3) as (b & n & d' & w' & t' & s' & E & [A1 A2 A3 A4 A5 A6 A7 A8 A9 A10 A11 A12] & HF).
  exists b, n, d', w', t', s'. split; auto.
  assert (HW : WE P d s) by (exact (AE_WE _ _ _ _ (ci_A _ _ Z1) HI)).
  assert (HLE : LE P d w) by (exact (AE_LE _ _ _ _ (ci_A _ _ Z1) Z2)).
  destruct (A4 P HW HLE Z5) as (W1 & W2 & W3). assert (Hn := ps_nv _ _ A3). destruct A9 as (B1 & B2 & B3 & B4).
  rewrite Z4 in A1.
  assert (HS : SS d' w' t' s' e).
  { constructor; [|rewrite Hn; auto|rewrite Hn; auto]. constructor; auto.
    - apply (CI_pstep P d); auto; [rewrite Hn|]; apply A1.
    - congruence.
    - intros l a Hl. rewrite A8 in Hl. apply Z5. auto.
    - intros _ l Hl. rewrite A8 in Hl. rewrite A12 by auto. apply Z6; auto. }
  destruct (SS_fail d' w' t' s' e b HS) as (X1 & X2). { intros Hb a. exact (HF Hb P a HW HLE Z5). }
  split; auto. eapply rst_trans; [|exact X2]. constructor; auto; try congruence.
Qed.

Lemma undecide_declen vs : forall t, length (dec (undecide vs t)) = length (dec t).
Proof.
  induction vs as [|v vs IH]; intros t; cbn [undecide fold_left]; auto. unfold undecide in IH. rewrite IH. cbn. apply set_nth_length.
Qed.
Lemma elim_SS cand d w t s e : SS d w t s e ->
  safe (eliminate (c_elim C) (c_lim C) cand d s e t) (fun x => match x with (b, n, d', s', e', t') =>
    SS (fail_if b d') w t' s' e' /\ rst d t s e (fail_if b d') t' s' e' end).
Proof.
  intros [HZ HI HE]. assert (HZ' := HZ). destruct HZ as [Z1 Z2 Z3 Z4 Z5 Z6].
  assert (HS := eliminate_spec (nv d) (c_elim C) (c_lim C) cand d s e t HI (vo_I _ _ _ HE) Z4).
  destruct (eliminate (c_elim C) (c_lim C) cand d s e t) as [[[[[[b k] d'] s'] e'] t']|er] eqn:Ee; cbn [safe].
  2:{ destruct HS as (-> & _). discriminate. }
  destruct HS as (new & [A1 A2 A3 A4 A5 A6 A7 A8 A9 A10 A11 A12 A13 A14] & HV & Ht & Hk & Hnew & HF).
  assert (HW : WE P d s) by (exact (AE_WE _ _ _ _ (ci_A _ _ Z1) HI)).
  destruct (A3 P HW) as (W1 & W2). assert (Hn := ds_nv _ _ A2).
  destruct (undecide_fields new t) as (U1 & U2 & U3 & U4 & U5 & U6 & U7). rewrite <- Ht in U1, U2, U3, U4, U5, U6, U7.
  assert (VI : VEI (nvt t) e) by (rewrite Z4; apply HE). destruct (ve_init_spec t e VI) as (I1 & I2 & I3 & I4 & _).
  assert (HS : SS d' w t' s' e').
  { constructor; [|rewrite Hn; auto|rewrite Hn].
    - destruct (Z_dstep d w t d') as [Y1 Y2 Y3 Y4 Y5 Y6]; auto; [apply A1|apply A1|].
      constructor; auto; try congruence.
      + apply (PInv_same d' w t); auto.
      + intros l a. rewrite U4. apply Y5.
      + intros E l. rewrite U4. unfold reason. rewrite U3. apply Y6; auto.
    - constructor; auto. intros v c Hc. destruct (in_dec Nat.eq_dec v new) as [Hi|Hi].
      + destruct (A12 v c Hi Hc) as (B1 & B2 & _). split; auto. exact (B1 P HW).
      + rewrite A10, I4 in Hc by auto. apply (vo_c _ _ _ HE v); auto. }
  destruct (SS_fail d' w t' s' e' b HS) as (X1 & X2). { intros Hb a. exact (HF Hb P a HW). }
  split; auto. eapply rst_trans; [|exact X2]. constructor; auto.
  - rewrite (ds_empt _ _ A2); auto.
  - rewrite Ht. apply undecide_declen.
  - intros Hc. rewrite Hc in Ee. cbn in Ee. injection Ee as <- <- <- <- <- <-. auto.
  - intros Hc HSL. rewrite Hc in Ee. cbn in Ee. injection Ee as <- <- <- <- <- <-. split; auto. apply Cover_refl.
Qed.

Lemma simp_round_SS k d w t s e : SS d w t s e ->
  safe (simp_round C O k d w t s e) (fun x => match x with (b, d', w', t', s', e') => SS d' w' t' s' e' /\ rst d t s e d' t' s' e' end).
Proof.
  intros H0. unfold simp_round.
  destruct (pmu_SS d w t s e H0) as (d1 & w1 & t1 & E1 & H1 & R1). rewrite E1. cbn [bind].
  destruct (empt d1) eqn:M1; [cbn [safe]; auto|].
  destruct (subsume_SS (o_ptr O k) d1 w1 t1 s e H1) as (b2 & d2 & s2 & n2 & E2 & H2 & R2). rewrite E2. cbn [bind].
  assert (R2' := rst_trans _ _ _ _ _ _ _ _ _ _ _ _ R1 R2).
  destruct (pmu_SS (fail_if b2 d2) w1 t1 s2 e H2) as (d3 & w3 & t3 & E3 & H3 & R3). rewrite E3. cbn [bind].
  assert (R3' := rst_trans _ _ _ _ _ _ _ _ _ _ _ _ R2' R3).
  destruct (SS_cleanup _ _ _ _ _ (sub_nTouched n2) H3) as (H4 & R4).
  assert (R4' := rst_trans _ _ _ _ _ _ _ _ _ _ _ _ R3' R4).
  destruct (empt d3) eqn:M3; [cbn [safe]; auto|].
  destruct (asymm_SS _ _ _ _ _ H4 M3) as (b5 & n5 & d5 & w5 & t5 & s5 & E5 & H5 & R5). rewrite E5. cbn [bind].
  assert (R5' := rst_trans _ _ _ _ _ _ _ _ _ _ _ _ R4' R5).
  destruct (pmu_SS _ _ _ _ _ H5) as (d6 & w6 & t6 & E6 & H6 & R6). rewrite E6. cbn [bind].
  assert (R6' := rst_trans _ _ _ _ _ _ _ _ _ _ _ _ R5' R6).
  destruct (SS_cleanup _ _ _ _ _ n5 H6) as (H7 & R7).
  assert (R7' := rst_trans _ _ _ _ _ _ _ _ _ _ _ _ R6' R7).
  destruct (empt d6) eqn:M6; [cbn [safe]; auto|].
  eapply safe_bind; [exact (elim_SS (o_vars O k) _ w6 _ _ _ H7)|].
  intros [[[[[b n] d8] s8] e8] t8] (H8 & R8). cbn [safe].
  assert (R8' := rst_trans _ _ _ _ _ _ _ _ _ _ _ _ R7' R8).
  destruct (SS_cleanup _ _ _ _ _ n H8) as (H9 & R9). split; auto. exact (rst_trans _ _ _ _ _ _ _ _ _ _ _ _ R8' R9).
Qed.

Lemma simp_loop_SS fuel : forall k num max d w t s e, SS d w t s e ->
  safe (simp_loop C O fuel k num max d w t s e) (fun x => match x with (k', d', w', t', e') => exists s', SS d' w' t' s' e' /\ rst d t s e d' t' s' e' end).
Proof.
  induction fuel as [|f IH]; intros k num max d w t s e H0; cbn [simp_loop]; [discriminate|].
  destruct ((max <? 10 * num) && negb (o_term O k)); [|cbn [safe]; exists s; split; auto; apply rst_refl].
  eapply safe_bind; [exact (simp_round_SS k d w t s e H0)|].
  intros [[[[[b d1] w1] t1] s1] e1] (H1 & R1). destruct b; [|cbn [safe]; exists s1; auto].
  eapply safe_mono; [exact (IH (S k) _ _ d1 w1 t1 s1 e1 H1)|].
  intros [[[[k' d2] w2] t2] e2] (s2 & H2 & R2). exists s2. split; auto. exact (rst_trans _ _ _ _ _ _ _ _ _ _ _ _ R1 R2).
Qed.
End Simp.
