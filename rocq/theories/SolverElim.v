(** The first solve with variable elimination. *)
Require Import List Arith Bool NArith ZArith Permutation Lia.
From Coq Require Import ZifyBool ZifyNat ZifyN.
Require Import Verif.Base Verif.CNFModel Verif.CNFProofs Verif.Outcome Verif.TrailModel Verif.TrailSpec Verif.TrailProofs Verif.TrailLemmas Verif.DbModel Verif.PropModel Verif.PropProofs Verif.DbProofs
  Verif.PropSpec Verif.PropLemmas Verif.AnalyzeModel Verif.AnalyzeProofs Verif.AnalyzeLemmas Verif.SimpModel Verif.SubsProofs Verif.SimpProofs Verif.SimpSpec Verif.SimpLemmas
  Verif.VEProofs Verif.AsymmProofs Verif.AsymmLemmas Verif.ReduceModel Verif.SolverModel Verif.SolverBase Verif.SolverUnits Verif.SolverSimp Verif.SolverSearch Verif.SolverProofs Verif.SolverSpec Verif.SolverLemmas.
Import ListNotations.

(** ** What simplification keeps *)

(** an assignment of the variables that are not eliminated that satisfies the clauses of [d] is
    extended by the reconstruction to one that satisfies the clauses of [d0] *)
Definition RCN (d0 d : db) (e : ve) : Prop :=
  forall m e2 t2, (forall u, In u (ev e) -> nth u (ec e2) [] = nth u (ec e) []) -> TV (nv d0) t2 ->
    (forall u, In u (ev e) -> vvalue t2 u = None) -> (forall u, u < nv d0 -> ~ In u (ev e) -> vvalue t2 u <> None) ->
    (forall c, Kp m d c -> satisfies_any t2 (clits d c) = true) ->
    exists t3, prop_elim_list e2 (rev (ev e)) t2 = Ok t3 /\ TV (nv d0) t3 /\ (forall u, ~ In u (ev e) -> vvalue t3 u = vvalue t2 u) /\
      (forall u, In u (ev e) -> vvalue t3 u <> None) /\ lim t3 = lim t2 /\ dec t3 = dec t2 /\
      (forall c, Kp m d0 c -> satisfies_any t3 (clits d0 c) = true).
Lemma RCN_cover d0 d d' e : RCN d0 d e -> Cover d d' -> RCN d0 d' e.
Proof.
  intros H HC m e2 t2 A1 A2 A3 A4 A5. apply (H m e2 t2); auto. intros c (C1 & C2).
  destruct (HC c C1) as (c' & L1 & L2 & L3). assert (K : Kp m d' c') by (split; auto). apply A5 in K.
  apply satisfies_any_true in K. destruct K as (y & Y1 & Y2). apply satisfies_any_true. exists y. auto.
Qed.

Record RX (d0 d : db) (t : trail_t) (s : sdb) (e : ve) : Prop := {
  rx_n : nv d = nv d0;
  rx_SL : SL d s;
  rx_W : exists X, WR X d s /\ forall c, X c -> c < length (arena d) /\ exists l, clits d c = [l];
  rx_gone : forall i c l, wclause s i = Some c -> In l (clits d c) -> ~ In (lvar l) (ev e);
  rx_dec : forall v, ~ In v (ev e) -> isDecisionVar v t = true;
  rx_saved : forall v c, In c (nth v (ec e) []) -> exists l, In l c /\ lvar l = v;
  rx_rng : forall v, In v (ev e) -> v < nv d0;
  rx_as : forall l, In l (assum t) -> ~ In (lvar l) (ev e);
  rx_recon : RCN d0 d e }.

Lemma unit_perm d d' c l : Permutation (clits d c) (clits d' c) -> clits d c = [l] -> clits d' c = [l].
Proof. intros H E. rewrite E in H. apply Permutation_length_1_inv in H. exact H. Qed.

Lemma RX_mstep n d0 d t s e d' t' T : RX d0 d t s e -> SI n d s -> DI n d -> mstep T d d' -> dec t' = dec t -> assum t' = assum t -> RX d0 d' t' s e.
Proof.
  intros [R1 R2 (X & R3 & R4) R5 R6 R7 R8 Ra R9] HI HD HM Hd Ha. assert (HC := Cover_mstep n T d d' HD HM). constructor; auto.
  - rewrite (ms_nv _ _ _ HM). exact R1.
  - exact (SL_mstep n T d d' s HI HM R2).
  - exists (fun c => X c \/ length (arena d) <= c < length (arena d')). split.
    + intros c (C1 & C2). apply (ms_cls _ _ _ HM) in C1. destruct C1 as [C1|C1]; auto.
      assert (Hlt := cls_lt _ _ _ HD C1). destruct (R3 c) as [H|H]; auto. split; auto.
      unfold isDeleted in *. rewrite (ms_wt _ _ _ HM) in C2; auto.
    + intros c [H|H].
      * destruct (R4 c H) as (A & l & B). split; [assert (Q := ms_len _ _ _ HM); lia|]. exists l. exact (unit_perm d d' c l (ms_lits _ _ _ HM c A) B).
      * split; [lia|]. destruct (ms_new _ _ _ HM c H) as (_ & l & A & _). exists l. exact A.
  - intros i c l Hi Hl. apply (R5 i c l Hi). assert (Hlt := cls_lt _ _ _ HD (proj1 (s_cls _ _ _ HI i c Hi))).
    exact (Permutation_in _ (Permutation_sym (ms_lits _ _ _ HM c Hlt)) Hl).
  - intros v Hv. unfold isDecisionVar. rewrite Hd. exact (R6 v Hv).
  - rewrite Ha. exact Ra.
  - exact (RCN_cover _ _ _ _ R9 HC).
Qed.

Section Simp.
Variables (P : assignment -> Prop) (C : cfg) (O : oracle) (d0 : db).

Lemma pmu_RX d w t s e d' w' t' : SS P d w t s e -> RX d0 d t s e -> pmu d w t = Ok (d', w', t') -> RX d0 d' t' s e.
Proof.
  intros [HZ HI HE] HR E. destruct (pmu_spec P False d w t HZ) as (d1 & w1 & t1 & E1 & [A1 A2 A3 A4 A5 A6 A7 A8]).
  rewrite E in E1. injection E1 as <- <- <-.
  apply (RX_mstep (nv d) d0 d t s e d' t' t'); auto. apply HI.
Qed.
Lemma fail_RX d t s e b : SI (nv d) d s -> RX d0 d t s e -> RX d0 (fail_if b d) t s e.
Proof.
  intros HI HR. destruct b; cbn [fail_if]; auto. apply (RX_mstep (nv d) d0 d t s e _ t t); auto; [apply HI|apply empty_mstep].
Qed.
Lemma cleanup_RX d t s e n : RX d0 d t s e -> RX d0 d t (cleanup_if n s) e.
Proof.
  intros [R1 R2 R3 R5 R6 R7 R8 Ra R9]. unfold cleanup_if. destruct (0 <? n); [|constructor; auto].
  destruct R2 as [A B]. constructor; auto. constructor; auto.
Qed.
Lemma subsume_RX ptr d w t s e b d' s' k : SS P d w t s e -> RX d0 d t s e -> subsume_all ptr d s = Ok (b, d', s', k) ->
  RX d0 (fail_if b d') t s' e.
Proof.
  intros [HZ HI HE] [R1 R2 (X & R3 & R4) R5 R6 R7 R8 Ra R9] E.
  destruct (subsume_list_spec ptr (nv d) (seq 0 (length (subs s))) d s cnt0 HI) as (b1 & d1 & s1 & k1 & E1 & [A1 A2 A3 A4 A5 A6 A7 A8] & HF).
  unfold subsume_all in E. rewrite E1 in E. injection E as -> -> -> ->. destruct (A4 R2) as (X1 & X2).
  apply fail_RX; [rewrite (ds_nv _ _ A2); auto|]. constructor; auto.
  - rewrite (ds_nv _ _ A2). exact R1.
  - exists X. split; [exact (A5 X R2 R3)|]. intros c Hc. destruct (R4 c Hc) as (B1 & l & B2). split; [assert (Q := ds_len _ _ A2); lia|].
    exists l. rewrite (ds_lits _ _ A2); auto.
  - intros i c l Hi Hl. destruct (A8 i c l Hi Hl) as (j & c0 & J1 & J2). exact (R5 j c0 l J1 J2).
  - exact (RCN_cover _ _ _ _ R9 X2).
Qed.
Lemma asymm_RX d w t s e b n d' w' t' s' : SS P d w t s e -> RX d0 d t s e ->
  asymm_reduce (c_asymm C) d w t s = Ok (b, n, d', w', t', s') -> RX d0 (fail_if b d') t' s' e.
Proof.
  intros [HZ HI HE] [R1 R2 (X & R3 & R4) R5 R6 R7 R8 Ra R9] E. destruct HZ as [Z1 Z2 Z3 Z4 Z5 Z6]. assert (HI2 : SI (nvt t) d s) by (rewrite Z4; auto).
  destruct (asymm_reduce_spec (c_asymm C) d w t s HI2 Z2 Z3) as (b1 & n1 & d1 & w1 & t1 & s1 & E1 & [A1 A2 A3 A4 A5 A6 A7 A8 A9 A10 A11 A12] & HF).
  rewrite E1 in E. injection E as -> -> -> -> -> ->. destruct (A5 R2) as (X1 & X2). destruct A9 as (B1 & B2 & B3 & B4).
  apply fail_RX; [rewrite (ps_nv _ _ A3), <- Z4; auto|]. constructor; auto.
  - rewrite (ps_nv _ _ A3). exact R1.
  - exists X. split; [exact (A6 X R2 R3)|]. intros c Hc. destruct (R4 c Hc) as (C1 & l & C2). split; [assert (Q := ps_len _ _ A3); lia|].
    exists l. exact (unit_perm d d' c l (ps_lits _ _ A3 c C1) C2).
  - intros i c l Hi Hl. destruct (A7 i c l Hi Hl) as (j & c0 & J1 & J2). exact (R5 j c0 l J1 J2).
  - intros v Hv. unfold isDecisionVar. rewrite B3. exact (R6 v Hv).
  - rewrite B4. exact Ra.
  - exact (RCN_cover _ _ _ _ R9 X2).
Qed.
Lemma undecide_keep vs : forall t v, ~ In v vs -> isDecisionVar v (undecide vs t) = isDecisionVar v t.
Proof.
  induction vs as [|u vs IH]; intros t v Hv; auto. unfold undecide in *. cbn [fold_left]. cbn [In] in Hv. rewrite IH by tauto.
  unfold isDecisionVar, setDecisionVar. cbn [dec]. rewrite nth_set_nth. destruct (Nat.eqb_spec v u) as [e|n]; auto. subst. tauto.
Qed.
Lemma elim_RX cand d w t s e b n d' s' e' t' : SS P d w t s e -> RX d0 d t s e ->
  eliminate (c_elim C) (c_lim C) cand d s e t = Ok (b, n, d', s', e', t') -> RX d0 (fail_if b d') t' s' e'.
Proof.
  intros [HZ HI HE] [R1 R2 (X & R3 & R4) R5 R6 R7 R8 Ra R9] E. destruct HZ as [Z1 Z2 Z3 Z4 Z5 Z6].
  assert (HS := eliminate_spec (nv d) (c_elim C) (c_lim C) cand d s e t HI (vo_I _ _ _ HE) Z4). rewrite E in HS.
  destruct HS as (new & HP & HV & Ht & Hk & Hnew & HF). assert (HP2 := HP).
  destruct HP as [A1 A2 A3 A4 A5 A6 A7 A8 A9 A10 A11 A12 A13 A14].
  assert (VI : VEI (nvt t) e) by (rewrite Z4; apply HE). destruct (ve_init_spec t e VI) as (I1 & I2 & I3 & I4 & _).
  rewrite I3 in A7.
  assert (Hec : forall u, ~ In u new -> nth u (ec e') [] = nth u (ec e) []) by (intros u Hu; rewrite A10 by auto; apply I4).
  destruct (undecide_fields new t) as (U1 & U2 & U3 & U4 & U5 & U6 & U7).
  apply fail_RX; [rewrite (ds_nv _ _ A2); auto|]. constructor; auto.
  - rewrite (ds_nv _ _ A2). exact R1.
  - exists X. split; [exact (A5 X R2 R3)|]. intros c Hc. destruct (R4 c Hc) as (B1 & l & B2). split; [assert (Q := ds_len _ _ A2); lia|].
    exists l. rewrite (ds_lits _ _ A2); auto.
  - intros i c l Hi Hl. destruct (A13 i c l Hi Hl) as [V1 (j & c0 & l0 & J1 & J2 & J3)].
    rewrite A7, in_app_iff. intros [Hx|Hx]; auto. rewrite <- J3 in Hx. exact (R5 j c0 l0 J1 J2 Hx).
  - intros v Hv. rewrite A7, in_app_iff in Hv. rewrite Ht, undecide_keep by tauto. apply R6. tauto.
  - intros v c Hc. destruct (in_dec Nat.eq_dec v new) as [Hi|Hi].
    + destruct (A12 v c Hi Hc) as (B1 & B2 & B3). exact B3.
    + rewrite Hec in Hc by auto. exact (R7 v c Hc).
  - intros v Hv. rewrite A7, in_app_iff in Hv. destruct Hv as [Hv|Hv]; auto. rewrite <- R1. apply Hnew. auto.
  - rewrite Ht, U7. intros l Hl. rewrite A7, in_app_iff. intros [Hx|Hx]; [exact (Ra l Hl Hx)|].
    destruct (Hnew _ Hx) as (_ & _ & _ & Hx2). apply Hx2. apply in_map. auto.
  - intros m e2 t2 B1 B2 B3 B4 B5. rewrite A7 in *. rewrite <- R1 in *.
    destruct (A14 R2 m e2 t2) as (t3 & Q1 & Q2 & Q3 & Q4 & Q5 & Q6 & Q7); auto.
    + intros u Hu. apply B1. apply in_app_iff; auto.
    + intros u Hu. apply B3. apply in_app_iff; auto.
    + intros i c l Hi Hl. destruct (in_dec Nat.eq_dec (lvar l) new) as [Hx|Hx]; auto. right. apply B4.
      * apply (di_WFA _ _ (s_D _ _ _ HI) c). auto.
      * rewrite in_app_iff. intros [Hy|Hy]; auto. exact (R5 i c l Hi Hl Hy).
    + assert (Hdis : forall u, In u (ev e) -> ~ In u new) by (intros u V1 V2; apply Hnew in V2; tauto).
      unfold RCN in R9. rewrite <- R1 in R9.
      destruct (R9 m e2 t3) as (t4 & S1 & S2 & S3 & S4 & S5 & S6 & S7); auto.
      * intros u Hu. rewrite B1 by (apply in_app_iff; auto). apply Hec. auto.
      * intros u Hu. rewrite Q3 by auto. apply B3. apply in_app_iff; auto.
      * intros u Hu Hx. destruct (in_dec Nat.eq_dec u new) as [Hy|Hy]; auto. rewrite Q3 by auto. apply B4; auto. rewrite in_app_iff. tauto.
      * exists t4. rewrite rev_app_distr, prop_elim_list_app, Q1. cbn [bind]. split; auto. split; auto. split.
        -- intros u Hu. rewrite in_app_iff in Hu. rewrite S3, Q3 by tauto. auto.
        -- split; [|split; [congruence|split; [congruence|auto]]].
           intros u Hu. apply in_app_iff in Hu. destruct (in_dec Nat.eq_dec u (ev e)) as [Hb|Hb]; auto.
           rewrite S3 by auto. destruct Hu; [contradiction|]. auto.
Qed.

Lemma simp_round_RX k d w t s e : SS P d w t s e -> RX d0 d t s e ->
  safe (simp_round C O k d w t s e) (fun x => match x with (b, d', w', t', s', e') => SS P d' w' t' s' e' /\ RX d0 d' t' s' e' end).
Proof.
  intros H0 X0. unfold simp_round.
  destruct (pmu_SS P C d w t s e H0) as (d1 & w1 & t1 & E1 & H1 & _). rewrite E1. cbn [bind]. assert (X1 := pmu_RX _ _ _ _ _ _ _ _ H0 X0 E1).
  destruct (empt d1) eqn:M1; [cbn [safe]; auto|].
  destruct (subsume_SS P C (o_ptr O k) d1 w1 t1 s e H1) as (b2 & d2 & s2 & n2 & E2 & H2 & _). rewrite E2. cbn [bind].
  assert (X2 := subsume_RX _ _ _ _ _ _ _ _ _ _ H1 X1 E2).
  destruct (pmu_SS P C (fail_if b2 d2) w1 t1 s2 e H2) as (d3 & w3 & t3 & E3 & H3 & _). rewrite E3. cbn [bind].
  assert (X3 := pmu_RX _ _ _ _ _ _ _ _ H2 X2 E3).
  destruct (SS_cleanup P C _ _ _ _ _ (sub_nTouched n2) H3) as (H4 & _). assert (X4 := cleanup_RX _ _ _ _ (sub_nTouched n2) X3).
  destruct (empt d3) eqn:M3; [cbn [safe]; auto|].
  destruct (asymm_SS P C _ _ _ _ _ H4 M3) as (b5 & n5 & d5 & w5 & t5 & s5 & E5 & H5 & _). rewrite E5. cbn [bind].
  assert (X5 := asymm_RX _ _ _ _ _ _ _ _ _ _ _ H4 X4 E5).
  destruct (pmu_SS P C _ _ _ _ _ H5) as (d6 & w6 & t6 & E6 & H6 & _). rewrite E6. cbn [bind].
  assert (X6 := pmu_RX _ _ _ _ _ _ _ _ H5 X5 E6).
  destruct (SS_cleanup P C _ _ _ _ _ n5 H6) as (H7 & _). assert (X7 := cleanup_RX _ _ _ _ n5 X6).
  destruct (empt d6) eqn:M6; [cbn [safe]; auto|].
  assert (HE := elim_SS P C (o_vars O k) _ w6 _ _ _ H7).
  destruct (eliminate (c_elim C) (c_lim C) (o_vars O k) d6 (cleanup_if n5 s5) e t6) as [[[[[[b n] d8] s8] e8] t8]|er] eqn:E8; cbn [bind safe] in *; [|exact HE].
  destruct HE as (H8 & _). assert (X8 := elim_RX _ _ _ _ _ _ _ _ _ _ _ _ H7 X7 E8).
  destruct (SS_cleanup P C _ _ _ _ _ n H8) as (H9 & _). split; auto. apply cleanup_RX. auto.
Qed.
Lemma simp_loop_RX fuel : forall k num max d w t s e, SS P d w t s e -> RX d0 d t s e ->
  safe (simp_loop C O fuel k num max d w t s e) (fun x => match x with (k', d', w', t', e') => exists s', SS P d' w' t' s' e' /\ RX d0 d' t' s' e' end).
Proof.
  induction fuel as [|f IH]; intros k num max d w t s e H0 X0; cbn [simp_loop]; [discriminate|].
  destruct ((max <? 10 * num) && negb (o_term O k)); [|cbn [safe]; exists s; auto].
  eapply safe_bind; [exact (simp_round_RX k d w t s e H0 X0)|].
  intros [[[[[b d1] w1] t1] s1] e1] (H1 & X1). destruct b; [exact (IH (S k) _ _ d1 w1 t1 s1 e1 H1 X1)|cbn [safe]; exists s1; auto].
Qed.
End Simp.

(** ** The start of the first solve *)
Lemma RX_init P d t e : CI P d -> empt d = false -> nodel d -> AD t -> ev e = [] -> VEok P (nv d) e -> RX d d t (sdb_init d) e.
Proof.
  intros HC Em HN HA He HV. destruct (sdb_init_spec (nv d) d (ci_D _ _ HC) (ci_L _ _ HC) (ci_N _ _ HC Em)) as (S1 & S2 & S3 & S4).
  assert (Hec : forall v, nth v (ec e) [] = []).
  { intros v. destruct (nth v (ec e) []) eqn:E; auto. assert (H : In v (ev e)) by (apply (vi_ev _ _ (vo_I _ _ _ HV)); rewrite E; discriminate).
    rewrite He in H. destruct H. }
  constructor; auto.
  - exists (fun _ => False). split; auto. intros c [].
  - rewrite He. auto.
  - intros v c H. rewrite Hec in H. destruct H.
  - rewrite He. intros v [].
  - rewrite He. auto.
  - intros m e2 t2 A1 A2 A3 A4 A5. rewrite He in *. exists t2. split; [reflexivity|]. auto 10.
Qed.
Lemma loop_empt C O fuel k num max d w t s e k' d' w' t' e' P : Z P d w t -> empt d = true ->
  simp_loop C O fuel k num max d w t s e = Ok (k', d', w', t', e') -> empt d' = true.
Proof.
  intros HZ Em E. destruct fuel as [|f]; cbn [simp_loop] in E; [discriminate|]. destruct ((max <? 10 * num) && negb (o_term O k)); [|injection E as <- <- <- <- <-; auto].
  unfold simp_round in E. destruct (pmu_spec P False d w t HZ) as (d1 & w1 & t1 & E1 & [A1 A2 A3 A4 A5 A6 A7 A8]). rewrite E1 in E. cbn [bind] in E.
  assert (Em1 := A3 Em). rewrite Em1 in E. cbn [bind] in E. injection E as <- <- <- <- <-. exact Em1.
Qed.
Lemma start_RX P C O fuel s s1 : c_pre C = true -> BI P s -> nodel (sv_d s) -> AD (sv_t s) -> ev (sv_e s) = [] ->
  solve_start C O fuel s = Ok s1 -> empt (sv_d s1) = false -> exists b, RX (sv_d s) (sv_d s1) (sv_t s1) b (sv_e s1).
Proof.
  intros Hp [B1 B2 B3 B4 B5] HN HA He E Em. unfold solve_start in E. rewrite Hp in E.
  set (t0 := trail_reset (sv_t s)) in *. assert (HT0 : TI t0) by (apply TI_TLreset; auto).
  destruct (ve_reset_spec P (nv (sv_d s)) (sv_e s) t0 B5 B3 B4) as (cor & e1 & t1 & E1 & V1 & TS & Hcor & Hev).
  destruct (Hev He) as (-> & -> & He1). rewrite E1 in E. cbn [bind create_corr] in E. apply bind_ok in E. destruct E as (s2 & E2 & E3).
  injection E3 as <-. cbn [core sv_d sv_t sv_e] in *. unfold processClauseDatabase in E2. apply bind_ok in E2.
  destruct E2 as (((((k & d) & w) & t) & e) & E2 & E3). injection E3 as <-. cbn [with_e core sv_d sv_w sv_t sv_e sv_clk] in *.
  assert (HW : WS (nv (sv_d s)) (sv_d s) (prop_reset (sv_d s))) by (apply WS_reset; apply B1).
  destruct (Z_start P (sv_d s) (prop_reset (sv_d s)) t0 B1 HT0) as (Z1 & _); auto.
  assert (Em0 : empt (sv_d s) = false).
  { destruct (empt (sv_d s)) eqn:Ex; auto. rewrite (loop_empt _ _ _ _ _ _ _ _ _ _ _ _ _ _ _ _ P Z1 Ex E2) in Em. discriminate. }
  assert (HA0 : AD t0) by (intros v; apply (HA v)).
  assert (HR := RX_init P (sv_d s) t0 e1 B1 Em0 HN HA0 He1 V1).
  assert (HS : SS P (sv_d s) (prop_reset (sv_d s)) t0 (sdb_init (sv_d s)) e1).
  { constructor; auto. apply (sdb_init_spec _ _ (ci_D _ _ B1) (ci_L _ _ B1) (ci_N _ _ B1 Em0)). }
  assert (HL := simp_loop_RX P C O (sv_d s) fuel (sv_clk s) 1 0 _ _ _ _ _ HS HR). rewrite E2 in HL. cbn [safe] in HL.
  destruct HL as (b & _ & HX). exists b. exact HX.
Qed.

(** ** The loop does not touch the eliminated variables *)
Lemma cb_e ls s : sv_e (ipasir_callback ls s) = sv_e s.
Proof. unfold ipasir_callback. destruct (sv_cb s); auto. destruct (_ <=? _)%Z; auto. Qed.
Lemma search_e C O fuel : forall s r cs s', search C O fuel s = Ok (r, cs, s') -> sv_e s' = sv_e s.
Proof.
  induction fuel as [|f IH]; intros s r cs s' E; cbn [search] in E; [discriminate|].
  apply bind_ok in E. destruct E as ((((k & d) & w) & t) & _ & E). destruct k as [c|].
  - destruct (dlevel t =? 0); [injection E as <- <- <-; auto|]. apply bind_ok in E. destruct E as ((an & d0) & _ & E).
    apply bind_ok in E. destruct E as ((c' & d2) & _ & E). apply bind_ok in E. destruct E as ((b & t2) & _ & E). apply IH in E. rewrite E, cb_e. reflexivity.
  - destruct (o_restart O (sv_clk s)); [injection E as <- <- <-; auto|].
    destruct (assume_loop (S (length (assum t))) d t) as ([c|p|], t1).
    + injection E as <- <- <-. auto.
    + apply bind_ok in E. destruct E as (t2 & _ & E). apply IH in E. exact E.
    + destruct (pick (o_pick O (sv_clk s)) t1); [|injection E as <- <- <-; auto]. apply bind_ok in E. destruct E as (t2 & _ & E). apply IH in E. exact E.
Qed.
Lemma loop_e C O fuel : c_inproc C = 0%N -> forall n s r cs s', solve_loop C O n fuel s = Ok (r, cs, s') -> sv_e s' = sv_e s.
Proof.
  intros HC. induction n as [|n IH]; intros s r cs s' E; cbn [solve_loop] in E; [discriminate|].
  destruct (o_term O (sv_clk s)); [injection E as <- <- <-; auto|]. apply bind_ok in E. destruct E as (((r1 & cs1) & s1) & E1 & E).
  assert (H1 : sv_e s1 = sv_e s).
  { unfold solve_iter in E1. apply bind_ok in E1. destruct E1 as (s2 & E2 & E1). apply bind_ok in E1. destruct E1 as (((d & w) & t) & _ & E1).
    assert (H2 : sv_e s2 = sv_e s).
    { unfold maintain in E2. destruct (trigger_reduce _ _ _ _) as ([|], nb); [|injection E2 as <-; auto]. rewrite HC in E2. cbn [N.ltb N.compare andb] in E2.
      destruct (reduce _ _ _ _) as (inc, d1). cbn [bind] in E2. injection E2 as <-. auto. }
    destruct (empt d); [injection E1 as <- <- <-; exact H2|]. apply search_e in E1. rewrite E1. exact H2. }
  destruct r1; [injection E as <- <- <-; exact H1|]. apply IH in E. congruence.
Qed.
Lemma loop_no_elim C O : c_inproc C = 0%N -> forall n fuel s, solve_loop C O n fuel s = solve_loop (no_elim C) O n fuel s.
Proof. destruct C as [a b e g h i j k l m]. cbn. intros -> n fuel s. reflexivity. Qed.

(** ** Room on the trail *)
Lemma set_values_len ls : forall t t', set_values ls t = Ok t' -> length (tr t) <= nvt t ->
  length (tr t') = length (tr t) + length ls /\ length (tr t') <= nvt t' /\ nvt t' = nvt t.
Proof.
  induction ls as [|l ls IH]; intros t t' E H; cbn [set_values] in E; [injection E as <-; cbn; auto|]. apply bind_ok in E. destruct E as (t1 & E1 & E2).
  unfold set_value in E1. destruct (Nat.ltb_spec (length (tr t)) (nvt t)); [|discriminate]. injection E1 as <-. apply IH in E2; cbn [tr nvt] in *; rewrite app_length in *; cbn [length] in *; lia.
Qed.
Lemma prop_elim_len e vs : (forall v c, In c (nth v (ec e) []) -> exists l, In l c /\ lvar l = v) -> forall t t', prop_elim_list e vs t = Ok t' -> length (tr t) <= nvt t ->
  length (tr t) + length vs <= nvt t.
Proof.
  intros HS. induction vs as [|v vs IH]; intros t t' E H; cbn [prop_elim_list length] in *; [lia|]. apply bind_ok in E. destruct E as (t1 & E1 & E2).
  assert (HM : forall c, In c (nth v (ec e) []) -> length (filter (fun l => lvar l =? v) c) >= 1).
  { intros c Hc. destruct (HS v c Hc) as (l & L1 & L2). assert (Hl : In l (filter (fun l => lvar l =? v) c)) by (apply filter_In; split; auto; apply Nat.eqb_eq; auto).
    destruct (filter _ c); [destruct Hl|cbn; lia]. }
  assert (H1 : length (tr t1) >= length (tr t) + 1 /\ length (tr t1) <= nvt t1 /\ nvt t1 = nvt t).
  { unfold prop_elim_var in E1. apply bind_ok in E1. destruct E1 as (t2 & E3 & E1).
    destruct (set_values_len _ _ _ E3 H) as (A1 & A2 & A3).
    destruct (match find (fun c => negb (satisfies_any t c)) (nth v (ec e) []) with Some c => filter (fun l => lvar l =? v) c | None => [] end) as [|x r].
    - destruct (nth v (ec e) []) as [|c cs] eqn:En; [discriminate|]. assert (Hc := HM c (or_introl eq_refl)).
      destruct (set_values_len _ _ _ E1 A2) as (C1 & C2 & C3). rewrite map_length in C1. lia.
    - injection E1 as <-. cbn [length] in A1. lia. }
  destruct H1 as (X1 & X2 & X3). specialize (IH _ _ E2 X2). lia.
Qed.
Lemma room_free n e (t t' : trail_t) : TI t -> nvt t = n -> NoDup (ev e) -> (forall v, In v (ev e) -> v < n) ->
  (forall v, v < n -> ~ In v (ev e) -> vvalue t v <> None) -> (forall v c, In c (nth v (ec e) []) -> exists l, In l c /\ lvar l = v) ->
  prop_elim_list e (rev (ev e)) t = Ok t' -> forall v, In v (ev e) -> vvalue t v = None.
Proof.
  intros HT HN ND Hr Hall HS E v Hv. destruct (vvalue t v) as [b|] eqn:Ev; auto. exfalso.
  assert (Hon : forall u, vvalue t u <> None -> In u (map lvar (tr t))).
  { intros u Hu. destruct (vvalue t u) as [x|] eqn:Eu; [|congruence]. apply in_map_iff. exists (mkLit u (negb x)). split; [apply lvar_mk|].
    apply (ti_val _ HT). unfold value. rewrite lvar_mk, lsign_mk, Eu. cbn. destruct x; reflexivity. }
  assert (Hlen : length (tr t) <= nvt t).
  { rewrite <- (map_length lvar). rewrite <- (seq_length (nvt t) 0). apply NoDup_incl_length; [apply HT|]. intros u Hu. apply in_seq.
    apply in_map_iff in Hu. destruct Hu as (l & <- & Hl). assert (H := ti_range _ HT l Hl). lia. }
  assert (HL := prop_elim_len e _ HS t t' E Hlen). rewrite rev_length in HL.
  set (keep := filter (fun u => if in_dec Nat.eq_dec u (ev e) then false else true) (seq 0 n)).
  assert (Hk : forall u, In u keep <-> u < n /\ ~ In u (ev e)).
  { intros u. unfold keep. rewrite filter_In, in_seq. destruct (in_dec Nat.eq_dec u (ev e)); split; intros H; [destruct H; discriminate|tauto|split; [lia|tauto]|split; [lia|auto]]. }
  assert (H1 : length (v :: keep) <= length (map lvar (tr t))).
  { apply NoDup_incl_length; [constructor; [intros H; apply Hk in H; tauto|apply NoDup_filter, seq_NoDup]|].
    intros u [<-|Hu]; apply Hon; [congruence|]. apply Hk in Hu. apply Hall; tauto. }
  assert (H2 : length (seq 0 n) <= length (keep ++ ev e)).
  { apply NoDup_incl_length; [apply seq_NoDup|]. intros u Hu. apply in_seq in Hu. apply in_app_iff. destruct (in_dec Nat.eq_dec u (ev e)); auto. left. apply Hk. split; auto; lia. }
  rewrite seq_length, app_length in H2. rewrite map_length in H1. cbn [length] in H1. change (@length var) with (@length nat) in *. lia.
Qed.

(** ** The model of the first solve *)
Lemma model_of_trail n t l : TV n t -> value t l = Some true -> model_lit (set_model (tr t)) l.
Proof. intros H Hl. apply (set_model_nth (tr t) [] (tv_nodup _ _ H)). apply (tv_val _ _ H). exact Hl. Qed.
Lemma first_model C F s O fuel x s' : c_inproc C = 0%N -> sreach C loading_op F s -> solve C O fuel s = Ok (x, s') -> r_status x = Some true ->
  model_sat (r_model x) F /\ (forall l, In l (assumptions s) -> model_lit (r_model x) l) /\ model_total (nvars s) (r_model x).
Proof.
  intros HC HR E Hx. destruct (load_KI C F s HR) as ([K1 K2 K3] & HN). assert (HB := reach_BI _ _ _ _ HR).
  destruct (c_pre C) eqn:Hp.
  2:{ apply (history_model C F s O fuel x s'); auto. clear - HR. induction HR; [apply sr_new|eapply sr_init; eauto|eapply sr_assume; eauto; exact I|eapply sr_callback; eauto; exact I|cbn in H; tauto]. }
  unfold solve in E. apply bind_ok in E. destruct E as (s1 & E1 & E).
  assert (HS1 := solve_start_spec (holdsF F) C O fuel s HB). rewrite E1 in HS1. cbn [safe] in HS1. destruct HS1 as (X1 & X2 & X3 & _).
  apply bind_ok in E. destruct E as (((r & cs) & s2) & E2 & E3).
  destruct (empt (sv_d s1)) eqn:Em.
  { injection E2 as <- <- <-. cbn [solve_finish] in E3. injection E3 as <- <-. discriminate. }
  destruct (start_RX _ C O fuel s s1 Hp HB HN K3 K2 E1 Em) as (b & HX).
  assert (He := loop_e C O fuel HC _ _ _ _ _ E2). rewrite (loop_no_elim C O HC) in E2.
  assert (HL := solve_loop_spec (holdsF F) (no_elim C) O fuel fuel s1 X1 X2). rewrite E2 in HL. cbn [safe] in HL.
  destruct HL as [B Y2 Y3 Y4 Y5 Y6]. destruct r as [[|]|]; cbn [solve_finish] in E3; [|injection E3 as <- <-; discriminate|injection E3 as <- <-; discriminate].
  apply bind_ok in E3. destruct E3 as (t & Et & E3). injection E3 as <- _. cbn [r_model].
  assert (HQ := no_elim_quiet C HC). destruct (Y6 eq_refl) as (J1 & J2 & J3). destruct (J3 HQ) as (D1 & D2). destruct (Y4 HQ) as [G1 G2 G3].
  destruct HX as [R1 R2 (X & R3 & R4) R5 R6 R7 R8 Ra R9].
  assert (Nn : nvt (sv_t s2) = nv (sv_d s)) by (rewrite (b_n _ _ B), (r_nv _ _ _ Y3); exact R1).
  assert (Hall : forall v, v < nv (sv_d s) -> ~ In v (ev (sv_e s1)) -> vvalue (sv_t s2) v <> None).
  { intros v Hv Hev. apply D1; [rewrite R1; exact Hv|]. apply R6. exact Hev. }
  unfold propagate_eliminated in Et. rewrite He in Et.
  assert (Hfree := room_free (nv (sv_d s)) (sv_e s1) (sv_t s2) t J2 Nn (vi_nd _ _ (vo_I _ _ _ (b_E _ _ X1))) R8 Hall R7 Et).
  assert (TV2 : TV (nv (sv_d s)) (sv_t s2)) by (rewrite <- Nn; apply TI_TV; exact J2).
  destruct (R9 true (sv_e s1) (sv_t s2)) as (t3 & P1 & P2 & P3 & P4 & P5 & P6 & P7); auto.
  { intros c (C1 & C2). specialize (C2 eq_refl). destruct (G3 c (proj1 C1) C2) as (c' & L1 & L2 & L3).
    assert (Hc' : exists l, In l (clits (sv_d s2) c') /\ In l (tr (sv_t s2))).
    { apply D2; auto. intros Hlen l Hl. destruct (R3 c C1) as [(i & Hi)|Hu].
      - apply Hall; [rewrite <- R1; apply (di_WFA _ _ (ci_D _ _ (b_C _ _ X1)) c); auto|]. exact (R5 i c l Hi (L3 l Hl)).
      - exfalso. destruct (R4 c Hu) as (_ & y & Hy). rewrite Hy in L3.
        destruct (di_WFA _ _ (ci_D _ _ (b_C _ _ B)) c') as (ND & _). change (alits (arena (sv_d s2)) c') with (clits (sv_d s2) c') in ND. apply NoDup_map_inv in ND.
        assert (HQ2 := NoDup_incl_length ND L3). cbn [length] in HQ2. lia. }
    destruct Hc' as (l & H1 & H2). apply satisfies_any_true. exists l. split; auto. apply (ti_val _ J2). exact H2. }
  rewrite Et in P1. injection P1 as <-. split; [|split].
  - intros f Hf. destruct (K1 f Hf) as (c & C1 & C2 & C3).
    assert (HK : Kp true (sv_d s) c) by (split; [split; [auto|apply HN; auto]|auto]). apply P7 in HK. apply satisfies_any_true in HK.
    destruct HK as (l & L1 & L2). exists l. split; auto. exact (model_of_trail _ _ _ P2 L2).
  - intros l Hl. unfold assumptions in Hl. rewrite <- (r_assum _ _ _ X3) in Hl. apply (model_of_trail _ _ _ P2). assert (Hv := J1 l Hl). apply (ti_val _ J2) in Hv.
    unfold value in *. rewrite P3; auto.
  - intros v Hv. unfold nvars in Hv. assert (Hne : vvalue t v <> None).
    { destruct (in_dec Nat.eq_dec v (ev (sv_e s1))) as [Hi|Hi]; auto. rewrite P3 by auto. auto. }
    destruct (vvalue t v) as [y|] eqn:Ev; [|congruence].
    assert (HM : model_lit (set_model (tr t)) (mkLit v (negb y))).
    { apply (model_of_trail _ _ _ P2). unfold value. rewrite lvar_mk, lsign_mk, Ev. cbn. destruct y; reflexivity. }
    unfold model_lit in HM. rewrite lvar_mk in HM. rewrite HM. discriminate.
Qed.
