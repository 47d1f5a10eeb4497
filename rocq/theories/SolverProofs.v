(** Loading, solving and finishing: the solver as a whole. *)
Require Import List Arith Bool NArith ZArith Permutation Lia.
From Coq Require Import ZifyBool ZifyNat ZifyN.
Require Import Verif.Base Verif.CNFModel Verif.CNFProofs Verif.Outcome Verif.TrailModel Verif.TrailSpec Verif.TrailProofs Verif.TrailLemmas Verif.DbModel Verif.PropModel Verif.PropProofs Verif.DbProofs
  Verif.PropSpec Verif.PropLemmas Verif.AnalyzeModel Verif.AnalyzeProofs Verif.AnalyzeLemmas Verif.SimpModel Verif.SubsProofs Verif.SimpProofs Verif.SimpSpec Verif.SimpLemmas
  Verif.VEProofs Verif.AsymmProofs Verif.AsymmLemmas Verif.ReduceModel Verif.SolverModel Verif.SolverBase Verif.SolverUnits Verif.SolverSimp Verif.SolverSearch.
Import ListNotations.

(** Loading, solving and finishing: the solver as a whole. *)

Definition nodel (d : db) : Prop := forall c, In c (cls d) -> isDeleted d c = false.
(** all variables are decision variables *)
Definition AD (t : trail_t) : Prop := forall v, isDecisionVar v t = true.
Definition TL (t : trail_t) : Prop := length (asg t) = nvt t /\ length (vd t) = nvt t.
Lemma TI_TL t : TI t -> TL t.
Proof. intros H. split; apply H. Qed.

Lemma K0_reduce persist median cand n d : DI n d -> K0 d (snd (reduce persist median cand d)).
Proof.
  intros HD. unfold reduce. cbn [snd].
  assert (HV : forall c, In c (red_victims persist median cand d) -> cwt d c <> 0%N /\ In c (cls d)).
  { intros c Hc. assert (H : In c (red_candidates persist d)).
    { unfold red_victims in Hc. set (ls := std_sort (fun a b => (cwt d a <? cwt d b)%N) cand (red_candidates persist d)) in *.
      assert (Hsk : forall w l x, In x (skip_equal d w l) -> In x l).
      { clear. intros w l x. induction l as [|y l IH]; cbn [skip_equal]; auto. destruct (_ =? _)%N; auto. intros H. cbn. auto. }
      assert (Hin : In c ls).
      { destruct (1 <? length ls); [|destruct Hc]. assert (Hc2 : In c (skipn (length ls / 2) ls)).
        { destruct median; auto. destruct (skipn (length ls / 2) ls) as [|y l] eqn:E; auto. rewrite <- E in *. apply (Hsk _ _ _ Hc). }
        rewrite <- (firstn_skipn (length ls / 2) ls). apply in_or_app. auto. }
      exact (Permutation_in _ (std_sort_perm _ _ _) Hin). }
    unfold red_candidates in H. apply filter_In in H. destruct H as (H1 & H2). split; auto. unfold reducible in H2. lia. }
  assert (HF : forall cs d0, (forall c, In c cs -> c < length (arena d0)) -> forall c, ~ In c cs -> cwt (fold_left (fun d c => removeClause c d) cs d0) c = cwt d0 c).
  { clear. induction cs as [|x cs IH]; intros d0 Hlt c Hc; cbn [fold_left]; auto. cbn [In] in Hc. rewrite IH; [|intros y Hy; rewrite arena_len_remove; apply Hlt; cbn; auto|tauto].
    rewrite cwt_remove by (apply Hlt; cbn; auto). destruct (Nat.eqb_spec c x); [subst; tauto|auto]. }
  intros c H1 H2. destruct (fold_remove (red_victims persist median cand d) d) as (A & B & D). exists c. split; [rewrite D; auto|]. split.
  - rewrite HF; auto; [|intros Hc; apply HV in Hc; tauto]. intros x Hx. apply HV in Hx. exact (cls_lt _ _ _ HD (proj2 Hx)).
  - rewrite A. apply incl_refl.
Qed.

Lemma Z_start P d w t : CI P d -> TI t -> lim t = [] -> tr t = [] -> nvt t = nv d -> WS (nv d) d w -> Z P d w t /\ RN t.
Proof.
  intros HC HT HL HR HN HW. assert (HR' : RN t) by (intros l Hl; rewrite HR in Hl; destruct Hl). split; auto. constructor; auto.
  - assert (HD : DI (nvt t) d) by (rewrite HN; apply HC). assert (HW2 : WS (nvt t) d w) by (rewrite HN; auto).
    apply (sb_P _ _ _ (si_B _ _ _ (SInvQ_facts True d w t HD HT HL HR' HW2 (fun _ => HR)))).
  - intros l a Hl. rewrite HR in Hl. destruct Hl.
Qed.
Lemma Z_rebuild P d w t d' : Z P d w t -> CI P d' -> arena d' = arena d -> nv d' = nv d -> empt d' = empt d ->
  Z P d' (prop_reset d') t /\ WS (nv d') d' (prop_reset d').
Proof.
  intros [Z1 Z2 Z3 Z4 Z5 Z6] HC EA EN EE. assert (HW := WS_reset (nv d') d' (ci_D _ _ HC)). split; auto.
  assert (E : nvt t = nv d') by congruence. constructor; auto; [|rewrite EE; auto].
  destruct Z2 as [P1 P2 P3 P4 P5 P6 P7]. constructor; auto; try (rewrite EA; auto; fail); try apply HW.
  - apply (di_BW _ _ (ci_D _ _ HC)).
  - rewrite E. apply HW.
Qed.

(** ** Corrections *)
Lemma create_corr_spec P n cs : forall d w, CI P d -> nv d = n -> WS n d w -> (forall c, In c cs -> wfc n c /\ forall a, P a -> sat_clause a c) ->
  safe (create_corr cs d w) (fun x => match x with (d', w') => CI P d' /\ nv d' = n /\ WS n d' w' /\ K0 d d' /\ (cs = [] -> d' = d) end).
Proof.
  induction cs as [|c cs IH]; intros d w HC HN HW Hcs; cbn [create_corr]; [cbn; split; [auto|]; split; [auto|]; split; [auto|]; split; [apply K0_refl|auto]|].
  destruct (createClause c 0 false d) as [[c' d1]|er] eqn:E; cbn [bind].
  2:{ cbn [safe]. apply createClause_err in E. subst. discriminate. }
  destruct (Hcs c) as (H1 & H2); [cbn; auto|]. assert (H1' : wfc (nv d) c) by (rewrite HN; auto).
  destruct (CI_create P d _ _ _ _ _ HC H1' H2 E) as (C1 & HK). assert (N1 : nv d1 = n) by (rewrite <- HN; apply HK).
  assert (HD : DI n d) by (rewrite <- HN; apply HC). assert (W1' := WS_create n d w c 0 false c' d1 HD H1 E HW).
  eapply safe_mono; [apply IH; auto; intros x Hx; apply Hcs; cbn; auto|]. intros (d', w') (X1 & X2 & X3 & X4 & _).
  split; [auto|]. split; [auto|]. split; [auto|]. split; [exact (K0_trans _ _ _ (K0_create _ _ _ _ _ _ _ HD E) X4)|discriminate].
Qed.

(** the trail up to the decision flags *)
Record tsame (t t' : trail_t) : Prop := {
  ts_nvt : nvt t' = nvt t; ts_asg : asg t' = asg t; ts_vd : vd t' = vd t; ts_tr : tr t' = tr t; ts_qh : qh t' = qh t;
  ts_lim : lim t' = lim t; ts_assum : assum t' = assum t }.
Lemma tsame_refl t : tsame t t.
Proof. constructor; auto. Qed.
Lemma tsame_trans t t1 t2 : tsame t t1 -> tsame t1 t2 -> tsame t t2.
Proof. intros [] []. constructor; congruence. Qed.
Lemma tsame_TI t t' : tsame t t' -> TI t -> TI t'.
Proof.
  destruct t, t'. intros [E1 E2 E3 E4 E5 E6 E7]. cbn in *. subst. intros [A1 A2 A3 A4 A5 A6 A7 A8 A9]. constructor; assumption.
Qed.

Lemma undo_VEok P n v e : VEok P n e -> VEok P n (mkVE (filter (fun x => negb (x =? v)) (ev e)) (set_nth v [] (ec e)) (fz e)).
Proof.
  intros [[V1 V2 V3 V4] Vc].
  assert (HN : forall x, nth x (set_nth v [] (ec e)) [] = if x =? v then [] else nth x (ec e) []).
  { intros x. rewrite nth_set_nth. destruct (Nat.eqb_spec x v) as [->|]; auto. cbn [andb]. destruct (Nat.ltb_spec v (length (ec e))); auto. apply nth_overflow. auto. }
  constructor; [constructor; cbn [ev ec fz]|]; auto.
  - rewrite set_nth_length. auto.
  - apply NoDup_filter. auto.
  - intros x. rewrite HN, filter_In. destruct (Nat.eqb_spec x v) as [->|Hne].
    + cbn. split; [intros (_ & H); discriminate|intros H; destruct (H eq_refl)].
    + cbn. rewrite <- V4. tauto.
  - cbn [ec]. intros x c. rewrite HN. destruct (x =? v); [intros []|apply Vc].
Qed.
Lemma VEok_fz P n e f : VEok P n e -> length f = length (fz e) -> VEok P n (mkVE (ev e) (ec e) f).
Proof. intros [[V1 V2 V3 V4] Vc] H. constructor; [constructor; cbn [ev ec fz]; auto; congruence|exact Vc]. Qed.
Lemma VEok_grow P n e : VEok P n e -> VEok P n (ve_grow n e) /\ length (fz (ve_grow n e)) = n /\ ev (ve_grow n e) = ev e.
Proof.
  intros [[V1 V2 V3 V4] Vc]. unfold ve_grow. destruct (Nat.ltb_spec (length (fz e)) n) as [H|H].
  - split; [|cbn [fz ev]; split; auto; apply resize_length; lia].
    constructor; [constructor; cbn [ev ec fz]; auto; rewrite ?resize_length by lia; auto|].
    + intros v. rewrite resize_nth by lia. auto.
    + cbn [ec]. intros v c. rewrite resize_nth by lia. apply Vc.
  - split; [|split; auto; lia]. constructor; [constructor; auto|auto].
Qed.
Lemma is_elim_ev P n e v : VEok P n e -> ev e = [] -> is_eliminated e v = false.
Proof.
  intros [[V1 V2 V3 V4] Vc] E. unfold is_eliminated. destruct (nth v (ec e) []) as [|c r] eqn:En; auto. exfalso.
  assert (H : In v (ev e)) by (apply V4; rewrite En; discriminate). rewrite E in H. destruct H.
Qed.

Lemma ve_reset_loop_spec P n ls : forall e t acc, VEok P n e -> length (fz e) = n -> (forall l, In l ls -> lvar l < n) ->
  (forall c, In c acc -> wfc n c /\ forall a, P a -> sat_clause a c) ->
  exists cor e' t', ve_reset_loop ls e t acc = Ok (cor, e', t') /\ VEok P n e' /\ tsame t t' /\
    (forall c, In c cor -> wfc n c /\ forall a, P a -> sat_clause a c) /\ (ev e = [] -> cor = acc /\ t' = t /\ ev e' = []).
Proof.
  induction ls as [|l ls IH]; intros e t acc HV HL Hls Hacc; cbn [ve_reset_loop].
  { exists acc, e, t. split; auto. split; auto. split; [apply tsame_refl|]. split; auto. }
  assert (Hl : lvar l < n) by (apply Hls; cbn; auto). assert (Hl2 : lvar l <? length (fz e) = true) by lia. rewrite Hl2.
  set (e1 := mkVE (ev e) (ec e) (set_nth (lvar l) true (fz e))).
  assert (HV1 : VEok P n e1) by (apply VEok_fz; auto; apply set_nth_length).
  assert (HL1 : length (fz e1) = n) by (cbn [e1 fz]; rewrite set_nth_length; auto).
  assert (Hls' : forall x, In x ls -> lvar x < n) by (intros x Hx; apply Hls; cbn; auto).
  destruct (is_eliminated e1 (lvar l)) eqn:Ee.
  - cbn [undo_elimination].
    destruct (IH (mkVE (filter (fun x => negb (x =? lvar l)) (ev e1)) (set_nth (lvar l) [] (ec e1)) (fz e1)) (setDecisionVar (lvar l) true t) (acc ++ nth (lvar l) (ec e1) [])) as (cor & e' & t' & E & X1 & X2 & X3 & X4); auto.
    + apply undo_VEok. auto.
    + intros c Hc. apply in_app_or in Hc. destruct Hc as [Hc|Hc]; auto. exact (vo_c _ _ _ HV1 _ c Hc).
    + exists cor, e', t'. split; [exact E|]. split; auto. split; [eapply tsame_trans; [|exact X2]; constructor; auto|]. split; auto.
      intros He. rewrite (is_elim_ev P n e1 (lvar l) HV1 He) in Ee. discriminate.
  - destruct (IH e1 t acc) as (cor & e' & t' & E & X1 & X2 & X3 & X4); auto. exists cor, e', t'. split; [exact E|]. auto.
Qed.
Lemma ve_reset_spec P n e t : VEok P n e -> nvt t = n -> (forall l, In l (assum t) -> lvar l < n) ->
  exists cor e' t', ve_reset e t = Ok (cor, e', t') /\ VEok P n e' /\ tsame t t' /\
    (forall c, In c cor -> wfc n c /\ forall a, P a -> sat_clause a c) /\ (ev e = [] -> cor = [] /\ t' = t /\ ev e' = []).
Proof.
  intros HV HN HA. unfold ve_reset. rewrite HN.
  assert (HV1 : VEok P n (mkVE (ev e) (ec e) (map (fun _ => false) (fz e)))) by (apply VEok_fz; auto; apply map_length).
  destruct (VEok_grow P n _ HV1) as (G1 & G2 & G3).
  destruct (ve_reset_loop_spec P n (assum t) _ t [] G1 G2 HA) as (cor & e' & t' & E & X1 & X2 & X3 & X4); [intros c []|].
  exists cor, e', t'. split; auto. split; auto. split; auto. split; auto. intros He. apply X4. rewrite G3. exact He.
Qed.

Section Run.
Variables (P : assignment -> Prop) (C : cfg) (O : oracle).
Let Q := c_elim C = false /\ c_inproc C = 0%N.

Record BI (s : solver) : Prop := {
  b_C : CI P (sv_d s);
  b_T : TL (sv_t s);
  b_n : nvt (sv_t s) = nv (sv_d s);
  b_as : forall l, In l (assum (sv_t s)) -> lvar l < nv (sv_d s);
  b_E : VEok P (nv (sv_d s)) (sv_e s) }.
Definition BW' (s : solver) : Prop := WS (nv (sv_d s)) (sv_d s) (sv_w s).
Record srel (s s' : solver) : Prop := {
  r_nv : nv (sv_d s') = nv (sv_d s);
  r_assum : assum (sv_t s') = assum (sv_t s);
  r_log : logext P (nv (sv_d s)) s s' }.
Record krel (s s' : solver) : Prop := {
  k_dec : dec (sv_t s') = dec (sv_t s);
  k_ev : ev (sv_e s') = ev (sv_e s);
  k_K : K0 (sv_d s) (sv_d s') }.
Lemma srel_trans s s1 s2 : srel s s1 -> srel s1 s2 -> srel s s2.
Proof. intros [A1 A2 A3] [B1 B2 B3]. rewrite A1 in *. constructor; try congruence. exact (logext_trans _ _ _ _ _ A3 B3). Qed.
Lemma krel_trans s s1 s2 : krel s s1 -> krel s1 s2 -> krel s s2.
Proof. intros [A1 A2 A3] [B1 B2 B3]. constructor; try congruence. exact (K0_trans _ _ _ A3 B3). Qed.
Lemma krel_refl s : krel s s.
Proof. constructor; auto. apply K0_refl. Qed.

(** ** Simplification of the whole database *)
Lemma simp_loop_Z fuel k num max d w t e : Z P d w t -> VEok P (nv d) e ->
  safe (simp_loop C O fuel k num max d w t (sdb_init d) e) (fun x => match x with (k', d', w', t', e') =>
    Z P d' w' t' /\ VEok P (nv d') e' /\ nv d' = nv d /\ assum t' = assum t /\
    (c_elim C = false -> dec t' = dec t /\ ev e' = ev e /\ (nodel d -> K0 d d')) end).
Proof.
  intros HZ HE. destruct (empt d) eqn:Em.
  - destruct fuel as [|f]; cbn [simp_loop]; [discriminate|]. destruct ((max <? 10 * num) && negb (o_term O k)).
    2:{ cbn [safe]. split; [auto|]. split; [auto|]. split; [auto|]. split; [auto|]. intros _. split; [auto|]. split; [auto|]. intros _. apply K0_refl. }
    unfold simp_round. destruct (pmu_spec P False d w t HZ) as (d' & w' & t' & E & [A1 A2 A3 A4 A5 A6 A7 A8]). rewrite E. cbn [bind].
    rewrite (A3 Em). cbn [bind safe]. rewrite (ms_nv _ _ _ A2). split; [auto|]. split; [auto|]. split; [auto|]. split; [auto|].
    intros _. split; [auto|]. split; [auto|]. intros _. exact (K0_mstep _ _ _ _ (ci_D _ _ (z_C _ _ _ _ HZ)) A2).
  - assert (HC := z_C _ _ _ _ HZ). destruct (sdb_init_spec (nv d) d (ci_D _ _ HC) (ci_L _ _ HC) (ci_N _ _ HC Em)) as (S1 & S2 & S3 & S4).
    eapply safe_mono; [apply (simp_loop_SS P C O fuel k num max d w t (sdb_init d) e); constructor; auto|].
    intros [[[[k' d'] w'] t'] e'] (s' & [X1 X2 X3] & [R1 R2 R3 R4 R5 R6]).
    split; [auto|]. split; [auto|]. split; [auto|]. split; [auto|]. intros Hc. destruct (R5 Hc). split; [auto|]. split; [auto|].
    intros HN. apply K0_Cover. apply (R6 Hc). auto.
Qed.
Lemma process_spec fuel s : Z P (sv_d s) (sv_w s) (sv_t s) -> VEok P (nv (sv_d s)) (sv_e s) ->
  safe (processClauseDatabase C O fuel s) (fun s' => Z P (sv_d s') (sv_w s') (sv_t s') /\ VEok P (nv (sv_d s')) (sv_e s') /\
    srel s s' /\ (c_elim C = false -> nodel (sv_d s) -> krel s s') /\ (c_elim C = false -> dec (sv_t s') = dec (sv_t s) /\ ev (sv_e s') = ev (sv_e s))).
Proof.
  intros HZ HE. unfold processClauseDatabase. eapply safe_bind; [exact (simp_loop_Z fuel (sv_clk s) _ _ _ _ _ _ HZ HE)|].
  intros [[[[k d] w] t] e] (X1 & X2 & X3 & X4 & X5). cbn [safe sv_d sv_w sv_t sv_e]. split; auto. split; auto. split; [|split].
  - constructor; auto. apply logext_same; auto.
  - intros Hc HN. destruct (X5 Hc) as (Y1 & Y2 & Y3). constructor; auto.
  - intros Hc. destruct (X5 Hc) as (Y1 & Y2 & Y3). auto.
Qed.

(** ** One iteration *)
Lemma maintain_spec fuel s : BI s -> BW' s -> lim (sv_t s) = [] -> tr (sv_t s) = [] -> TI (sv_t s) ->
  safe (maintain C O fuel s) (fun s' => Z P (sv_d s') (sv_w s') (sv_t s') /\ BW' s' /\ VEok P (nv (sv_d s')) (sv_e s') /\
    srel s s' /\ (Q -> krel s s' /\ tr (sv_t s') = [])).
Proof.
  intros [B1 B2 B3 B4 B5] HW HL HR HT. destruct (Z_start P _ _ _ B1 HT HL HR B3 HW) as (HZ & _). unfold maintain.
  destruct (trigger_reduce (sv_calls s) (sv_nb s) (c_inc C) (sv_conf s)) as ([|], nb).
  2:{ cbn [safe]. split; [exact HZ|]. split; [exact HW|]. split; [exact B5|]. split; [constructor; auto; apply logext_same; auto|].
      intros _. split; [constructor; auto; apply K0_refl|exact HR]. }
  apply safe_bind with (R := fun s1 => Z P (sv_d s1) (sv_w s1) (sv_t s1) /\ VEok P (nv (sv_d s1)) (sv_e s1) /\ srel s s1 /\ (Q -> krel s s1 /\ tr (sv_t s1) = [])).
  - destruct ((0 <? c_inproc C)%N && (sv_last s + c_inproc C <=? sv_calls s)%N) eqn:Ei.
    + eapply safe_mono; [apply (process_spec fuel (with_red (sv_calls s) nb (sv_calls s) s)); [exact HZ|exact B5]|].
      intros s' (X1 & X2 & X3 & X4 & X5). split; auto. split; auto. split.
      * destruct X3 as [R1 R2 [R3 R4]]. constructor; auto. constructor; auto.
      * intros (_ & H0). rewrite H0 in Ei. discriminate.
    + destruct (reduce (c_persist C) (c_median C) (o_cands O (sv_clk s)) (sv_d s)) as (inc, d) eqn:Er. cbn [safe].
      assert (Ed : d = snd (reduce (c_persist C) (c_median C) (o_cands O (sv_clk s)) (sv_d s))) by (rewrite Er; auto).
      assert (HK : K0 (sv_d s) d) by (rewrite Ed; apply (K0_reduce _ _ _ (nv (sv_d s))); apply B1).
      assert (HC : CI P d /\ nv d = nv (sv_d s)).
      { rewrite Ed. cbn [reduce snd]. split; [apply CI_fold_remove; auto|apply fold_remove_nv]. }
      destruct HC as (HC & HN). cbn [core sv_d sv_w sv_t sv_e]. split; [|split; [rewrite HN; exact B5|split]].
      * assert (HP := z_P _ _ _ _ HZ). constructor; auto; [|cbn; congruence|intros l a Hl; cbn in Hl; rewrite HR in Hl; destruct Hl|intros _ l Hl; cbn in Hl; rewrite HR in Hl; destruct Hl].
        destruct HP as [P1 P2 P3 P4 P5 P6 P7]. assert (HA : forall c, alits (arena d) c = alits (arena (sv_d s)) c).
        { intros c. change (clits d c = clits (sv_d s) c). rewrite Ed. cbn [reduce snd]. apply fold_remove. }
        constructor; auto.
        -- intros i l c Hi. cbn in Hi. rewrite HR in Hi. destruct i; discriminate.
        -- intros c. rewrite HA. apply P3.
        -- exact (alits_ext_W1 _ _ _ HA P4).
        -- apply (di_BW _ _ (ci_D _ _ HC)).
      * constructor; auto. apply logext_same; auto.
      * intros _. split; [constructor; auto|exact HR].
  - intros s1 (X1 & X2 & X3 & X4). cbn [safe core sv_d sv_w sv_t sv_e].
    assert (HC : CI P (reorganize (sv_d s1))) by (apply CI_reorganize; apply X1).
    destruct (Z_rebuild P _ _ _ (reorganize (sv_d s1)) X1 HC) as (Y1 & Y2); auto.
    split; auto. split; [exact Y2|]. split; [exact X2|]. split; [destruct X3 as [R1 R2 [R3 R4]]; constructor; auto; constructor; auto|].
    intros HQ. destruct (X4 HQ) as ([K1 K2 K3] & K4). split; auto. constructor; auto.
    exact (K0_trans _ _ _ K3 (K0_reorganize _ _ (ci_D _ _ (z_C _ _ _ _ X1)))).
Qed.

Record ipost (s : solver) (r : option bool) (cs : list lit) (s' : solver) : Prop := {
  ip_B : BI s';
  ip_W : r = None -> BW' s';
  ip_R : srel s s';
  ip_K : Q -> krel s s';
  ip_false : r = Some false -> (forall l, In l cs -> In (lneg l) (assum (sv_t s))) /\ forall a, P a -> sat_clause a cs;
  ip_true : r = Some true -> incl (assum (sv_t s)) (tr (sv_t s')) /\ TI (sv_t s') /\
    (Q -> sat_end (nv (sv_d s)) (sv_t s) (sv_d s') (sv_t s')) }.

Lemma TI_TLreset t : TL t -> TI (trail_reset t).
Proof. intros (A & B). apply TI_reset; auto. Qed.

Lemma solve_iter_spec fuel s : BI s -> BW' s -> safe (solve_iter C O fuel s) (fun x => match x with (r, cs, s') => ipost s r cs s' end).
Proof.
  intros [B1 B2 B3 B4 B5] HW. unfold solve_iter. set (s0 := core (sv_d s) (sv_w s) (trail_reset (sv_t s)) s).
  eapply safe_bind.
  { apply (maintain_spec fuel s0); auto; [|apply TI_TLreset; auto]. constructor; auto. exact (TI_TL _ (TI_TLreset _ B2)). }
  intros s1 (Z1 & W1' & V1 & R1 & K1).
  destruct (pmu_spec P Q _ _ _ Z1) as (d & w & t & E & [A1 A2 A3 A4 A5 A6 A7 A8]). cbn beta. rewrite E. cbn [bind].
  assert (N1 := ms_nv _ _ _ A2). assert (RR : srel s (core d w t s1)).
  { destruct R1 as [X1 X2 [X3 X4]]. constructor; cbn [core sv_d sv_t]; [rewrite N1; exact X1|rewrite A6; exact X2|]. constructor; auto. }
  assert (KK : Q -> krel s (core d w t s1)).
  { intros HQ. destruct (K1 HQ) as ([X1 X2 X3] & _). constructor; cbn [core sv_d sv_t sv_e]; [rewrite A5; exact X1|exact X2|].
    exact (K0_trans _ _ _ X3 (K0_mstep _ _ _ _ (ci_D _ _ (z_C _ _ _ _ Z1)) A2)). }
  assert (EN : nv d = nv (sv_d s)) by (rewrite N1; apply (r_nv _ _ R1)).
  assert (EA : assum t = assum (sv_t s)) by (rewrite A6; apply (r_assum _ _ R1)).
  assert (HV : VEok P (nv d) (sv_e s1)) by (rewrite N1; exact V1).
  destruct (empt d) eqn:Em.
  - cbn [safe]. constructor; auto; try discriminate.
    + constructor; cbn [core sv_d sv_t sv_e]; auto; try apply A1.
      * exact (TI_TL _ (pi_TI _ _ _ (z_P _ _ _ _ A1))).
      * rewrite EN, EA. exact B4.
    + intros _. split; [intros l []|]. intros a Ha. destruct (ci_E _ _ (z_C _ _ _ _ A1) Em a Ha).
  - assert (Em1 : empt (sv_d s1) = false) by (destruct (empt (sv_d s1)) eqn:Ex; auto; discriminate (A3 eq_refl)).
    assert (HT1 := pi_TI _ _ _ (z_P _ _ _ _ Z1)).
    assert (S1 : SInvQ Q (sv_d s1) (sv_w s1) (sv_t s1)).
    { apply SInvQ_facts; auto; try apply Z1; auto.
      - rewrite (z_n _ _ _ _ Z1). apply Z1.
      - rewrite (z_n _ _ _ _ Z1). exact W1'.
      - intros HQ. apply (K1 HQ). }
    assert (S2 := A8 eq_refl S1). assert (HT := pi_TI _ _ _ (z_P _ _ _ _ A1)).
    assert (L0 : forall l, In l (tr t) -> level t (lvar l) = 0).
    { intros l Hl. apply In_nth_error in Hl. destruct Hl as (i & Hi). apply (dlevel0_level t i l HT); auto. unfold dlevel. rewrite (z_lim _ _ _ _ A1). reflexivity. }
    assert (V2 : V P Q d w t).
    { split; auto. constructor; auto; try apply A1.
      - intros i l Hi _. left. apply L0. exact (nth_error_In _ _ Hi).
      - intros l a Hl _ Ha. exact (z_T _ _ _ _ A1 l a Hl Ha).
      - constructor; [intros l Hl _ H; rewrite (L0 l Hl) in H; lia|]. unfold dlevel. rewrite (z_lim _ _ _ _ A1). cbn. lia.
      - intros c l Hc Hl. assert (H := A7 eq_refl c l Hc Hl). auto.
      - rewrite (z_n _ _ _ _ A1), EN, EA. exact B4. }
    eapply safe_mono; [exact (search_spec P Q C O fuel (core d w t s1) V2)|].
    intros [[r cs] s'] [X1 X2 X3 X4 X5 X6 X7 X8 X9 X10 X11 X12]. cbn [core sv_d sv_w sv_t sv_e] in *.
    constructor.
    + constructor; auto; [exact (TI_TL _ X2)|rewrite X6, X5, EN, EA; exact B4|rewrite X5, X8; exact HV].
    + intros _. exact X4.
    + apply (srel_trans _ _ _ RR). constructor; cbn [core sv_d sv_t]; auto.
    + intros HQ. apply (krel_trans _ _ _ (KK HQ)). constructor; auto. cbn [core sv_e]. congruence.
    + rewrite <- EA. exact X11.
    + intros Hr. destruct (X12 Hr) as (Y1 & Y2). split; [rewrite <- EA; exact Y1|]. split; auto. intros HQ. rewrite <- EN. destruct (Y2 HQ) as (Y3 & Y4). split; auto.
      intros v Hv Hdv. apply Y3; auto. unfold isDecisionVar. assert (Hd := k_dec _ _ (KK HQ)). cbn [core sv_t] in Hd. rewrite Hd. exact Hdv.
Qed.

Lemma ipost_step s s1 r cs s' : srel s s1 -> (Q -> krel s s1) -> ipost s1 r cs s' -> ipost s r cs s'.
Proof.
  intros HS HK [A1 A2 A3 A4 A5 A6]. constructor; auto.
  - exact (srel_trans _ _ _ HS A3).
  - intros HQ. exact (krel_trans _ _ _ (HK HQ) (A4 HQ)).
  - rewrite <- (r_assum _ _ HS). exact A5.
  - rewrite <- (r_assum _ _ HS), <- (r_nv _ _ HS). intros Hr. destruct (A6 Hr) as (B1 & B2 & B3). split; [auto|]. split; auto. intros HQ. destruct (B3 HQ) as (D1 & D2). split; auto.
    intros v Hv Hd. apply D1; auto. unfold isDecisionVar. rewrite (k_dec _ _ (HK HQ)). exact Hd.
Qed.
Lemma solve_loop_spec n fuel : forall s, BI s -> BW' s -> safe (solve_loop C O n fuel s) (fun x => match x with (r, cs, s') => ipost s r cs s' end).
Proof.
  induction n as [|n IH]; intros s HB HW; cbn [solve_loop]; [discriminate|].
  assert (RT : srel s (tick s)) by (constructor; auto; apply logext_same; auto).
  assert (KT : Q -> krel s (tick s)) by (intros _; constructor; auto; apply K0_refl).
  assert (BT : BI (tick s)) by (destruct HB; constructor; auto).
  destruct (o_term O (sv_clk s)).
  { cbn [safe]. constructor; auto; discriminate. }
  eapply safe_bind; [exact (solve_iter_spec fuel (tick s) BT HW)|].
  intros [[r cs] s1] HI. destruct r as [b|]; [cbn [safe]; exact (ipost_step _ _ _ _ _ RT KT HI)|].
  eapply safe_mono; [apply (IH s1); [apply HI|apply HI; auto]|].
  intros [[r cs2] s2] H2. apply (ipost_step s s1); auto.
  - exact (srel_trans _ _ _ RT (ip_R _ _ _ _ HI)).
  - intros HQ. exact (krel_trans _ _ _ (KT HQ) (ip_K _ _ _ _ HI HQ)).
Qed.

Lemma solve_start_spec fuel s : BI s -> safe (solve_start C O fuel s) (fun s' => BI s' /\ BW' s' /\ srel s s' /\
  (c_elim C = false -> ev (sv_e s) = [] -> c_pre C = false \/ nodel (sv_d s) -> krel s s')).
Proof.
  intros [B1 B2 B3 B4 B5]. unfold solve_start.
  set (t0 := trail_reset (sv_t s)). assert (HT0 : TI t0) by (apply TI_TLreset; auto).
  destruct (ve_reset_spec P (nv (sv_d s)) (sv_e s) t0 B5 B3 B4) as (cor & e1 & t1 & E & V1 & TS & Hcor & Hev). rewrite E. cbn [bind].
  assert (HT1 := tsame_TI _ _ TS HT0). destruct TS as [T1 T2 T3 T4 T5 T6 T7].
  eapply safe_bind; [exact (create_corr_spec P (nv (sv_d s)) cor _ _ B1 eq_refl (WS_reset _ _ (ci_D _ _ B1)) Hcor)|].
  intros (d1, w1) (C1 & N1 & W1' & K1 & D1). cbn beta iota.
  set (s1 := with_e e1 (core d1 w1 t1 s)).
  assert (HN1 : nvt t1 = nv d1) by (rewrite T1, N1; exact B3).
  assert (RR : srel s s1) by (constructor; auto; apply logext_same; auto).
  assert (HB1 : BI s1).
  { constructor; cbn [s1 with_e core sv_d sv_t sv_e]; auto; [exact (TI_TL _ HT1)|rewrite T7, N1; exact B4|rewrite N1; exact V1]. }
  assert (HW1 : BW' s1) by (unfold BW'; cbn [s1 with_e core sv_d sv_w]; rewrite N1; exact W1').
  assert (KK : ev (sv_e s) = [] -> krel s s1).
  { intros He. destruct (Hev He) as (X1 & X2 & X3). constructor; cbn [s1 with_e core sv_d sv_t sv_e]; auto; [rewrite X2; reflexivity|congruence]. }
  destruct (c_pre C).
  - assert (Z1 : Z P d1 w1 t1) by (apply Z_start; auto; rewrite N1; exact W1').
    eapply safe_bind; [apply (process_spec fuel s1); [exact Z1|apply HB1]|].
    intros s2 (X1 & X2 & X3 & X4 & X5). cbn [safe core sv_d sv_w sv_t sv_e].
    assert (R2 := srel_trans _ _ _ RR X3). split; [|split; [|split]].
    + constructor; cbn [core sv_d sv_w sv_t sv_e]; auto; try apply X1; auto.
      * exact (TI_TL _ (pi_TI _ _ _ (z_P _ _ _ _ X1))).
      * rewrite (r_nv _ _ R2), (r_assum _ _ R2). exact B4.
    + unfold BW'. cbn [core sv_d sv_w]. apply WS_reset. apply X1.
    + destruct R2 as [Y1 Y2 [Y3 Y4]]. constructor; auto. constructor; auto.
    + intros Hc He [H|HND]; [discriminate|]. destruct (Hev He) as (Y1 & Y2 & Y3).
      assert (HK := X4 Hc). cbn [s1 with_e core sv_d] in HK. rewrite (D1 Y1) in HK. apply (krel_trans _ s1); auto.
      destruct (HK HND). constructor; auto.
  - cbn [safe]. split; auto.
Qed.

(** ** The end of a solve *)
Lemma set_value_TL l t t' : set_value l t = Ok t' -> TL t -> TL t' /\ nvt t' = nvt t /\ assum t' = assum t /\ dec t' = dec t.
Proof.
  unfold set_value, TL. destruct (_ <? _); [|discriminate]. intros E (A & B). injection E as <-. cbn [asg vd nvt assum dec].
  rewrite set_nth_length. auto.
Qed.
Lemma set_values_TL ls : forall t t', set_values ls t = Ok t' -> TL t -> TL t' /\ nvt t' = nvt t /\ assum t' = assum t /\ dec t' = dec t.
Proof.
  induction ls as [|l ls IH]; intros t t' E H; cbn [set_values] in E; [injection E as <-; auto|].
  apply bind_ok in E. destruct E as (t1 & E1 & E2). destruct (set_value_TL _ _ _ E1 H) as (A1 & A2 & A3 & A4).
  destruct (IH _ _ E2 A1) as (B1 & B2 & B3 & B4). split; auto. split; [congruence|]. split; congruence.
Qed.
Lemma prop_elim_TL e vs : forall t t', prop_elim_list e vs t = Ok t' -> TL t -> TL t' /\ nvt t' = nvt t /\ assum t' = assum t /\ dec t' = dec t.
Proof.
  induction vs as [|v vs IH]; intros t t' E H; cbn [prop_elim_list] in E; [injection E as <-; auto|].
  apply bind_ok in E. destruct E as (t1 & E1 & E2).
  assert (H1 : TL t1 /\ nvt t1 = nvt t /\ assum t1 = assum t /\ dec t1 = dec t).
  { unfold prop_elim_var in E1. apply bind_ok in E1. destruct E1 as (t0 & E0 & E1). destruct (set_values_TL _ _ _ E0 H) as (A1 & A2 & A3 & A4).
    destruct (match find _ _ with Some c => _ | None => [] end).
    - destruct (nth v (ec e) []); [discriminate|]. destruct (set_values_TL _ _ _ E1 A1) as (B1 & B2 & B3 & B4). split; auto. split; [congruence|]. split; congruence.
    - injection E1 as <-. auto. }
  destruct H1 as (A1 & A2 & A3 & A4). destruct (IH _ _ E2 A1) as (B1 & B2 & B3 & B4). split; auto. split; [congruence|]. split; congruence.
Qed.
Lemma backtrack0_fields t : TL t -> TL (backtrack 0 t) /\ nvt (backtrack 0 t) = nvt t /\ assum (backtrack 0 t) = assum t /\ dec (backtrack 0 t) = dec t.
Proof.
  intros (A & B). unfold backtrack. destruct (0 <? dlevel t); [|unfold TL; auto]. unfold TL. cbn [asg vd nvt assum dec]. rewrite unassign_length. auto.
Qed.

(** what a solve returns *)
Record solved (s : solver) (x : sresult) (s' : solver) : Prop := {
  sd_B : BI s';
  sd_R : srel s s';
  sd_false : r_status x = Some false -> (forall l, In l (r_conflict x) -> In (lneg l) (assum (sv_t s))) /\ forall a, P a -> sat_clause a (r_conflict x);
  sd_Q : Q -> ev (sv_e s) = [] -> c_pre C = false \/ nodel (sv_d s) -> krel s s' /\
    (r_status x = Some true -> AD (sv_t s) -> exists t d, r_model x = set_model (tr t) /\ TI t /\ K0 (sv_d s) d /\ incl (assum (sv_t s)) (tr t) /\
      (forall v, v < nv (sv_d s) -> vvalue t v <> None) /\
      forall c, In c (cls d) -> cwt d c = 0%N -> exists l, In l (clits d c) /\ In l (tr t)) }.

Lemma solve_finish_spec s s1 r cs s2 x s' : srel s s1 -> (Q -> ev (sv_e s) = [] -> c_pre C = false \/ nodel (sv_d s) -> krel s s1) ->
  ipost s1 r cs s2 -> solve_finish r cs s2 = Ok (x, s') -> solved s x s'.
Proof.
  intros HR HK HI E. assert (HI' := ipost_step). destruct HI as [[B1 B2 B3 B4 B5] I2 I3 I4 I5 I6].
  assert (R2 := srel_trans _ _ _ HR I3).
  assert (HBack : forall t, TL t -> nvt t = nvt (sv_t s2) -> assum t = assum (sv_t s2) -> forall d, CI P d -> nv d = nv (sv_d s2) ->
    BI (core d (sv_w s2) (backtrack 0 t) s2) /\ srel s (core d (sv_w s2) (backtrack 0 t) s2)).
  { intros t T1 T2 T3 d D1 D2. destruct (backtrack0_fields t T1) as (X1 & X2 & X3 & X4). split.
    - constructor; cbn [core sv_d sv_t sv_e]; auto; try congruence; rewrite ?D2; auto. rewrite X3, T3. exact B4.
    - destruct R2 as [Y1 Y2 [Y3 Y4]]. constructor; cbn [core sv_d sv_t sv_e]; try congruence. constructor; auto. }
  destruct r as [[|]|]; cbn [solve_finish] in E.
  - apply bind_ok in E. destruct E as (t & E1 & E2). injection E2 as <- <-.
    destruct (prop_elim_TL _ _ _ _ E1 B2) as (T1 & T2 & T3 & T4). destruct (HBack t T1 T2 T3 (sv_d s2) B1 eq_refl) as (X1 & X2).
    constructor; auto; [discriminate|]. intros HQ He Hp. assert (K2 := krel_trans _ _ _ (HK HQ He Hp) (I4 HQ)).
    assert (Et : t = sv_t s2).
    { unfold propagate_eliminated in E1. rewrite (k_ev _ _ K2), He in E1. cbn in E1. congruence. }
    subst t. split.
    + destruct (backtrack0_fields (sv_t s2) B2) as (Y1 & Y2 & Y3 & Y4). destruct K2 as [K2a K2b K2c]. constructor; cbn [core sv_d sv_t sv_e]; auto. congruence.
    + intros _ HAD. destruct (I6 eq_refl) as (J1 & J2 & J3). exists (sv_t s2), (sv_d s2). split; auto. split; auto. split; [apply K2|].
      split; [rewrite <- (r_assum _ _ HR); exact J1|]. rewrite <- (r_nv _ _ HR).
      destruct (J3 HQ) as (D1 & D2).
      assert (Hall : forall v, v < nv (sv_d s1) -> vvalue (sv_t s2) v <> None).
      { intros v Hv. apply D1; auto. unfold isDecisionVar. rewrite (k_dec _ _ (HK HQ He Hp)). apply HAD. }
      split; auto. intros c Hc Hw. apply D2; auto. intros _ l Hl. apply Hall. rewrite <- (r_nv _ _ I3).
      apply (di_WFA _ _ (ci_D _ _ B1) c). exact Hl.
  - injection E as <- <-.
    assert (HC : let d := if length cs =? 0 then emptyClause (sv_d s2) else sv_d s2 in CI P d /\ nv d = nv (sv_d s2) /\ K0 (sv_d s2) d).
    { destruct (Nat.eqb_spec (length cs) 0) as [H0|H0]; cbn zeta; [|split; auto; split; auto; apply K0_refl]. split; [|split; auto].
      - apply CI_empty; auto. intros a Ha. destruct (proj2 (I5 eq_refl) a Ha) as (l & L1 & _). destruct cs; [destruct L1|discriminate].
      - apply (K0_mstep (nv (sv_d s2)) (sv_t s2)); [apply B1|apply empty_mstep]. }
    destruct HC as (C1 & C2 & C3). destruct (HBack (sv_t s2) B2 eq_refl eq_refl _ C1 C2) as (X1 & X2).
    constructor; auto.
    + intros _. cbn [r_conflict]. rewrite <- (r_assum _ _ HR). apply I5. auto.
    + intros HQ He Hp. split; [|discriminate]. assert (K2 := krel_trans _ _ _ (HK HQ He Hp) (I4 HQ)).
      destruct (backtrack0_fields (sv_t s2) B2) as (Y1 & Y2 & Y3 & Y4). destruct K2 as [K2a K2b K2c]. constructor; cbn [core sv_d sv_t sv_e]; auto; [congruence|].
      exact (K0_trans _ _ _ K2c C3).
  - injection E as <- <-. destruct (HBack (sv_t s2) B2 eq_refl eq_refl _ B1 eq_refl) as (X1 & X2). constructor; auto; [discriminate|].
    intros HQ He Hp. split; [|discriminate]. assert (K2 := krel_trans _ _ _ (HK HQ He Hp) (I4 HQ)).
    destruct (backtrack0_fields (sv_t s2) B2) as (Y1 & Y2 & Y3 & Y4). destruct K2 as [K2a K2b K2c]. constructor; cbn [core sv_d sv_t sv_e]; auto. congruence.
Qed.

Lemma solve_parts fuel s : BI s ->
  safe (s1 <- solve_start C O fuel s ;; if empt (sv_d s1) then Ok (Some false, [], s1) else solve_loop C O fuel fuel s1)
    (fun y => match y with (r, cs, s2) => exists s1, srel s s1 /\ (Q -> ev (sv_e s) = [] -> c_pre C = false \/ nodel (sv_d s) -> krel s s1) /\ ipost s1 r cs s2 end).
Proof.
  intros HB. eapply safe_bind; [exact (solve_start_spec fuel s HB)|]. intros s1 (X1 & X2 & X3 & X4).
  assert (X4' : Q -> ev (sv_e s) = [] -> c_pre C = false \/ nodel (sv_d s) -> krel s s1) by (intros (H1 & _); auto).
  destruct (empt (sv_d s1)) eqn:E.
  - cbn [safe]. exists s1. split; auto. split; auto. constructor; auto; try discriminate.
    + constructor; auto. apply logext_same; auto.
    + intros _. apply krel_refl.
    + intros _. split; [intros l []|]. intros a Ha. destruct (ci_E _ _ (b_C _ X1) E a Ha).
  - eapply safe_mono; [exact (solve_loop_spec fuel fuel s1 X1 X2)|]. intros [[r cs] s2] HI. exists s1. auto.
Qed.
Lemma solve_eq fuel s : solve C O fuel s =
  ('(r, cs, s2) <- (s1 <- solve_start C O fuel s ;; if empt (sv_d s1) then Ok (Some false, [], s1) else solve_loop C O fuel fuel s1) ;; solve_finish r cs s2).
Proof. unfold solve. destruct (solve_start C O fuel s) as [s1|e]; auto. Qed.
Lemma solve_spec fuel s x s' : BI s -> solve C O fuel s = Ok (x, s') -> solved s x s'.
Proof.
  intros HB E. rewrite solve_eq in E. assert (HS := solve_parts fuel s HB).
  destruct (s1 <- solve_start C O fuel s ;; _) as [[[r cs] s2]|er]; cbn [bind] in E; [|discriminate]. cbn [safe] in HS.
  destruct HS as (s1 & X1 & X2 & X3). exact (solve_finish_spec s s1 r cs s2 x s' X1 X2 X3 E).
Qed.
Lemma solve_safe fuel s : BI s -> Q -> ev (sv_e s) = [] -> c_pre C = false \/ nodel (sv_d s) -> solve C O fuel s <> Err UB.
Proof.
  intros HB HQ He Hp. rewrite solve_eq. assert (HS := solve_parts fuel s HB).
  destruct (s1 <- solve_start C O fuel s ;; _) as [[[r cs] s2]|er]; cbn [bind safe] in *; [|congruence].
  destruct HS as (s1 & X1 & X2 & X3). destruct r as [[|]|]; cbn [solve_finish]; try discriminate.
  assert (K2 := krel_trans _ _ _ (X2 HQ He Hp) (ip_K _ _ _ _ X3 HQ)).
  unfold propagate_eliminated. rewrite (k_ev _ _ K2), He. cbn. discriminate.
Qed.
End Run.
