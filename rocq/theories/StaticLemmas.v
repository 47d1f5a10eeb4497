(** Static propagation keeps its invariant on every history of [sreach]; consequences for C46. *)
Require Import List Arith Bool NArith Lia Permutation.
Require Import Verif.Base Verif.CNFModel Verif.CNFSpec Verif.CNFProofs Verif.HeapProofs Verif.Outcome Verif.TrailModel
  Verif.TrailProofs Verif.TrailLemmas Verif.DbModel Verif.PropModel Verif.PropProofs Verif.DbProofs Verif.PropSpec Verif.PropLemmas
  Verif.StaticModel Verif.StaticSpec Verif.StaticProofs.
Import ListNotations.

Definition svw (s : sprop) : watches := vw (smem s) (slists s).

Record SPI (d : db) (s : sprop) (t : trail_t) : Prop := {
  sp_TI : TI t;
  sp_TRe : TRe (arena d) t;
  sp_WFA : WFA (nvt t) (arena d);
  sp_1 : SW1 (arena d) (smem s) (slists s);
  sp_2 : SW2 (slists s);
  sp_BW : BW (arena d) (bw d);
  sp_len : forall l, lvar l < nvt t -> l < length (slists s) }.

Definition sprop_result (d : db) (s : sprop) (t : trail_t) (k : option cid) (s' : sprop) (t' : trail_t) : Prop :=
  SPI d s' t' /\ text (with_qh (qh t') t) t' /\ qh t <= qh t' /\
  length (slists s') = length (slists s) /\ (forall i, crf (smem s') i = crf (smem s) i) /\
  (forall c, swatched (smem s) (slists s) c -> swatched (smem s') (slists s') c) /\
  (forall i q, In i (sl (slists s') q) -> exists q', In i (sl (slists s) q')) /\
  (forall l c, In l (tr t') -> reason t' (lvar l) = Some c -> (In l (tr t) /\ reason t (lvar l) = Some c) \/ listed d (svw s) c) /\
  (forall c, k = Some c ->
     (forall m, In m (clits d c) -> value t' m = Some false) /\ listed d (svw s) c /\
     (LimQ t -> (exists m, In m (clits d c) /\ level t' (lvar m) = dlevel t') /\
       0 < qh t' /\ (forall x, In x (lim t') -> x <= pred (qh t')) /\
       (Done d (svw s) t (qh t) -> Done d (svw s') t' (pred (qh t'))))) /\
  (k = None -> qh t' = length (tr t') /\ (LimQ t -> Done d (svw s) t (qh t) -> Done d (svw s') t' (length (tr t')))).

Lemma sprop_loop_spec d fuel : forall s t, SPI d s t -> nvt t - qh t < fuel ->
  exists k s' t', sprop_loop fuel d s t = Ok (k, s', t') /\ sprop_result d s t k s' t'.
Proof.
  induction fuel as [|fuel IH]; intros s t HI Hf; [lia|]. cbn [sprop_loop].
  pose proof (sp_TI _ _ _ HI) as HT. pose proof (TI_length t HT) as Hlen.
  destruct (Nat.ltb_spec (qh t) (length (tr t))) as [Hq|Hq].
  2:{ exists None, s, t. split; [reflexivity|]. pose proof (ti_qh t HT).
      split; [exact HI|]. split; [destruct t; apply text_refl|]. split; [lia|]. split; [reflexivity|]. split; [reflexivity|].
      split; [auto|]. split; [eauto|]. split; [auto|]. split; [discriminate|]. intros _.
      assert (E : qh t = length (tr t)) by lia. split; [exact E|]. rewrite <- E. auto. }
  set (p := nth (qh t) (tr t) 0).
  assert (Hpn : nth_error (tr t) (qh t) = Some p) by (apply nth_error_nth'; auto).
  assert (Hp : In p (tr t)) by (eapply nth_error_In; eauto).
  set (t0 := with_qh (S (qh t)) t).
  assert (HT0 : TI t0) by (apply TI_with_qh; auto).
  assert (HR0 : TRe (arena d) t0) by exact (sp_TRe _ _ _ HI).
  assert (HA0 : WFA (nvt t0) (arena d)) by exact (sp_WFA _ _ _ HI).
  assert (Hp0 : In p (tr t0)) by exact Hp.
  assert (HB : BWl (arena d) p (wl (bw d) p)) by exact (sp_BW _ _ _ HI p).
  destruct (prop_binary_spec (arena d) p (wl (bw d) p) t0 HT0 HR0 HA0 Hp0 HB) as (k & t1 & E1 & T1 & R1 & X1 & C1 & N1).
  unfold wl in E1. rewrite E1. cbn [bind].
  assert (Hqh1 : qh t1 = S (qh t)) by exact (tx_qh _ _ X1).
  assert (Hpl : LimQ t -> forall t', TI t' -> text t0 t' -> level t' (lvar p) = dlevel t').
  { intros HLQ t' HT' HX'. rewrite (text_dlevel _ _ HX'). rewrite (proj1 (tx_vd _ _ HX' p Hp0)).
    change (level t (lvar p) = dlevel t). rewrite (ti_lev t HT (qh t) p Hpn). unfold dlevel. apply lev_at_all.
    apply HLQ. }
  destruct (prop_binary_ids _ _ _ _ E1) as [I1 I2].
  destruct k as [c|].
  { exists (Some c), s, t1. split; [reflexivity|]. destruct (C1 c eq_refl) as [Ca Cb].
    assert (HI1 : SPI d s t1).
    { constructor; auto; try exact (sp_1 _ _ _ HI); try exact (sp_2 _ _ _ HI); try exact (sp_BW _ _ _ HI).
      - rewrite (tx_nvt _ _ X1). exact (sp_WFA _ _ _ HI).
      - rewrite (tx_nvt _ _ X1). exact (sp_len _ _ _ HI). }
    split; [exact HI1|]. split; [rewrite Hqh1; exact X1|]. split; [lia|]. split; [reflexivity|]. split; [reflexivity|].
    split; [auto|]. split; [eauto|].
    split; [intros l0 c' Hl0 Hr; destruct (I2 l0 c' Hl0 Hr); [left; auto|right; exists p; right; auto]|]. split; [|discriminate].
    intros c' Hc'. inversion Hc'; subst c'. split; [exact Ca|]. split; [exists p; right; apply (I1 c eq_refl)|]. intros HLQ. split.
    { exists (lneg p). split; auto. rewrite lvar_neg. auto. }
    split; [lia|]. rewrite Hqh1. simpl. split.
    { rewrite (tx_lim _ _ X1). exact HLQ. }
    apply (Done_ext d (svw s) t0 d (svw s) t1); auto; [change (tr t0) with (tr t); lia|].
    intros i q Hi Hnq HS. apply (Sat4_mono _ _ t0 t1); auto. eapply nth_error_In; eauto. }
  assert (HA2 : WFA (nvt t1) (arena d)) by (rewrite (tx_nvt _ _ X1); exact (sp_WFA _ _ _ HI)).
  assert (Hp1 : In p (tr t1)) by (eapply text_in; eauto).
  assert (Hpw : p < length (slists s)) by (apply (sp_len _ _ _ HI); apply (ti_range t HT); auto).
  assert (Hw1 : forall l, lvar l < nvt t1 -> l < length (slists s)) by (rewrite (tx_nvt _ _ X1); exact (sp_len _ _ _ HI)).
  assert (EV : set_nth p ([] ++ sl (slists s) p) (slists s) = slists s) by (apply set_nth_self).
  destruct (sprop_watched_spec (arena d) p (sl (slists s) p) [] (smem s) (slists s) t1 T1 R1 HA2 Hp1 Hpw Hw1) as
    (k & ws' & m' & w' & t' & E & A1 & A2 & A3 & A4 & A5 & A6 & A7 & A8 & A9 & A10 & A11 & A12 & A13 & A14).
  { rewrite EV. exact (sp_1 _ _ _ HI). } { rewrite EV. exact (sp_2 _ _ _ HI). }
  rewrite EV in *. unfold sl in E. rewrite E. cbn [bind].
  assert (HLc : forall c, In c (map (crf (smem s)) (sl (slists s) p)) -> listed d (svw s) c).
  { intros c Hc. apply in_map_iff in Hc. destruct Hc as (i & <- & Hi). exists p. left. apply in_vw_fst. eauto. }
  assert (HR' : forall l c, In l (tr t') -> reason t' (lvar l) = Some c -> (In l (tr t) /\ reason t (lvar l) = Some c) \/ listed d (svw s) c).
  { intros l c' Hl Hr. destruct (A14 l c' Hl Hr) as [[Hl1 Hr1]|Hr1]; [|right; auto].
    destruct (I2 l c' Hl1 Hr1); [left; auto|right; exists p; right; auto]. }
  set (s2 := mkSP m' (set_nth p ws' w')) in *.
  assert (X2 : text t0 t') by (eapply text_trans; eauto).
  assert (Hqh2 : qh t' = S (qh t)) by (rewrite (tx_qh _ _ X2); reflexivity).
  assert (Hlw2 : length (slists s2) = length (slists s)) by (unfold s2; cbn [slists]; rewrite set_nth_length; auto).
  assert (HI2 : SPI d s2 t').
  { constructor; auto.
    - rewrite (tx_nvt _ _ X2). exact (sp_WFA _ _ _ HI).
    - exact (sp_BW _ _ _ HI).
    - rewrite (tx_nvt _ _ X2), Hlw2. exact (sp_len _ _ _ HI). }
  assert (HL2 : LimQ t -> LimQ t').
  { intros HLQ. apply (LimQ_mono t); [exact HLQ|exact (tx_lim _ _ X2)|lia]. }
  assert (HD0 : Done d (svw s) t (qh t) -> Done d (svw s2) t' (qh t)).
  { apply (Done_ext d (svw s) t0 d (svw s2) t'); auto; [change (tr t0) with (tr t); lia|].
    intros i q Hi Hnq HS. assert (Hqi : In q (tr t0)) by (eapply nth_error_In; eauto). apply A10.
    - intros ->. change (tr t0) with (tr t) in Hnq. pose proof (tr_nth_inj t _ _ _ _ HT Hnq Hpn eq_refl). lia.
    - eapply text_in; eauto.
    - apply (Sat4_mono _ _ t0 t1); auto. }
  destruct k as [c|].
  { exists (Some c), s2, t'. split; [reflexivity|]. destruct (A11 c eq_refl) as (Ca & Cb & Cc).
    split; [exact HI2|]. split; [rewrite Hqh2; exact X2|]. split; [lia|]. split; [exact Hlw2|]. split; [exact A6|].
    split; [exact A9|]. split; [exact A13|]. split; [exact HR'|]. split; [|discriminate].
    intros c' Hc'. inversion Hc'; subst c'. split; [exact Ca|]. split; [auto|].
    intros HLQ. split.
    { exists (lneg p). split; auto. rewrite lvar_neg. auto. }
    split; [lia|]. rewrite Hqh2. simpl. split; [|exact HD0].
    rewrite (tx_lim _ _ X2). exact HLQ. }
  assert (HD1 : LimQ t -> Done d (svw s) t (qh t) -> Done d (svw s2) t' (qh t')).
  { intros HLQ HD i q Hi Hnq. rewrite Hqh2 in Hi. destruct (Nat.eq_dec i (qh t)) as [->|Hn]; [|apply (HD0 HD i q); [lia|auto]].
    assert (Eq : q = p).
    { rewrite (text_nth t0 t' (qh t) q X2 Hq) in Hnq. change (tr t0) with (tr t) in Hnq. congruence. }
    subst q. split.
    - intros c b Hcb. apply in_vw in Hcb. destruct Hcb as (-> & i & Hi0 & <-). unfold s2 in Hi0. cbn [slists] in Hi0.
      rewrite sl_set_same in Hi0 by congruence. change (smem s2) with m'. rewrite A6.
      destruct (A12 eq_refl) with (i := i) as (m & Hm & Hv); auto; [intros ? []|].
      exists m. split; auto. split; auto. rewrite (Hpl HLQ t' A1 X2). apply level_le_dlevel; auto. apply (ti_val t' A1); auto.
    - intros c o Hco. assert (Hv : value t' o = Some true) by (apply (text_true t1 t'); auto; eapply N1; eauto).
      split; auto. rewrite (Hpl HLQ t' A1 X2). apply level_le_dlevel; auto. apply (ti_val t' A1); auto. }
  destruct (IH s2 t' HI2) as (k & s3 & t3 & E3 & B1 & B2 & B2' & B3 & B4 & B6 & B7 & BR & B8 & B9).
  { rewrite Hqh2, (tx_nvt _ _ X2). change (nvt t0) with (nvt t). lia. }
  exists k, s3, t3. split; [exact E3|]. split; [exact B1|].
  split; [eapply text_trans; [|exact B2]; apply (text_qh (qh t3)) in X2; exact X2|]. split; [lia|].
  split; [congruence|]. split; [intros i; rewrite B4; apply A6|].
  split; [auto|]. split.
  { intros i q Hc. destruct (B7 i q Hc) as (q' & Hq'). apply (A13 i q' Hq'). }
  assert (HLi : forall c, listed d (svw s2) c -> listed d (svw s) c).
  { intros c (q & [Hc|Hc]); [|exists q; auto]. apply in_vw_fst in Hc. destruct Hc as (i & Hi & Ei).
    destruct (A13 i q Hi) as (q' & Hc'). exists q'. left. apply in_vw_fst. exists i. split; auto. rewrite <- Ei. symmetry. apply A6. }
  split; [intros l0 c Hl0 Hr; destruct (BR l0 c Hl0 Hr) as [[Hl1 Hr1]|Hr1]; [apply HR'; auto|right; auto]|].
  split.
  - intros c Hk. destruct (B8 c Hk) as (C2 & C3 & C4). split; [exact C2|]. split; [auto|]. intros HLQ.
    destruct (C4 (HL2 HLQ)) as (C5 & C6 & C7 & C8). split; [exact C5|]. split; [exact C6|]. split; [exact C7|].
    intros HD. apply C8. apply HD1; auto.
  - intros Hk. destruct (B9 Hk) as (C2 & C3). split; [exact C2|]. intros HLQ HD. apply C3; auto.
Qed.

Lemma spropagate_spec d s t : SPI d s t ->
  exists k s' t', spropagate d s t = Ok (k, s', t') /\ sprop_result d s t k s' t'.
Proof. intros H. apply sprop_loop_spec; auto. lia. Qed.

(** ** The state of a history *)
(** the part that does not speak about watchers, shared with PropLemmas *)
Definition TB (d : db) (t : trail_t) : Prop := SBase d (prop_reset d) t.
Lemma SBase_TB d w t : SBase d w t -> TB d t.
Proof.
  intros [HP HD HW HC HR]. destruct (prop_reset_spec _ d HD) as (A1 & A2 & A3 & A4 & A5).
  constructor; auto. constructor; auto; apply HP.
Qed.
Lemma TB_intro d t : TI t -> TRe (arena d) t -> DI (nvt t) d -> RD d t -> TB d t.
Proof.
  intros HT HRe HD HR. destruct (prop_reset_spec _ d HD) as (A1 & A2 & A3 & A4 & A5).
  constructor; auto. constructor; auto; apply HD.
Qed.
Lemma TB_TI d t : TB d t -> TI t. Proof. intros H. apply H. Qed.
Lemma TB_TRe d t : TB d t -> TRe (arena d) t. Proof. intros H. apply H. Qed.
Lemma TB_DI d t : TB d t -> DI (nvt t) d. Proof. intros H. apply H. Qed.

Record SWt (n : nat) (d : db) (s : sprop) : Prop := {
  st_1 : SW1 (arena d) (smem s) (slists s);
  st_2 : SW2 (slists s);
  st_U : SU (smem s) (slists s);
  st_I : forall i q, In i (sl (slists s) q) -> In (crf (smem s) i) (cls d);
  st_C : forall c, In c (cls d) -> 3 <= length (clits d c) -> swatched (smem s) (slists s) c;
  st_len : forall l, lvar l < n -> l < length (slists s) }.
Record SSI (d : db) (s : sprop) (t : trail_t) : Prop := {
  ss_B : TB d t;
  ss_W : SWt (nvt t) d s;
  ss_L : LimQ t;
  ss_D : Done d (svw s) t (qh t) }.
Record SSC (d : db) (s : sprop) (t : trail_t) (c : cid) : Prop := {
  sd_B : TB d t;
  sd_W : SWt (nvt t) d s;
  sd_false : forall m, In m (clits d c) -> value t m = Some false;
  sd_use : usable d c;
  sd_lev : exists m, In m (clits d c) /\ level t (lvar m) = dlevel t;
  sd_L : forall x, In x (lim t) -> x <= pred (qh t);
  sd_D : Done d (svw s) t (pred (qh t)) }.
Definition SSS d s t (k : option cid) : Prop := match k with None => SSI d s t | Some c => SSC d s t c end.
Lemma SSS_B d s t k : SSS d s t k -> TB d t.
Proof. destruct k; simpl; intros []; auto. Qed.
Lemma SSS_W d s t k : SSS d s t k -> SWt (nvt t) d s.
Proof. destruct k; simpl; intros []; auto. Qed.

Lemma SInv_TB d s t : SSI d s t -> SInvQ False d (prop_reset d) t.
Proof. intros [HB HW HL HD]. constructor; auto. intros []. Qed.

Lemma SSI_SPI d s t : SSI d s t -> SPI d s t.
Proof. intros [HB [W1' W2' _ _ _ WL] _ _]. constructor; auto; try apply HB. Qed.

Lemma listed_usable_s n d s c : DI n d -> SWt n d s -> listed d (svw s) c -> usable d c.
Proof.
  intros HD HW (q & [Hc|Hc]).
  - apply in_vw_fst in Hc. destruct Hc as (i & Hi & <-). split; [eapply st_I; eauto|]. left.
    apply (st_1 _ _ _ HW q i Hi).
  - apply in_map_iff in Hc. destruct Hc as ([c' o] & E & Hin). simpl in E. subst c'.
    destruct (di_bw0 n d HD q c o Hin) as (B1 & B2 & B3). split; auto.
Qed.

Lemma SSI_propagate d s t : SSI d s t ->
  exists k s' t', spropagate d s t = Ok (k, s', t') /\ sprop_result d s t k s' t' /\ SSS d s' t' k.
Proof.
  intros HS. destruct (spropagate_spec d s t (SSI_SPI _ _ _ HS)) as (k & s' & t' & E & HR).
  exists k, s', t'. split; auto. split; auto. destruct HS as [HB HW HL HDn].
  destruct HR as (A1 & A2 & A3 & A4 & A5 & A6 & A7 & A8 & A9 & A10).
  assert (En : nvt t' = nvt t) by (apply (tx_nvt _ _ A2)).
  pose proof (TB_DI _ _ HB) as HD.
  assert (HB' : TB d t').
  { apply TB_intro; try apply A1; [rewrite En; auto|]. intros l c Hl Hr. destruct (A8 l c Hl Hr) as [[H1 H2]|H].
    - eapply (sb_RD _ _ _ HB); eauto.
    - eapply listed_usable_s; eauto. }
  assert (HW' : SWt (nvt t') d s').
  { constructor; try apply A1.
    - intros q q' i j Hi Hj. rewrite !A5. destruct (A7 i q Hi) as (q1 & H1). destruct (A7 j q' Hj) as (q2 & H2). eapply (st_U _ _ _ HW); eauto.
    - intros i q Hi. rewrite A5. destruct (A7 i q Hi) as (q1 & H1). eapply (st_I _ _ _ HW); eauto.
    - intros c Hc Hl. apply A6. apply (st_C _ _ _ HW); auto. }
  destruct k as [c|]; simpl.
  - destruct (A9 c eq_refl) as (B1 & B2 & B3). destruct (B3 HL) as (B4 & B5 & B6 & B7). constructor; auto.
    eapply listed_usable_s; eauto.
  - destruct (A10 eq_refl) as (B1 & B2). constructor; auto.
    + intros x Hx. rewrite (tx_lim _ _ A2) in Hx. specialize (HL x Hx). lia.
    + rewrite B1. auto.
Qed.

(** ** Attaching clauses *)
Definition satt_ok (a : list cobj) (m : list watcher) (w : list (list nat)) : Prop := SW1 a m w /\ SW2 w /\ SU m w.

Lemma crf_app_old m g i : i < length m -> crf (m ++ [g]) i = crf m i.
Proof. intros H. unfold crf, wat. rewrite app_nth1; auto. Qed.
Lemma wat_app_old m g i : i < length m -> wat (m ++ [g]) i = wat m i.
Proof. intros H. unfold wat. rewrite app_nth1; auto. Qed.
Lemma wat_app_new m g : wat (m ++ [g]) (length m) = g.
Proof. unfold wat. apply nth_middle. Qed.

Section Attach.
Variables (d : db) (c : cid) (s : sprop) (x y : lit) (r : list lit).
Hypothesis HE : clits d c = x :: y :: r.
Hypothesis Hxy : x <> y.
Let i := length (smem s).
Let s' := sattach d c s.

Lemma sa_eq : s' = mkSP (smem s ++ [mkW c x y]) (push_at (lneg y) i (push_at (lneg x) i (slists s))).
Proof. unfold s', sattach. rewrite HE. reflexivity. Qed.
Lemma sa_in q j : In j (sl (slists s') q) -> In j (sl (slists s) q) \/ (j = i /\ (q = lneg x \/ q = lneg y)).
Proof.
  rewrite sa_eq. cbn [slists]. intros H. apply sl_push_in in H. destruct H as [H|[H1 H2]]; [|auto].
  apply sl_push_in in H. destruct H as [H|[H1 H2]]; auto.
Qed.
Lemma sa_old q j : In j (sl (slists s) q) -> In j (sl (slists s') q).
Proof. intros H. rewrite sa_eq. cbn [slists]. apply sl_push_old, sl_push_old, H. Qed.
Lemma sa_len : length (slists s') = length (slists s).
Proof. rewrite sa_eq. cbn [slists]. rewrite !push_at_length. auto. Qed.
Lemma sa_mlen : length (smem s') = S (length (smem s)).
Proof. rewrite sa_eq. cbn [smem]. rewrite app_length. simpl. lia. Qed.
Lemma sa_wat_old j : j < length (smem s) -> wat (smem s') j = wat (smem s) j.
Proof. rewrite sa_eq. cbn [smem]. apply wat_app_old. Qed.
Lemma sa_wat_new : wat (smem s') i = mkW c x y.
Proof. rewrite sa_eq. cbn [smem]. apply wat_app_new. Qed.

Hypothesis H1 : SW1 (arena d) (smem s) (slists s).
Hypothesis H2 : SW2 (slists s).
Hypothesis H3 : SU (smem s) (slists s).
Hypothesis Hl : 3 <= length (clits d c).
Hypothesis Hfresh : forall j q, In j (sl (slists s) q) -> crf (smem s) j <> c.

Lemma sa_lt j q : In j (sl (slists s) q) -> j < length (smem s).
Proof. intros H. apply (H1 q j H). Qed.
Lemma sa_crf j q : In j (sl (slists s) q) -> crf (smem s') j = crf (smem s) j.
Proof. intros H. unfold crf. rewrite sa_wat_old; auto. eapply sa_lt; eauto. Qed.
Lemma sa_SW1 : SW1 (arena d) (smem s') (slists s').
Proof.
  intros q j Hj. rewrite sa_mlen. destruct (sa_in q j Hj) as [Hj'|[-> Hq]].
  - rewrite (sa_crf j q Hj'), sa_wat_old by (eapply sa_lt; eauto). destruct (H1 q j Hj') as (A & B). split; [lia|exact B].
  - unfold crf. rewrite sa_wat_new. cbn [watch0 watch1 cref]. change (alits (arena d) c) with (clits d c).
    split; [unfold i; lia|]. split; [exact Hxy|]. split; [rewrite HE; simpl; auto|]. split; [rewrite HE; simpl; auto|].
    split; [exact Hl|]. destruct Hq as [->| ->]; rewrite lneg_invol; auto.
Qed.
Lemma sa_SW2 : SW2 (slists s').
Proof.
  assert (HP : forall (w : list (list nat)) p j, SW2 w -> ~ In j (sl w p) -> SW2 (push_at p j w)).
  { intros w p j Hw Hn q. destruct (Nat.eq_dec q p) as [->|Hq]; [|rewrite sl_push_other by auto; apply Hw].
    destruct (Nat.lt_ge_cases p (length w)) as [Hlt|Hge].
    - rewrite sl_push_same by auto. apply (Permutation_NoDup (l := j :: sl w p)); [apply Permutation_cons_append|]. constructor; auto.
    - unfold sl, push_at. rewrite nth_overflow by (rewrite set_nth_length; auto). constructor. }
  assert (Hi : forall q, ~ In i (sl (slists s) q)) by (intros q Hq; apply sa_lt in Hq; unfold i in Hq; lia).
  rewrite sa_eq. cbn [slists]. apply HP; [apply HP; auto|]. intros H. apply sl_push_in in H. destruct H as [H|[H _]]; [eapply Hi; eauto|].
  apply lneg_inj in H. congruence.
Qed.
Lemma sa_SU : SU (smem s') (slists s').
Proof.
  intros q q' j j' Hj Hj' E. destruct (sa_in q j Hj) as [A|[-> A]], (sa_in q' j' Hj') as [B|[-> B]]; auto.
  - rewrite (sa_crf j q A), (sa_crf j' q' B) in E. eapply H3; eauto.
  - rewrite (sa_crf j q A) in E. unfold crf at 2 in E. rewrite sa_wat_new in E. cbn [cref] in E. exfalso. eapply Hfresh; eauto.
  - rewrite (sa_crf j' q' B) in E. unfold crf at 1 in E. rewrite sa_wat_new in E. cbn [cref] in E. exfalso. eapply Hfresh; eauto.
Qed.
Lemma sa_watched_old c' : swatched (smem s) (slists s) c' -> swatched (smem s') (slists s') c'.
Proof.
  intros (j & A & B & C & D). exists j. rewrite sa_mlen. unfold crf. rewrite sa_wat_old by auto.
  split; [lia|]. split; [exact B|]. split; apply sa_old; auto.
Qed.
Lemma sa_watched_new : lneg x < length (slists s) -> lneg y < length (slists s) -> swatched (smem s') (slists s') c.
Proof.
  intros Hx Hy. exists i. rewrite sa_mlen. unfold crf. rewrite sa_wat_new. cbn [watch0 watch1 cref].
  split; [unfold i; lia|]. split; [reflexivity|]. rewrite sa_eq. cbn [slists]. split.
  - apply sl_push_old. rewrite sl_push_same by auto. apply in_or_app; simpl; auto.
  - rewrite sl_push_same by (rewrite push_at_length; auto). apply in_or_app; simpl; auto.
Qed.
End Attach.

Definition satt_step (d : db) := fun s c => if 2 <? length (clits d c) then sattach d c s else s.
Lemma satt_fold d n cs : WFA n (arena d) -> NoDup cs -> forall s,
  (forall l, lvar l < n -> l < length (slists s)) ->
  SW1 (arena d) (smem s) (slists s) -> SW2 (slists s) -> SU (smem s) (slists s) ->
  (forall c j q, In c cs -> In j (sl (slists s) q) -> crf (smem s) j <> c) ->
  let s' := fold_left (satt_step d) cs s in
  SW1 (arena d) (smem s') (slists s') /\ SW2 (slists s') /\ SU (smem s') (slists s') /\ length (slists s') = length (slists s) /\
  (forall j q, In j (sl (slists s') q) -> (exists q', In j (sl (slists s) q') /\ crf (smem s') j = crf (smem s) j) \/ In (crf (smem s') j) cs) /\
  (forall c, In c cs -> 3 <= length (clits d c) -> swatched (smem s') (slists s') c) /\
  (forall c, swatched (smem s) (slists s) c -> swatched (smem s') (slists s') c).
Proof.
  intros HA. induction cs as [|c r IH]; intros Hnd s Hlen H1 H2 H3 Hf; cbn [fold_left].
  - split; [exact H1|]. split; [exact H2|]. split; [exact H3|]. split; [reflexivity|]. split; [eauto|]. split; [intros ? []|auto].
  - inversion Hnd as [|? ? Hnc Hnr]; subst.
    assert (Hstep : let s1 := satt_step d s c in SW1 (arena d) (smem s1) (slists s1) /\ SW2 (slists s1) /\ SU (smem s1) (slists s1) /\
      length (slists s1) = length (slists s) /\
      (forall j q, In j (sl (slists s1) q) -> (In j (sl (slists s) q) /\ crf (smem s1) j = crf (smem s) j) \/ crf (smem s1) j = c) /\
      (3 <= length (clits d c) -> swatched (smem s1) (slists s1) c) /\
      (forall c, swatched (smem s) (slists s) c -> swatched (smem s1) (slists s1) c)).
    { unfold satt_step. destruct (Nat.ltb_spec 2 (length (clits d c))) as [Hl|Hl]; cbn zeta.
      - destruct (clits d c) as [|x [|y rr]] eqn:E; simpl in Hl; try lia.
        assert (Hxy : x <> y).
        { intros ->. pose proof (proj1 (HA c)) as N. change (alits (arena d) c) with (clits d c) in N. rewrite E in N. simpl in N.
          inversion N as [|? ? Hi _]. apply Hi. simpl; auto. }
        assert (Hl3 : 3 <= length (clits d c)) by (rewrite E; simpl; lia).
        assert (Hff : forall j q, In j (sl (slists s) q) -> crf (smem s) j <> c) by (intros j q; apply Hf; simpl; auto).
        assert (Hlv : forall l, In l (clits d c) -> lneg l < length (slists s)).
        { intros l Hl'. apply Hlen. rewrite lvar_neg. apply (HA c). exact Hl'. }
        split; [apply (sa_SW1 d c s x y rr E Hxy H1 Hl3)|]. split; [apply (sa_SW2 d c s x y rr E Hxy H1 H2); auto|].
        split; [apply (sa_SU d c s x y rr E H1 H3); auto|]. split; [apply (sa_len d c s x y rr E)|].
        split.
        { intros j q Hj. destruct (sa_in d c s x y rr E q j Hj) as [Hj'|[-> _]].
          - left. split; auto. apply (sa_crf d c s x y rr E H1 j q Hj').
          - right. unfold crf. rewrite (sa_wat_new d c s x y rr E). reflexivity. }
        split; [intros _; eapply sa_watched_new; eauto; apply Hlv; rewrite E; simpl; auto|].
        intros c'. eapply sa_watched_old; eauto.
      - split; [exact H1|]. split; [exact H2|]. split; [exact H3|]. split; [reflexivity|]. split; [auto|]. split; [intros; lia|auto]. }
    set (s1 := satt_step d s c) in *. destruct Hstep as (S1 & S2 & S3 & S4 & S5 & S6 & S7).
    destruct (IH Hnr s1) as (A1 & A2 & A3 & A4 & A5 & A6 & A7); auto.
    + rewrite S4. auto.
    + intros c' j q Hc' Hin. destruct (S5 j q Hin) as [[Hin' E]|E]; rewrite E; [apply (Hf c' j q); simpl; auto|]. congruence.
    + split; [exact A1|]. split; [exact A2|]. split; [exact A3|]. split; [congruence|]. split; [|split].
      * intros j q Hin. destruct (A5 j q Hin) as [(q' & Hin' & E)|Hc]; [|simpl; auto].
        destruct (S5 j q' Hin') as [[Hin'' E']|E']; [left; exists q'; split; auto; congruence|].
        right. simpl. left. congruence.
      * intros c' [<-|Hc'] Hl; auto.
      * auto.
Qed.

Lemma sprop_reset_spec n d : DI n d -> SWt n d (sprop_reset d).
Proof.
  intros H. unfold sprop_reset, sprop_init, sprop_clear. cbn [smem slists].
  assert (Er : resize (2 * nv d + 1) [] [] = repeat (@nil nat) (2 * nv d + 1)).
  { unfold resize. simpl length. rewrite Nat.sub_0_r. destruct (2 * nv d + 1); reflexivity. }
  rewrite Er. rewrite (di_nv n d H). set (s0 := mkSP [] (repeat (@nil nat) (2 * n + 1))).
  assert (E0 : forall q, sl (slists s0) q = []).
  { intros q. unfold sl, s0. cbn [slists]. destruct (Nat.lt_ge_cases q (2 * n + 1)) as [Hl|Hl].
    - apply nth_repeat.
    - apply nth_overflow. rewrite repeat_length. auto. }
  assert (L0 : forall l, lvar l < n -> l < length (slists s0)).
  { intros l Hl. unfold s0. cbn [slists]. rewrite repeat_length. pose proof (lit_lt_double l n Hl). lia. }
  destruct (satt_fold d n (cls d) (di_WFA n d H) (di_clsnd n d H) s0) as (A1 & A2 & A3 & A4 & A5 & A6 & A7); auto.
  - intros q i Hi. rewrite E0 in Hi. destruct Hi.
  - intros q. rewrite E0. constructor.
  - intros q q' i j Hi. rewrite E0 in Hi. destruct Hi.
  - intros c j q _ Hi. rewrite E0 in Hi. destruct Hi.
  - fold (satt_step d). constructor; auto.
    + intros i q Hi. destruct (A5 i q Hi) as [(q' & Hq' & _)|]; auto. rewrite E0 in Hq'. destruct Hq'.
    + rewrite A4. auto.
Qed.

(** ** The steps of a history *)
Lemma SSI_start d t : DI (nvt t) d -> TI t -> tr t = [] -> lim t = [] -> (forall v, reason t v = None) ->
  SSI d (sprop_reset d) t.
Proof.
  intros HD HT E1 E2 ER. constructor.
  - apply TB_intro; auto.
    + intros i l c Hi. rewrite E1 in Hi. destruct i; discriminate.
    + intros v c _ Hr. rewrite ER in Hr. discriminate.
  - apply sprop_reset_spec; auto.
  - intros k Hk. rewrite E2 in Hk. destruct Hk.
  - intros i q _ Hq. rewrite E1 in Hq. destruct i; discriminate.
Qed.
Lemma SSI_reset d t : DI (nvt t) d -> TI t -> SSI d (sprop_reset d) (trail_reset t).
Proof. intros HD HT. apply SSI_start; auto; [apply TI_reset; apply HT|apply reason_reset]. Qed.

Lemma SSI_push_none d s t l : SSI d s t -> value t l = None -> lvar l < nvt t -> SSI d s (tpush l None t).
Proof.
  intros H Hv Hl. pose proof (SInv_push_none _ _ _ _ (SInv_TB _ _ _ H) Hv Hl) as HS. destruct H as [HB HW HL HDn].
  constructor; auto; [apply HS|]. apply Done_push; auto; [apply HB|apply (ti_qh t (TB_TI _ _ HB))].
Qed.

Lemma SSI_fact d s t l b t' : SSI d s t -> dlevel t = 0 -> lvar l < nvt t -> fact l t = Ok (b, t') -> SSI d s t'.
Proof.
  intros H Hd Hl E. pose proof (TB_TI _ _ (ss_B _ _ _ H)) as HT.
  pose proof (SInv_fact _ _ _ _ _ _ (SInv_TB _ _ _ H) Hd Hl E) as HS. destruct (value t l) as [[|]|] eqn:V.
  - rewrite fact_true in E by auto. inversion E; subst. destruct H as [HB HW HL HDn].
    constructor; auto; [apply HS|].
    assert (Hlv : forall m, In m (tr t) -> level (set_vd (lvar l) (None, 0) t) (lvar m) = level t (lvar m)).
    { intros m Hm. unfold level. cbn [set_vd vd]. rewrite nth_set_nth.
      destruct ((lvar m =? lvar l) && (lvar l <? length (vd t))); auto. simpl.
      apply In_nth_error in Hm. destruct Hm as (i & Hi). symmetry. apply (dlevel0_level t i m); auto. }
    intros i q Hi Hq. destruct (HDn i q Hi Hq) as [D1 D2]. pose proof (nth_error_In _ _ Hq) as Hin.
    change (tr (set_vd (lvar l) (None, 0) t)) with (tr t) in Hin. split.
    + intros c b Hc. destruct (D1 c b Hc) as (m & M1 & M2 & M3). exists m. split; auto. split; [exact M2|].
      rewrite !Hlv; auto. apply (ti_val t HT); auto.
    + intros c o Hc. destruct (D2 c o Hc) as (M2 & M3). split; [exact M2|]. rewrite !Hlv; auto. apply (ti_val t HT); auto.
  - rewrite fact_false in E by auto. inversion E; subst; auto.
  - rewrite fact_push in E by auto. inversion E; subst. apply SSI_push_none; auto.
Qed.

Lemma SSI_level d s t : SSI d s t -> qh t = length (tr t) -> SSI d s (newDecisionLevel t).
Proof.
  intros H Hq. pose proof (SInv_level _ _ _ (SInv_TB _ _ _ H) Hq) as HS. destruct H as [HB HW HL HDn].
  constructor; auto; apply HS.
Qed.

Lemma SWt_ext n d d' s : (forall c, alits (arena d') c = alits (arena d) c) -> cls d' = cls d -> SWt n d s -> SWt n d' s.
Proof.
  intros E Ec [H1 H2 H3 H4 H5 H6]. constructor; auto.
  - intros q i Hi. rewrite E. apply (H1 q i Hi).
  - intros i q Hi. rewrite Ec. eauto.
  - intros c Hc Hl. rewrite Ec in Hc. rewrite clits_alits, E in Hl. apply H5; auto.
Qed.

Lemma SSS_reestimate d s t k cs : SSS d s t k ->
  (forall c, In c cs -> k = Some c \/ exists l, In l (tr t) /\ reason t (lvar l) = Some c) -> SSS (reestimate t cs d) s t k.
Proof.
  intros H Hcs. pose proof (SSS_B _ _ _ _ H) as HB. pose proof (SSS_W _ _ _ _ H) as HW.
  destruct (reestimate_fields t cs d) as (A1 & A2 & A3 & A4 & A5 & A6 & A7 & A8 & A9 & A10).
  assert (HB' : TB (reestimate t cs d) t).
  { apply SBase_TB with (w := prop_reset d). apply SBase_reestimate; [exact HB|]. intros c Hc. destruct (Hcs c Hc) as [E|(v & Hin & Hv)].
    - subst k. apply H.
    - eapply (sb_RD _ _ _ HB); eauto. }
  assert (HW' : SWt (nvt t) (reestimate t cs d) s) by (apply (SWt_ext _ d); auto).
  destruct k as [c|]; simpl in *.
  - destruct H as [B W F U L LL D]. constructor; auto.
    + intros m Hm. apply F. rewrite clits_alits, A9 in Hm. auto.
    + apply (usable_eq d); auto. rewrite !clits_alits, A9; auto.
    + destruct L as (m & M1 & M2). exists m. rewrite clits_alits, A9. auto.
    + eapply alits_ext_Done; eauto.
  - destruct H as [B W L D]. constructor; auto. eapply alits_ext_Done; eauto.
Qed.

Lemma SSS_backtrack d s t k n : SSS d s t k -> n < dlevel t -> SSI d s (backtrack n t).
Proof.
  intros H Hn. pose proof (SSS_B _ _ _ _ H) as HB. pose proof (SSS_W _ _ _ _ H) as HW. pose proof (TB_TI _ _ HB) as HT.
  assert (HDn : exists q, (forall x, In x (lim t) -> x <= q) /\ Done d (svw s) t q).
  { destruct k as [c|]; simpl in H; [exists (pred (qh t))|exists (qh t)]; destruct H; auto. }
  destruct HDn as (q & HL & HD). destruct (backtrack_fields n t Hn) as (E1 & E2 & E3 & E4 & E5 & E6 & E7).
  assert (Hq : nth n (lim t) 0 <= q) by (apply HL, nth_In; auto).
  constructor.
  - apply SBase_backtrack; auto.
  - rewrite E3. auto.
  - intros x Hx. rewrite E2 in Hx. rewrite E7. apply in_firstn_iff in Hx. destruct Hx as (j & Hj & Ej).
    destruct (Nat.eqb_spec n 0); [lia|]. rewrite <- (nth_error_nth (lim t) j 0 Ej). apply (ti_sorted t HT); [lia|exact Hn].
  - pose proof (Done_backtrack d (svw s) t n q HT Hn Hq HD) as HB'. rewrite E7. destruct (n =? 0); auto.
    intros i p Hi. lia.
Qed.

Lemma SWt_old n d d' s ls lbd lem c : DI n d -> createClause ls lbd lem d = Ok (c, d') -> SWt n d s ->
  SW1 (arena d') (smem s) (slists s) /\ (forall j q, In j (sl (slists s) q) -> crf (smem s) j <> c) /\
  (forall i q, In i (sl (slists s) q) -> In (crf (smem s) i) (cls d')) /\
  (forall c', In c' (cls d') -> c' <> c -> 3 <= length (clits d' c') -> swatched (smem s) (slists s) c').
Proof.
  intros HD Hcr HW. pose proof (createClause_wt _ _ _ _ _ _ Hcr) as Hwt.
  destruct (createClause_created _ _ _ _ _ _ Hcr) as (C1 & C2 & C3 & _ & C5).
  assert (Hold : forall i, i < length (arena d) -> alits (arena d') i = alits (arena d) i) by (intros i Hi; rewrite Hwt; apply alits_app; auto).
  assert (Hlt : forall q, In q (cls d) -> q < length (arena d)) by (intros q Hq; apply (di_rng _ _ HD), (di_cls _ _ HD); auto).
  split.
  { intros q i Hi. rewrite Hold by (apply Hlt; eapply st_I; eauto). apply (st_1 _ _ _ HW q i Hi). }
  split.
  { intros j q Hj E. pose proof (Hlt _ (st_I _ _ _ HW j q Hj)). rewrite E, C1 in H. lia. }
  split.
  { intros i q Hi. rewrite C3. apply in_or_app. left. eapply st_I; eauto. }
  intros c' Hc' Hne Hl. rewrite C3 in Hc'. apply in_app_or in Hc'. destruct Hc' as [Hc'|[<-|[]]]; [|contradiction].
  apply (st_C _ _ _ HW); auto. rewrite clits_alits, Hold in Hl by auto. exact Hl.
Qed.

Lemma SSI_learn d s t x r lbd c d' b t' : SSI d s t -> wfc (nvt t) (x :: r) ->
  value t x = None -> (forall m, In m r -> value t m = Some false) ->
  (forall y r', r = y :: r' -> level t (lvar y) = dlevel t) ->
  createClause (x :: r) lbd false d = Ok (c, d') -> tpropagate x c t = Ok (b, t') ->
  SSI d' (if 2 <? length (x :: r) then sattach d' c s else s) t'.
Proof.
  intros H Hwf Hx Hr Hy Hcr Hpr.
  destruct (SInv_learn _ _ _ _ _ _ _ _ (SInv_TB _ _ _ H) Hwf Hx Hr Hy Hcr) as (t2 & E & Et & HS).
  rewrite Hpr in E. injection E as Eb E. rewrite Et in E, HS. subst t' b. clear Et.
  destruct H as [HB HW HL HDn]. pose proof (TB_TI _ _ HB) as HT. pose proof (TB_DI _ _ HB) as HD.
  assert (Hxv : lvar x < nvt t) by (apply Hwf; simpl; auto).
  pose proof (createClause_bw _ _ _ _ _ _ Hcr) as Hbw. pose proof (createClause_wt _ _ _ _ _ _ Hcr) as Hwt.
  destruct (createClause_created _ _ _ _ _ _ Hcr) as (C1 & C2 & C3 & _ & C5).
  destruct (SWt_old _ _ _ _ _ _ _ _ HD Hcr HW) as (O1 & O2 & O3 & O4).
  assert (Hold : forall i, i < length (arena d) -> alits (arena d') i = alits (arena d) i) by (intros i Hi; rewrite Hwt; apply alits_app; auto).
  assert (Hnew : clits d' c = x :: r) by (rewrite clits_alits, Hwt, C1; apply alits_new).
  set (s' := if 2 <? length (x :: r) then sattach d' c s else s).
  assert (HH : SWt (nvt t) d' s' /\
    (forall q j, In j (sl (slists s') q) -> (In j (sl (slists s) q) /\ crf (smem s') j = crf (smem s) j) \/
       (crf (smem s') j = c /\ exists y r', r = y :: r' /\ (q = lneg x \/ q = lneg y)))).
  { unfold s'. destruct (Nat.ltb_spec 2 (length (x :: r))) as [Hl|Hl].
    - destruct r as [|y r']; [simpl in Hl; lia|].
      assert (Hxy : x <> y).
      { intros ->. destruct Hwf as [N _]. simpl in N. inversion N as [|? ? Hi _]. apply Hi. simpl; auto. }
      assert (Hl3 : 3 <= length (clits d' c)) by (rewrite Hnew; simpl in *; lia).
      assert (Hlv : forall l, In l (x :: y :: r') -> lneg l < length (slists s)).
      { intros l Hl'. apply (st_len _ _ _ HW). rewrite lvar_neg. apply Hwf. exact Hl'. }
      split; [constructor|].
      + apply (sa_SW1 d' c s x y r' Hnew Hxy O1 Hl3).
      + apply (sa_SW2 d' c s x y r' Hnew Hxy O1); auto; apply HW.
      + apply (sa_SU d' c s x y r' Hnew O1); auto; apply HW.
      + intros i q Hi. destruct (sa_in d' c s x y r' Hnew q i Hi) as [Hi'|[-> _]].
        * rewrite (sa_crf d' c s x y r' Hnew O1 i q Hi'). eauto.
        * unfold crf. rewrite (sa_wat_new d' c s x y r' Hnew). cbn [cref]. rewrite C3. apply in_or_app; simpl; auto.
      + intros c' Hc' Hl'. destruct (Nat.eq_dec c' c) as [->|Hn].
        * eapply sa_watched_new; eauto; apply Hlv; simpl; auto.
        * eapply sa_watched_old; eauto.
      + rewrite (sa_len d' c s x y r' Hnew). apply HW.
      + intros q j Hj. destruct (sa_in d' c s x y r' Hnew q j Hj) as [Hj'|[-> Hq]].
        * left. split; auto. apply (sa_crf d' c s x y r' Hnew O1 j q Hj').
        * right. split; [unfold crf; rewrite (sa_wat_new d' c s x y r' Hnew); reflexivity|]. eauto.
    - split; [|auto]. constructor; auto; try apply HW.
      intros c' Hc' Hl'. destruct (Nat.eq_dec c' c) as [->|Hn]; [rewrite Hnew in Hl'; lia|apply O4; auto]. }
  destruct HH as [HW' A6].
  constructor.
  - eapply SBase_TB. apply HS.
  - exact HW'.
  - exact HL.
  - change (qh (tpush x (Some c) t)) with (qh t).
    intros i q Hi Hq. cbn [tpush tr] in Hq. rewrite nth_error_app1 in Hq by (pose proof (ti_qh t HT); lia).
    destruct (HDn i q Hi Hq) as [D1 D2]. pose proof (nth_error_In _ _ Hq) as Hin.
    assert (Hself : forall q y r', r = y :: r' -> (q = lneg x \/ q = lneg y) -> In q (tr t) -> q = lneg y /\ level t (lvar q) = dlevel t).
    { intros q0 y r' Er [->| ->] Hq0.
      - exfalso. apply (ti_val_false t x HT) in Hq0. congruence.
      - split; auto. rewrite lvar_neg. eapply Hy; eauto. }
    assert (Hlev : forall m, In m (tr t) -> level (tpush x (Some c) t) (lvar m) = level t (lvar m)).
    { intros m Hm. rewrite level_push by (rewrite (ti_vd t HT); auto). destruct (Nat.eqb_spec (lvar m) (lvar x)) as [E|]; auto.
      exfalso. apply (value_none_notin t x HT Hx). rewrite <- E. apply in_map; auto. }
    assert (Hxs : value (tpush x (Some c) t) x = Some true) by (apply value_push_self; rewrite (ti_asg t HT); auto).
    assert (Hxl : level (tpush x (Some c) t) (lvar x) = dlevel t) by (rewrite level_push, Nat.eqb_refl by (rewrite (ti_vd t HT); auto); auto).
    split.
    + intros c' b Hc. apply in_vw in Hc. destruct Hc as (-> & j & Hj & Ej). destruct (A6 q j Hj) as [[Hj' Ej']|(Ej' & y & r' & Er & Hq')].
      * assert (HS4 : Sat4 (arena d') (svw s) t q).
        { intros c1 b1 H1. destruct (D1 c1 b1 H1) as (m & M1 & M2). exists m. rewrite Hold by (eapply alits_lt; eauto). auto. }
        apply (Sat4_push _ _ t x (Some c) q HT Hx Hxv Hin HS4 c' 0). apply in_vw. split; auto. exists j. split; auto. congruence.
      * destruct (Hself q y r' Er) as [_ Hlq]; auto. rewrite <- Ej, Ej'. exists x. change (alits (arena d') c) with (clits d' c).
        rewrite Hnew. split; [simpl; auto|]. split; [exact Hxs|]. rewrite Hxl, Hlev by auto. lia.
    + rewrite Hbw. intros c' o Hc. apply watch_binary_in in Hc. destruct Hc as [Hc|(-> & Hl2 & x' & y & E & Hq')].
      * apply (SatB_push _ t x (Some c) q HT Hx Hxv Hin D2 c' o Hc).
      * inversion E; subst x' r. destruct (Hself q y []) as [E' Hlq]; auto; [tauto|].
        destruct Hq' as [[Eq1 _]|[_ ->]].
        -- exfalso. subst q. apply (ti_val_false t x HT) in Hin. congruence.
        -- split; auto. rewrite Hxl, Hlev by auto. lia.
Qed.

Lemma SSI_unit d s t l lbd lem c d' : SSI d s t -> lvar l < nvt t ->
  createClause [l] lbd lem d = Ok (c, d') -> SSI d' s t.
Proof.
  intros H Hl Hcr. pose proof (SInv_unit _ _ _ _ _ _ _ _ (SInv_TB _ _ _ H) Hl Hcr) as HS.
  destruct H as [HB HW HL HDn]. pose proof (TB_DI _ _ HB) as HD.
  pose proof (createClause_bw _ _ _ _ _ _ Hcr) as Hbw. pose proof (createClause_wt _ _ _ _ _ _ Hcr) as Hwt.
  destruct (createClause_created _ _ _ _ _ _ Hcr) as (C1 & C2 & C3 & _ & C5).
  destruct (SWt_old _ _ _ _ _ _ _ _ HD Hcr HW) as (O1 & O2 & O3 & O4).
  constructor; auto.
  - eapply SBase_TB. apply HS.
  - constructor; auto; try apply HW. intros c' Hc' Hl'. apply O4; auto. intros ->. 
    rewrite clits_alits, Hwt, C1, alits_new in Hl'. simpl in Hl'. lia.
  - intros i q Hi Hq. destruct (HDn i q Hi Hq) as [D1 D2]. split.
    + intros c' b Hc. destruct (D1 c' b Hc) as (m & M1 & M2). exists m.
      assert (Hold : alits (arena d') c' = alits (arena d) c') by (rewrite Hwt; apply alits_app; eapply alits_lt; eauto).
      rewrite Hold. auto.
    + rewrite Hbw. exact D2.
Qed.

Lemma sreach_SSS d s t k : sreach d s t k -> SSS d s t k.
Proof.
  induction 1 as [n cs d Hc Hi|d s t l b t' H IH Hd Hl Hf|d s t H IH Hq|d s t l t' H IH Hl Hv Hdc|d s t k s' t' H IH Hp
    |d s t k cs H IH Hcs|d s t k lev H IH Hl|d s t x r lbd c d' b t' H IH Hok Hv Hr Hy Hc Hp|d s t l lbd lem c d' H IH Hl Hc|d s t k cs H IH d'|d s t k n cs d' H IH Hok Hi].
  - simpl. apply SSI_start.
    + destruct (init_fields n trail_new) as (_ & _ & _ & _ & E). rewrite E. apply (db_init_DI 0 n cs true db_new); auto. apply db_new_DI. rewrite Nat.max_0_r. exact Hc.
    + apply TI_init, TI_new.
    + destruct (init_fields n trail_new) as (E & _). rewrite E. reflexivity.
    + destruct (init_fields n trail_new) as (_ & E & _). rewrite E. reflexivity.
    + intros v. rewrite reason_init by reflexivity. unfold reason, trail_new; cbn. destruct v; reflexivity.
  - eapply SSI_fact; eauto.
  - apply SSI_level; auto.
  - rewrite decide_push in Hdc by (eapply TI_room; eauto; apply (TB_TI _ _ (ss_B _ _ _ IH))). inversion Hdc; subst. apply SSI_push_none; auto.
  - destruct (SSI_propagate d s t IH) as (k1 & s1 & t1 & E & _ & HS). rewrite Hp in E. inversion E; subst; auto.
  - apply SSS_reestimate; auto.
  - eapply SSS_backtrack; eauto.
  - eapply SSI_learn; eauto.
  - eapply SSI_unit; eauto.
  - pose proof (SSS_B _ _ _ _ IH) as HB. simpl. apply SSI_reset; [|apply HB]. apply reorganize_DI, fold_remove_DI, HB.
  - pose proof (SSS_B _ _ _ _ IH) as HB. simpl. apply SSI_reset; [|apply TI_init, HB].
    destruct (init_fields n t) as (_ & _ & _ & _ & E). rewrite E. eapply db_init_DI; eauto. apply HB.
Qed.

Lemma sreach_propagate d s t : sreach d s t None ->
  exists k s' t', spropagate d s t = Ok (k, s', t') /\ sprop_result d s t k s' t' /\ SSS d s' t' k.
Proof. intros H. apply sreach_SSS in H. apply SSI_propagate; auto. Qed.
