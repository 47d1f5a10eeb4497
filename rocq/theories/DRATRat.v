(** The DRAT checker accepts RAT lemmas: the checks of the resolvents keep the propagated state of the lemma. *)
Require Import List Arith Bool NArith Lia Permutation.
Require Import Verif.Base Verif.CNFModel Verif.CNFProofs Verif.HeapProofs Verif.Outcome Verif.TrailModel Verif.TrailProofs Verif.TrailLemmas
  Verif.DbModel Verif.PropModel Verif.PropProofs Verif.DbProofs Verif.PropLemmas Verif.DRATModel Verif.DRATSpec Verif.DRATBase Verif.DRATProofs Verif.CertSpec
  Verif.DRATComplete Verif.DRATRatSpec.
Import ListNotations.

(** ** Propagation does not touch the lists of the literals that are done *)
Lemma loop_keep fuel : forall d w t k d' w' t', PInv d w t -> prop_loop fuel d w t = Ok (k, d', w', t') ->
  forall i q, i < qh t -> nth_error (tr t) i = Some q -> wl w' q = wl w q.
Proof.
  induction fuel as [|fuel IH]; intros d w t k d' w' t' HI H i q Hi Hnq; cbn [prop_loop] in H; [discriminate|].
  pose proof (pi_TI _ _ _ HI) as HT.
  destruct (Nat.ltb_spec (qh t) (length (tr t))) as [Hq|Hq]; [|inversion H; subst; reflexivity].
  set (p := nth (qh t) (tr t) 0) in *.
  assert (Hpn : nth_error (tr t) (qh t) = Some p) by (apply nth_error_nth'; auto).
  assert (Hp : In p (tr t)) by (eapply nth_error_In; eauto).
  set (t0 := with_qh (S (qh t)) t) in *.
  assert (HT0 : TI t0) by (apply TI_with_qh; auto).
  assert (HR0 : TRe (arena d) t0) by exact (pi_TRe _ _ _ HI).
  assert (HA0 : WFA (nvt t0) (arena d)) by exact (pi_WFA _ _ _ HI).
  assert (Hp0 : In p (tr t0)) by exact Hp.
  assert (HB : BWl (arena d) p (wl (bw d) p)) by exact (pi_BW _ _ _ HI p).
  destruct (prop_binary_spec (arena d) p (wl (bw d) p) t0 HT0 HR0 HA0 Hp0 HB) as (k1 & t1 & E1 & T1 & R1 & X1 & C1 & N1).
  unfold wl in E1. rewrite E1 in H. cbn [bind] in H. destruct k1 as [c|]; [inversion H; subst; reflexivity|].
  assert (HA2 : WFA (nvt t1) (arena d)) by (rewrite (tx_nvt _ _ X1); exact (pi_WFA _ _ _ HI)).
  assert (Hp1 : In p (tr t1)) by (eapply text_in; eauto).
  assert (Hpw : p < length w) by (apply (pi_len _ _ _ HI); apply (ti_range t HT); auto).
  assert (Hw1 : forall l, lvar l < nvt t1 -> l < length w) by (rewrite (tx_nvt _ _ X1); exact (pi_len _ _ _ HI)).
  assert (EV : virt p [] (wl w p) w = w) by (unfold virt; simpl; apply set_nth_self).
  destruct (prop_watched_spec p (wl w p) [] (arena d) w t1 T1 R1 HA2 Hp1 Hpw Hw1) as
    (k2 & ws' & a' & w1 & t2 & E & A1 & A2 & A3 & A4 & A5 & A6 & A7 & A8 & A9 & A10 & A11 & A12).
  { rewrite EV. exact (pi_W1 _ _ _ HI). } { rewrite EV. exact (pi_W2 _ _ _ HI). }
  rewrite EV in *. unfold wl in E. rewrite E in H. cbn [bind] in H.
  assert (X2 : text t0 t2) by (eapply text_trans; eauto).
  assert (Hqh2 : qh t2 = S (qh t)) by (rewrite (tx_qh _ _ X2); reflexivity).
  assert (Hlw2 : length (set_nth p ws' w1) = length w) by (rewrite set_nth_length; auto).
  assert (Hqp : q <> p) by (intros ->; pose proof (tr_nth_inj t _ _ _ _ HT Hnq Hpn eq_refl); lia).
  assert (Hq1 : value t1 q = Some true).
  { apply (text_true t0 t1); auto. apply (ti_val t HT). eapply nth_error_In; eauto. }
  assert (EK : wl (set_nth p ws' w1) q = wl w q).
  { rewrite wl_set_other by auto. apply (pw_keep p q _ _ _ _ _ _ _ _ _ _ T1 HA2 Hq1 E). }
  destruct k2 as [c|]; [inversion H; subst; exact EK|].
  rewrite <- EK. apply (IH _ _ _ _ _ _ _) with (i := i) (q := q) in H; auto.
  - constructor; auto.
    + rewrite (tx_nvt _ _ X2). eapply WFA_perm; [exact A4|]. exact (pi_WFA _ _ _ HI).
    + eapply BW_perm; [exact A4|]. exact (pi_BW _ _ _ HI).
    + rewrite (tx_nvt _ _ X2), Hlw2. exact (pi_len _ _ _ HI).
  - lia.
  - rewrite <- Hnq. apply (text_nth t0 t2 i q X2). change (tr t0) with (tr t). lia.
Qed.

(** ** Deciding the negated literals except the pivot *)
Lemma decide_pv d w pv ls : forall t b t', PInv d w t -> (forall l, In l ls -> lvar l < nvt t) ->
  asymm_decide pv ls t = Ok (b, t') ->
  PInv d w t' /\ nvt t' = nvt t /\ qh t' = qh t /\ dext_t t t' /\ (forall m, In m (tr t) -> In m (tr t')) /\
  (b = false -> forall l, In l ls -> is_pivot pv l = false -> In (lneg l) (tr t')).
Proof.
  induction ls as [|l r IH]; intros t b t' HP HV H; cbn [asymm_decide] in H.
  - inversion H; subst. split; auto. split; auto. split; auto. split; [left; auto|]. split; auto. intros _ l [].
  - pose proof (pi_TI _ _ _ HP) as HT. assert (HV' : forall m, In m r -> lvar m < nvt t) by (intros m Hm; apply HV; simpl; auto).
    destruct (is_pivot pv l) eqn:EP.
    { destruct (IH t b t' HP HV' H) as (A1 & A2 & A3 & A4 & A5 & A6).
      split; auto. split; auto. split; auto. split; auto. split; auto. intros Hb m [<-|Hm] Hpv; [congruence|auto]. }
    destruct (is_false (value t (lneg l))) eqn:E1.
    { inversion H; subst. split; auto. split; auto. split; auto. split; [left; auto|]. split; auto. discriminate. }
    destruct (is_true (value t (lneg l))) eqn:E2.
    { apply is_true_iff in E2. destruct (IH t b t' HP HV' H) as (A1 & A2 & A3 & A4 & A5 & A6).
      split; auto. split; auto. split; auto. split; auto. split; auto. intros Hb m [<-|Hm] Hpv; [|auto]. apply A5. apply (ti_val t HT). auto. }
    assert (Hn : value t (lneg l) = None) by (destruct (value t (lneg l)) as [[|]|]; try discriminate; auto).
    assert (Hlv : lvar (lneg l) < nvt t) by (rewrite lvar_neg; apply HV; simpl; auto).
    rewrite decide_push in H by (apply (TI_room t (lneg l)); auto). cbn [bind] in H.
    set (t0 := newDecisionLevel t) in *. assert (HP0 : PInv d w t0) by (apply PInv_newlevel; auto).
    assert (HP1 : PInv d w (tpush (lneg l) None t0)) by (apply PInv_push_none; auto).
    destruct (IH _ b t' HP1 HV' H) as (A1 & A2 & A3 & A4 & A5 & A6).
    split; auto. split; [exact A2|]. split; [exact A3|]. split.
    + right. destruct A4 as [->|(r1 & new & B1 & B2)].
      * exists [], [lneg l]. cbn [tpush tr lim t0 newDecisionLevel]. auto.
      * cbn [tpush tr lim t0 newDecisionLevel] in B1, B2. rewrite <- app_assoc in B1, B2. simpl in B1, B2. eauto.
    + split; [intros m Hm; apply A5; cbn [tpush tr t0 newDecisionLevel]; apply in_or_app; auto|].
      intros Hb m [<-|Hm] Hpv; [|auto]. apply A5. cbn [tpush tr]. apply in_or_app. simpl; auto.
Qed.

(** a state at the level of the lemma: [L], [T] are the levels and the trail after the negated lemma was propagated *)
Record TS (n : nat) (s0 : chk) (L : list nat) (T : list lit) (s : chk) : Prop := {
  ts_a : aperm (arena (k_d s0)) (arena (k_d s));
  ts_d : k_d s = with_arena (k_d s0) (arena (k_d s));
  ts_P : PInv (k_d s) (k_w s) (k_t s);
  ts_2 : forall c, watched2 (arena (k_d s0)) (k_w s0) c -> watched2 (arena (k_d s)) (k_w s) c;
  ts_i : forall c q, In c (map fst (wl (k_w s) q)) -> exists q', In c (map fst (wl (k_w s0) q'));
  ts_L : lim (k_t s) = L;
  ts_T : tr (k_t s) = T;
  ts_n : nvt (k_t s) = n;
  ts_q : qh (k_t s) = length T;
  ts_F : Fin (k_d s) (k_w s) (k_t s) (length T);
  ts_o : k_occ s = k_occ s0;
  ts_e : k_del s = k_del s0 }.

Lemma Fin_ext d w t t' m : PInv d w t -> PInv d w t' -> (exists new, tr t' = tr t ++ new) -> m <= length (tr t) -> Fin d w t m -> Fin d w t' m.
Proof.
  intros HP HP' (new & E) Hm HF i q Hi Hq. rewrite E, nth_error_app1 in Hq by lia. destruct (HF i q Hi Hq) as [A B].
  assert (HV : forall x, value t x = Some true -> value t' x = Some true).
  { intros x Hx. apply (ti_val t' (pi_TI _ _ _ HP')). rewrite E. apply in_or_app. left. apply (ti_val t (pi_TI _ _ _ HP)). auto. }
  split; [intros c b Hc; destruct (A c b Hc) as (x & X1 & X2); exists x; auto|intros c o Hc; apply HV, (B c o Hc)].
Qed.
Lemma dext_ext t t' : dext_t t t' -> exists new, tr t' = tr t ++ new.
Proof. intros [->|(r & new & _ & E)]; [exists []; symmetry; apply app_nil_r|eauto]. Qed.

(** backtracking to the level of the lemma after decisions and propagation *)
Lemma back_lev t t' t2 : TI t -> lim t <> [] -> dext_t t t' -> lim t2 = lim t' -> (exists new, tr t2 = tr t' ++ new) -> (t' = t -> t2 = t) -> qh t = length (tr t) ->
  let b := backtrack (dlevel t) t2 in
  tr b = tr t /\ lim b = lim t /\ qh b = length (tr t) /\ nvt b = nvt t2.
Proof.
  intros HT HL HX EL (new & EN) HI Hq b. destruct HX as [->|(r & nw & X1 & X2)].
  - unfold b. rewrite (HI eq_refl). unfold backtrack. rewrite Nat.ltb_irrefl. auto.
  - assert (Hd : dlevel t < dlevel t2) by (unfold dlevel; rewrite EL, X1, app_length; simpl; lia).
    destruct (backtrack_fields (dlevel t) t2 Hd) as (F1 & F2 & F3 & F4 & F5 & F6 & F7). unfold b. rewrite F1, F2, F3, F7.
    assert (EK : nth (dlevel t) (lim t2) 0 = length (tr t)) by (rewrite EL, X1; unfold dlevel; rewrite app_nth2, Nat.sub_diag by lia; reflexivity).
    rewrite EK, EN, X2, EL, X1, <- app_assoc. unfold dlevel. rewrite !firstn_app, !Nat.sub_diag, !firstn_all, !firstn_O, !app_nil_r.
    split; auto. split; auto. split; auto. destruct (Nat.eqb_spec (length (lim t)) 0) as [E|E]; auto. destruct (lim t); [contradiction|discriminate].
Qed.

(** ** One resolvent *)
Lemma no_loop d w t : qh t = length (tr t) -> propagate d w t = Ok (None, d, w, t).
Proof. intros H. unfold propagate. cbn [prop_loop]. rewrite H, Nat.ltb_irrefl. reflexivity. Qed.

Lemma ts_asymm n P A s0 L T s ls pv b s1 : CS n P A s0 -> TS n s0 L T s -> L <> [] -> (forall l, In l ls -> lvar l < n) ->
  check_asymm ls pv s = Ok (b, s1) ->
  TS n s0 L T (chk_backtrack (length L) s1) /\
  (forall c, (forall l, In l (tr (k_t s0)) -> In l T) -> (forall l, In l c -> In (lneg l) T \/ (In l ls /\ is_pivot pv l = false)) -> found P c -> b = true).
Proof.
  intros HS H0 HL HV H. destruct s as [d t w occ del]. destruct H0 as [Ha Hd HP H2 Hi HLi HTr Hn Hq HF Ho He]. cbn [k_d k_t k_w k_occ k_del] in *.
  pose proof (cs_C _ _ _ _ HS) as HC. pose proof (pi_TI _ _ _ HP) as HT.
  unfold check_asymm in H. cbn [k_d k_t k_w k_occ k_del] in H.
  assert (EE : empt d = false) by (rewrite Hd; apply HS). rewrite EE in H.
  apply bind_ok in H. destruct H as ([b0 t'] & H1 & H).
  destruct (decide_pv d w pv ls t b0 t' HP ltac:(intros l Hl; rewrite Hn; auto) H1) as (A1 & A2 & A3 & A4 & A5 & A6).
  assert (HLt : lim t <> []) by (rewrite HLi; auto). assert (Hqt : qh t = length (tr t)) by (rewrite HTr; auto).
  assert (EDL : length L = dlevel t) by (unfold dlevel; rewrite HLi; auto).
  (* the state after backtracking *)
  assert (HB : forall d' w' t2, PInv d' w' t2 -> aperm (arena d) (arena d') -> d' = with_arena d (arena d') ->
    (forall c, watched2 (arena d) w c -> watched2 (arena d') w' c) -> (forall c q, In c (map fst (wl w' q)) -> exists q', In c (map fst (wl w q'))) ->
    (forall q, In q T -> wl w' q = wl w q) -> lim t2 = lim t' -> (exists new, tr t2 = tr t' ++ new) -> (t' = t -> t2 = t) -> nvt t2 = nvt t' ->
    TS n s0 L T (mkChk d' (backtrack (length L) t2) w' occ del)).
  { intros d' w' t2 Q1 Q2 Q3 Q4 Q5 Q6 Q7 Q8 Q9 Q10. destruct (back_lev t t' t2 HT HLt A4 Q7 Q8 Q9 Hqt) as (B1 & B2 & B3 & B4). rewrite EDL.
    assert (HPb : PInv d' w' (backtrack (dlevel t) t2)) by (apply PInv_backtrack; auto).
    constructor; cbn [k_d k_t k_w k_occ k_del]; auto; try congruence.
    - eapply aperm_trans'; eauto.
    - rewrite Q3, Hd. reflexivity.
    - intros c q Hc. destruct (Q5 c q Hc) as (q' & Hq'). apply (Hi c q'). auto.
    - intros i q Hli Hnq. rewrite B1, HTr in Hnq. assert (HqT : In q T) by (eapply nth_error_In; eauto). rewrite <- HTr in Hnq. destruct (HF i q Hli Hnq) as [W1' W2'].
      assert (HVb : forall x, value t x = Some true -> value (backtrack (dlevel t) t2) x = Some true).
      { intros x Hx. apply (ti_val _ (pi_TI _ _ _ HPb)). rewrite B1. apply (ti_val t HT). auto. }
      split.
      + intros c bb Hc. rewrite (Q6 q HqT) in Hc. destruct (W1' c bb Hc) as (x & X1 & X2). exists x. split; [apply (aperm_in _ _ c x Q2); auto|auto].
      + intros c o Hc. rewrite Q3 in Hc. cbn [with_arena bw] in Hc. apply HVb. exact (W2' c o Hc). }
  destruct b0.
  - inversion H; subst b s1. split; [|auto]. apply (HB d w t'); auto.
    + apply aperm_refl.
    + destruct d; reflexivity.
    + eauto.
    + exists []. symmetry. apply app_nil_r.
  - apply bind_ok in H. destruct H as ([[[k d'] w'] t2] & H3 & H). inversion H; subst b s1. clear H.
    destruct (propagate_spec d w t' A1) as (k1 & d1 & w1 & t1 & E & HPR). rewrite H3 in E. inversion E; subst k1 d1 w1 t1. clear E.
    destruct HPR as (R1 & R2 & R3 & R4 & R5 & R6 & R7 & R8 & _ & _ & R11).
    destruct (tx_tr _ _ R2) as (nw & N1 & _). cbn [with_qh tr] in N1. pose proof (tx_lim _ _ R2) as N2. cbn [with_qh lim] in N2.
    pose proof (tx_nvt _ _ R2) as N3. cbn [with_qh nvt] in N3.
    destruct (dext_ext _ _ A4) as (nw0 & N0).
    assert (HTS : TS n s0 L T (mkChk d' (backtrack (length L) t2) w' occ del)).
    { apply HB; auto.
      - intros q HqT. apply In_nth_error in HqT. destruct HqT as (i & Hnq). assert (Hli : i < length T) by (apply nth_error_Some; congruence).
        apply (loop_keep _ _ _ _ _ _ _ _ A1 H3 i q); [lia|]. rewrite N0, nth_error_app1 by (rewrite HTr; auto). rewrite HTr. auto.
      - eauto.
      - intros ->. rewrite no_loop in H3 by auto. congruence. }
    split; [exact HTS|]. destruct k as [c|]; [auto|]. intros c HT0 HN HR. exfalso.
    assert (HF' : Fin d w t' (qh t')).
    { rewrite A3, Hq. apply (Fin_ext d w t t'); auto; [eauto|rewrite HTr; auto]. }
    pose proof (fin_loop _ _ _ _ _ _ _ _ A1 H3 eq_refl HF') as HFin.
    assert (HTin : forall m, In m T -> In m (tr t2)) by (intros m Hm; rewrite N1; apply in_or_app; left; apply A5; rewrite HTr; auto).
    assert (HNin : forall l, In l c -> In (lneg l) (tr t2)).
    { intros l Hl. destruct (HN l Hl) as [Hl'|[Hl' Hp']]; auto. rewrite N1. apply in_or_app. left. apply A6; auto. }
    destruct HR as [(l & L1 & L2)|HR].
    { apply HNin in L1. apply HNin in L2. rewrite lneg_invol in L2. pose proof (pi_TI _ _ _ R1) as HT2.
      apply (ti_val t2 HT2) in L2. apply (ti_val_false t2 l HT2) in L1. congruence. }
    assert (HA : aperm (arena (k_d s0)) (arena d')) by (eapply aperm_trans'; eauto).
    assert (HD : d' = with_arena (k_d s0) (arena d')) by (rewrite R5, Hd; reflexivity).
    assert (El : forall k, length (clits d' k) = length (clits (k_d s0) k)) by (intros k; symmetry; apply (aperm_len _ _ k HA)).
    assert (Ew : forall k, cwt d' k = cwt (k_d s0) k) by (intros k; apply (proj2 (proj2 HA k))).
    assert (HDI : DI n d') by (rewrite HD; apply aperm_DI; auto; apply HC).
    apply (no_rup n P d' w' t2 c R1 HDI HFin); auto; try apply HS.
    + rewrite HD. apply Match_aperm; auto. apply HS.
    + intros k. rewrite HD. cbn [with_arena cls]. rewrite <- HD, Ew, El. intros K1 K2 K3. apply R7, H2. apply (ci_C3 _ _ HC); auto.
    + intros l Hl. apply HTin, HT0. apply (cs_u _ _ _ _ HS); auto.
Qed.

(** ** All resolvents on one literal, all literals *)
(** [Q]: the clause [c] is refuted when its literals other than the pivot are false at the level of the lemma *)
Definition resolvable (P A : formula) (s0 : chk) (c : clause) (p : lit) : Prop :=
  rat_on A P p c /\ (forall k, In k (nth (lneg p) (k_occ s0) []) -> exists D, In D A /\ same_lits D (clits (k_d s0) k)) /\
  (forall k, In k (nth (lneg p) (k_occ s0) []) -> In (lneg p) (clits (k_d s0) k)).

Lemma ts_deleted n s0 L T s k : TS n s0 L T s -> isDeleted (k_d s) k = isDeleted (k_d s0) k.
Proof. intros H. rewrite !isDeleted_awt. rewrite (proj2 (proj2 (ts_a _ _ _ _ _ H) k)). reflexivity. Qed.

Lemma ts_clauses n P A s0 L T c p : CS n P A s0 -> L <> [] -> (forall l, In l (tr (k_t s0)) -> In l T) -> (forall l, In l c -> In (lneg l) T) ->
  forall cs b s b' s', TS n s0 L T s -> rat_clauses (length L) p cs b s = Ok (b', s') ->
  TS n s0 L T s' /\ (resolvable P A s0 c p -> incl cs (nth (lneg p) (k_occ s0) []) -> b = true \/ (exists k, In k cs /\ isDeleted (k_d s0) k = false) -> b' = true).
Proof.
  intros HS HL HT HN. induction cs as [|k r IH]; intros b s b' s' H0 H; cbn [rat_clauses] in H.
  - inversion H; subst. split; auto. intros _ _ [Hb|(k & [] & _)]. auto.
  - destruct (isDeleted (k_d s) k) eqn:ED.
    { destruct (IH b s b' s' H0 H) as [B1 B2]. split; auto. intros HR HI Hb. apply B2; auto; [intros x Hx; apply HI; simpl; auto|].
      destruct Hb as [Hb|(x & [<-|Hx] & Hd)]; auto; [|right; eauto]. rewrite (ts_deleted _ _ _ _ _ _ H0) in ED. congruence. }
    apply bind_ok in H. destruct H as ([b1 s1] & H1 & H).
    assert (HD : DI n (k_d s)) by (rewrite (ts_d _ _ _ _ _ H0); apply aperm_DI; [apply (ci_D _ _ (cs_C _ _ _ _ HS))|apply H0]).
    assert (HV : forall l, In l (clits (k_d s) k) -> lvar l < n) by (intros l Hl; apply (wfc_alits n (arena (k_d s)) k (di_WFA _ _ HD)); exact Hl).
    destruct (ts_asymm n P A s0 L T s _ _ b1 s1 HS H0 HL HV H1) as [B1 B2].
    assert (HB1 : resolvable P A s0 c p -> In k (nth (lneg p) (k_occ s0) []) -> b1 = true).
    { intros ((_ & R1) & R2 & R3) Hk. destruct (R2 k Hk) as (D & D1 & D2).
      apply (B2 (c ++ filter (fun m => negb (m =? lneg p)) D)); auto.
      - intros l Hl. apply in_app_or in Hl. destruct Hl as [Hl|Hl]; auto. right. apply filter_In in Hl. destruct Hl as [Hl1 Hl2]. split.
        + apply (aperm_in _ _ k l (ts_a _ _ _ _ _ H0)). apply D2. auto.
        + cbn [is_pivot]. destruct (l =? lneg p); [discriminate|auto].
      - apply R1; auto. apply D2. apply R3. auto. }
    destruct b1.
    + destruct (IH true _ b' s' B1 H) as [C1 C2]. split; auto. intros HR HI _. apply C2; auto. intros x Hx. apply HI. simpl; auto.
    + inversion H; subst. split; auto. intros HR HI _. discriminate (HB1 HR (HI k (or_introl eq_refl))).
Qed.

Lemma ts_pivots n P A s0 L T c : CS n P A s0 -> L <> [] -> (forall l, In l (tr (k_t s0)) -> In l T) -> (forall l, In l c -> In (lneg l) T) ->
  forall ps b s b' s', TS n s0 L T s -> rat_pivots (length L) ps b s = Ok (b', s') ->
  TS n s0 L T s' /\ (b = true \/ (exists p, In p ps /\ resolvable P A s0 c p /\ exists k, In k (nth (lneg p) (k_occ s0) []) /\ isDeleted (k_d s0) k = false) -> b' = true).
Proof.
  intros HS HL HT HN. induction ps as [|p r IH]; intros b s b' s' H0 H; cbn [rat_pivots] in H.
  - inversion H; subst. split; auto. intros [Hb|(p & [] & _)]. auto.
  - destruct b; [inversion H; subst; auto|]. apply bind_ok in H. destruct H as ([b1 s1] & H1 & H).
    rewrite (ts_o _ _ _ _ _ H0) in H1. destruct (ts_clauses n P A s0 L T c p HS HL HT HN _ _ _ _ _ H0 H1) as [B1 B2].
    destruct (IH b1 s1 b' s' B1 H) as [C1 C2]. split; auto. intros [Hb|(q & [<-|Hq] & HR & HK)]; [discriminate| |].
    + apply C2. left. apply B2; auto. apply incl_refl.
    + apply C2. right. eauto.
Qed.

(** ** The check of the lemma itself *)
Lemma first_check n P A s ls b s1 : CS n P A s -> wfc n ls -> (exists l, In l ls /\ ~ In (lneg l) (tr (k_t s))) -> check_asymm ls None s = Ok (b, s1) ->
  CS n P A (chk_backtrack 0 s1) /\
  (b = false -> exists r new, lim (k_t s1) = length (tr (k_t s)) :: r /\ tr (k_t s1) = tr (k_t s) ++ new /\
    TS n s (lim (k_t s1)) (tr (k_t s1)) s1 /\ forall l, In l ls -> In (lneg l) (tr (k_t s1))).
Proof.
  intros HS HW (l0 & Hl0 & Hn0) H. unfold check_asymm in H. rewrite (cs_e _ _ _ _ HS) in H. apply bind_ok in H. destruct H as ([b0 t'] & H1 & H).
  pose proof (cs_C _ _ _ _ HS) as HC. destruct s as [d t w occ del]. cbn [k_d k_t k_w k_occ k_del] in *.
  assert (HV : forall l, In l ls -> lvar l < nvt t) by (intros l Hl; pose proof (ci_n _ _ HC) as En; cbn [k_t] in En; rewrite En; apply HW; auto).
  destruct (decide_all d w ls t b0 t' (ci_P _ _ HC) HV H1) as (A1 & A2 & A3 & A4 & A5 & A6).
  pose proof (ci_lim _ _ HC) as HL. cbn [k_t] in HL.
  destruct b0.
  - inversion H; subst b s1. split; [|discriminate]. destruct A4 as [->|Hx].
    + unfold chk_backtrack, backtrack, dlevel. cbn [k_d k_t k_w k_occ k_del]. rewrite HL. exact HS.
    + destruct (back_same t t' HL Hx t' eq_refl) as (B1 & B2 & B3 & B4); [exists []; symmetry; apply app_nil_r|].
      apply (CS_change n P A _ d w (backtrack 0 t') HS); auto.
      * apply aperm_refl.
      * destruct d; reflexivity.
      * apply PInv_backtrack; auto.
      * eauto.
      * rewrite B4. exact A2.
  - apply bind_ok in H. destruct H as ([[[k d'] w'] t2] & H2 & H). inversion H; subst b s1. clear H.
    destruct (propagate_spec d w t' A1) as (k1 & d1 & w1 & t1 & E & HPR). rewrite H2 in E. inversion E; subst k1 d1 w1 t1. clear E.
    destruct HPR as (R1 & R2 & R3 & R4 & R5 & R6 & R7 & R8 & _ & _ & R11).
    destruct (tx_tr _ _ R2) as (nw & N1 & _). pose proof (tx_lim _ _ R2) as N2. pose proof (tx_nvt _ _ R2) as N3. cbn [with_qh tr lim nvt] in N1, N2, N3.
    destruct A4 as [->|Hx]; [exfalso; apply Hn0; apply A6; auto|].
    destruct (back_same t t' HL Hx t2 N2 (ex_intro _ nw N1)) as (B1 & B2 & B3 & B4).
    split.
    + apply (CS_change n P A _ d' w' (backtrack 0 t2) HS); auto.
      * apply PInv_backtrack; auto.
      * rewrite B4, N3. exact A2.
    + intros Hk. destruct k as [c|]; [discriminate|]. destruct Hx as (r & new & X1 & X2). cbn [k_t]. rewrite HL in X1. cbn [app] in X1.
      exists r, (new ++ nw). split; [congruence|]. split; [rewrite N1, X2, app_assoc; auto|]. split.
      * assert (Hq : qh t' = 0) by (rewrite A3; apply (ci_qh _ _ HC)). destruct (R11 eq_refl) as [Q1 _].
        constructor; cbn [k_d k_t k_w k_occ k_del]; auto.
        -- rewrite N3, A2. apply (ci_n _ _ HC).
        -- apply (propagate_fin d w t' d' w' t2 A1 Hq H2).
      * intros l Hl. rewrite N1. apply in_or_app. left. auto.
Qed.

Lemma wfc_not_taut n c l : wfc n c -> In l c -> ~ In (lneg l) c.
Proof.
  intros [H _] H1 H2. apply in_split in H1. destruct H1 as (a & b & ->). rewrite map_app in H. cbn [map] in H. apply NoDup_remove_2 in H. apply H.
  apply in_app_or in H2. apply in_or_app. destruct H2 as [H2|[H2|H2]].
  - left. rewrite <- lvar_neg. apply in_map. auto.
  - exfalso. apply (lneg_neq l). auto.
  - right. rewrite <- lvar_neg. apply in_map. auto.
Qed.
Lemma rat_unit n P A p c : wfc n c -> rat_on A P p c -> In [lneg p] A -> rup P c.
Proof.
  intros HW (Hp & HR) Hi. specialize (HR _ Hi (or_introl eq_refl)). cbn [filter] in HR. rewrite Nat.eqb_refl in HR. cbn [negb] in HR. rewrite app_nil_r in HR.
  destruct HR as [(l & L1 & L2)|HR]; auto. destruct (wfc_not_taut n c l HW L1 L2).
Qed.

(** all clause objects hold clauses that were present once *)
Definition DA (A : formula) (d : db) : Prop := forall k, k < length (arena d) -> exists D, In D A /\ same_lits D (clits d k).

Lemma rat_step n P A s ls b s' : CS n P A s -> RI s -> DA A (k_d s) -> wfc n ls -> (length ls < 2 \/ exists l, In l ls /\ ~ In [lneg l] A) ->
  (exists p, rat_on A P p ls /\ exists d, In d P /\ In (lneg p) d) ->
  check_clause_add ls s = Ok (b, s') -> b = true /\ (empt (k_d s') = true \/ CS n (ls :: P) (ls :: A) s').
Proof.
  intros HS HRI HDA HW Hor (p & HR & D0 & HD0 & Hp0) H.
  assert (Hdec : {In [lneg p] A} + {~ In [lneg p] A}) by (apply in_dec; apply (list_eq_dec Nat.eq_dec)).
  destruct Hdec as [Hu|Hu]; [apply (add_step n P A s ls b s' HS HW (rat_unit n P A p ls HW HR Hu) Hor H)|].
  assert (Hop : exists l, In l ls /\ ~ In (lneg l) (tr (k_t s))) by (exists p; split; [apply HR|]; intros Hx; apply Hu; apply (cs_t _ _ _ _ HS); auto).
  unfold check_clause_add in H. destruct (forallb _ ls); [|discriminate].
  apply bind_ok in H. destruct H as ([b1 s1] & H1 & H). apply bind_ok in H. destruct H as ([b2 s2] & H2 & H).
  destruct (first_check n P A s ls b1 s1 HS HW Hop H1) as [F1 F2].
  assert (HB : b2 = true /\ CS n P A (chk_backtrack 0 s2)).
  { destruct b1.
    - assert (ER : rat_pivots (dlevel (k_t s1)) ls true s1 = Ok (true, s1)) by (destruct ls; reflexivity). rewrite ER in H2. inversion H2; subst. auto.
    - destruct (F2 eq_refl) as (r & new & G1 & G2 & G3 & G4). change (dlevel (k_t s1)) with (length (lim (k_t s1))) in H2.
      destruct (ts_pivots n P A s (lim (k_t s1)) (tr (k_t s1)) ls HS) with (ps := ls) (b := false) (s := s1) (b' := b2) (s' := s2) as [T1 T2]; auto.
      { rewrite G1. discriminate. } { intros l Hl. rewrite G2. apply in_or_app. auto. }
      assert (Hlen : 2 <= length D0).
      { destruct D0 as [|x [|y D0]]; [destruct Hp0| |cbn; lia]. destruct Hp0 as [->|[]]. exfalso. apply Hu. apply (cs_A _ _ _ _ HS). auto. }
      destruct (cs_M _ _ _ _ HS) as (M & _ & HM). destruct (Forall2_in _ _ _ D0 HM) as (k & _ & K1 & K2 & K3).
      { apply filter_In. split; auto. apply Nat.leb_le. auto. }
      pose proof (cs_C _ _ _ _ HS) as HC.
      assert (Hka : alive (k_d s) k) by (split; auto; unfold isDeleted; rewrite K2; reflexivity).
      split.
      + apply T2. right. exists p. split; [apply HR|]. split.
        * split; auto. split; [|intros j Hj; apply (ci_O _ _ HC); auto]. intros j Hj. apply HDA. apply (ci_O _ _ HC) in Hj. eapply alits_lt. exact Hj.
        * exists k. split; [|apply Hka]. apply (w_oc _ _ _ (s_WO _ (r_S _ HRI))); auto. apply K3. auto.
      + destruct T1 as [Ta Td TP T2' Ti TL TT Tn Tq TF To Te]. destruct s2 as [d2 t2 w2 occ2 del2]. cbn [k_d k_t k_w k_occ k_del chk_backtrack] in *. subst occ2 del2.
        assert (HL : lim (k_t s) = []) by apply (ci_lim _ _ HC).
        destruct (back_same (k_t s) (k_t s1) HL) with (t2 := t2) as (B1 & B2 & B3 & B4); auto.
        { exists r, new. rewrite HL. auto. } { exists []. rewrite app_nil_r. auto. }
        apply (CS_change n P A s d2 w2 (backtrack 0 t2) HS); auto.
        * apply PInv_backtrack; auto.
        * rewrite B4, Tn. symmetry. apply (ci_n _ _ HC). }
  destruct HB as [-> HS3]. apply bind_ok in H. destruct H as ([c d] & H3 & H).
  apply (add_tail n P A _ ls c d b s' HS3 HW H3 H).
Qed.

(** ** The clause objects *)
Lemma DA_incl A A' d : incl A A' -> DA A d -> DA A' d.
Proof. intros H HD k Hk. destruct (HD k Hk) as (D & D1 & D2). exists D. auto. Qed.
Lemma DA_new A d ls c d' : DA A d -> newc d ls c d' -> DA (ls :: A) d'.
Proof.
  intros H HN k Hk. destruct (n_ar _ _ _ _ HN) as (w & Ea & _). rewrite Ea, app_length in Hk. cbn [length] in Hk.
  destruct (Nat.eq_dec k (length (arena d))) as [E|E].
  - exists ls. split; [left; auto|]. rewrite E, <- (n_c _ _ _ _ HN), (proj1 (newc_new _ _ _ _ HN)). intros l. tauto.
  - destruct (H k ltac:(lia)) as (D & D1 & D2). exists D. split; [right; auto|]. rewrite (proj1 (newc_old _ _ _ _ HN k ltac:(lia))). auto.
Qed.
Lemma DA_add A ls s s' : RI s -> (forall l, In l ls -> lvar l < nv (k_d s)) -> DA A (k_d s) -> check_clause_add ls s = Ok (true, s') -> DA (ls :: A) (k_d s').
Proof.
  intros HRI HV HD H. unfold check_clause_add in H. destruct (forallb _ ls); [|discriminate].
  apply bind_ok in H. destruct H as ([b1 s1] & H1 & H). apply bind_ok in H. destruct H as ([b2 s2] & H2 & H).
  destruct (accepted_spec ls s HRI HV) as (b & s3 & E & HG & _). unfold accepted in E. rewrite H1 in E. cbn [bind] in E. rewrite H2 in E. cbn [bind] in E.
  injection E as <- E3. rewrite E3 in H.
  destruct b2; [|discriminate]. apply bind_ok in H. destruct H as ([c d] & H3 & H).
  assert (HD3 : DA A (k_d s3)).
  { intros k Hk. rewrite (proj1 (g_ar _ _ HG)) in Hk || rewrite <- (proj1 (g_ar _ _ HG)) in Hk. destruct (HD k Hk) as (D & D1 & D2). exists D. split; auto.
    intros l. rewrite (D2 l). symmetry. apply (chg_in s s3 k l HG). }
  pose proof (DA_new A _ _ _ _ HD3 (create_newc _ _ _ _ _ H3)) as HD4.
  destruct (clits d c) as [|x [|y q]]; [inversion H; subst; auto| |inversion H; subst; auto].
  apply bind_ok in H. destruct H as ([ok t] & H4 & H). inversion H; subst. destruct ok; exact HD4.
Qed.
Lemma DA_remove A ls s s' : DA A (k_d s) -> check_clause_remove ls s = Ok s' -> DA A (k_d s').
Proof.
  intros HD H. unfold check_clause_remove in H. destruct ls as [|x [|y r]]; [inversion H; subst; auto|inversion H; subst; auto|].
  destruct (x <? length (k_occ s)); [|discriminate]. destruct (find _ _) as [k|]; [|inversion H; subst; auto]. injection H as H. rewrite <- H.
  destruct (remove_fields k (k_d s)) as (E1 & E2 & E3 & E4 & E5 & E6).
  assert (H1 : DA A (removeClause k (k_d s))).
  { intros j Hj. rewrite remove_old. apply HD. rewrite E6 in Hj. unfold set_wt in Hj. rewrite set_nth_length in Hj. auto. }
  destruct (_ <? _); exact H1.
Qed.
Lemma DA_create cs : forall A d d', DA A d -> create_all cs true d = Ok d' -> DA (rev cs ++ A) d'.
Proof.
  induction cs as [|c r IH]; intros A d d' HD H; cbn [create_all] in H; [inversion H; subst; auto|].
  apply bind_ok in H. destruct H as ([k d1] & H1 & H). apply (IH (c :: A)) in H; [|apply (DA_new A d c k d1 HD); apply (create_newc _ _ _ _ _ H1)].
  cbn [rev]. rewrite <- app_assoc. exact H.
Qed.

(** ** Whole proofs *)
Lemma rat_lines n ls : forall P A Q s b, CS n P A s -> RI s -> nv (k_d s) = n -> DA A (k_d s) -> strict_proof A P ls Q -> In [] (lemmas ls) ->
  (forall c, In (CAdd c) ls \/ In (CDel c) ls -> wfc n c) ->
  (forall l1 c l2, ls = l1 ++ CAdd c :: l2 -> 2 <= length c -> ~ In [] (lemmas l1) -> exists l, In l c /\ ~ In [lneg l] (lemmas l1 ++ A)) ->
  check_lines ls s = Ok b -> b = true.
Proof.
  induction ls as [|[c|c] r IH]; intros P A Q s b HS HRI Hnv HDA HD HE HW HN H; cbn [check_lines] in H.
  - destruct HE.
  - apply bind_ok in H. destruct H as ([b1 s1] & H1 & H). inversion HD as [|? ? ? ? ? HR HD'|]; subst.
    assert (Hwc : wfc (nv (k_d s)) c) by (apply HW; simpl; auto).
    assert (Hor : length c < 2 \/ exists l, In l c /\ ~ In [lneg l] A).
    { destruct (Nat.ltb_spec (length c) 2); [auto|]. right. apply (HN [] c r); simpl; auto. }
    assert (HX : b1 = true /\ (empt (k_d s1) = true \/ CS (nv (k_d s)) (c :: P) (c :: A) s1)).
    { destruct HR as [HR|HR]; [apply (add_step _ P A s c b1 s1 HS Hwc HR Hor H1)|apply (rat_step _ P A s c b1 s1 HS HRI HDA Hwc Hor HR H1)]. }
    destruct HX as [-> [He|HS1]]; [apply (empt_lines r s1 b He H)|].
    assert (HV : forall l, In l c -> lvar l < nv (k_d s)) by apply Hwc.
    destruct c as [|l c0]; [exfalso; apply (cs_0 _ _ _ _ HS1); simpl; auto|].
    destruct (add_spec (l :: c0) s HRI HV) as [(E & _)|(b' & s'' & E & HRI' & HNV & _)]; rewrite E in H1; [discriminate|]. injection H1 as -> ->.
    pose proof (DA_add A (l :: c0) s s1 HRI HV HDA E) as HDA1.
    apply (IH _ _ Q s1 b HS1 HRI' HNV HDA1 HD'); auto.
    + destruct HE as [HE|HE]; [discriminate|auto].
    + intros e He. apply HW. simpl. destruct He; auto.
    + intros l1 e l2 E' He Hl. destruct (HN (CAdd (l :: c0) :: l1) e l2) as (m & M1 & M2); [rewrite E'; reflexivity|auto|simpl; intros [E1|E1]; [discriminate|auto]|].
      exists m. split; [auto|]. intros Hm. apply M2. cbn [lemmas]. rewrite in_app_iff in *. cbn [In] in *. tauto.
  - apply bind_ok in H. destruct H as (s1 & H1 & H). inversion HD as [| |? P1 c' P2 ? ? ? HSm HD']; subst.
    assert (Hwc : wfc (nv (k_d s)) c) by (apply HW; simpl; auto).
    pose proof (remove_step _ P1 c' P2 A s c s1 HS Hwc HSm H1) as HS1.
    destruct (remove_spec c s HRI) as [(E & _)|(s'' & E & HRI' & HNV & _)]; rewrite E in H1; [discriminate|]. injection H1 as ->.
    apply (IH _ _ Q s1 b HS1 HRI' HNV (DA_remove A c s s1 HDA E) HD'); auto.
    + intros e He. apply HW. simpl. destruct He; auto.
    + intros l1 x l2 E' Hx Hl. apply (HN (CDel c :: l1) x l2); [rewrite E'; reflexivity|auto|auto].
Qed.

Lemma lemmas_in l c : In c (lemmas l) <-> In (CAdd c) l.
Proof.
  induction l as [|[x|x] r IH]; simpl; [tauto| |].
  - rewrite IH. split; (intros [H|H]; [left; congruence|auto]).
  - rewrite IH. split; [auto|intros [H|H]; [discriminate|auto]].
Qed.

Lemma rat_accepted n F ls Q : (forall c, In c F -> proper n c) ->
  (forall c, In (CAdd c) ls \/ In (CDel c) ls -> proper n c) ->
  (forall l, In [l] F -> ~ In [lneg l] F) ->
  strict_proof F F ls Q -> In (CAdd []) ls ->
  (forall l1 c l2, ls = l1 ++ CAdd c :: l2 -> 2 <= length c -> ~ In (CAdd []) l1 -> exists l, In l c /\ ~ In [lneg l] (F ++ lemmas l1)) ->
  check_proof n F ls = Ok true.
Proof.
  intros HF HL HN HD HE HR.
  assert (HFV : forall c l, In c F -> In l c -> lvar l < n) by (intros c l Hc; apply (HF c Hc)).
  destruct (check_defined n F ls) as (b & Hb); auto.
  - intros [c|c] l Hc Hl; simpl in Hl; apply (HL c); auto.
  - intros c [Hc|Hc]; [apply (HF c Hc)|apply (HL c); auto].
  - rewrite Hb. f_equal. unfold check_proof in Hb. apply bind_ok in Hb. destruct Hb as (s & H1 & H).
    assert (HW : Forall (wfc n) F) by (apply Forall_forall; intros c Hc; destruct (HF c Hc) as (W1 & W2 & _); split; auto).
    destruct (new_complete n F s HW HN H1) as [He|HS].
    + rewrite He in H. inversion H; auto.
    + rewrite (cs_e _ _ _ _ HS) in H. destruct (new_spec n F HFV) as [(e & E & _)|(s' & E & HRI & HNV & _)]; rewrite E in H1; [discriminate|]. injection H1 as ->.
      apply (rat_lines n ls F F Q s b HS HRI HNV); auto.
      * unfold chk_new in E. apply bind_ok in E. destruct E as (d & E1 & E). apply bind_ok in E. destruct E as (t & E2 & E). inversion E; subst s. cbn [k_d].
        unfold db_init in E1. apply (DA_create F []) in E1.
        -- apply (DA_incl (rev F ++ [])); auto. intros x Hx. rewrite app_nil_r in Hx. apply in_rev. auto.
        -- intros k Hk. exfalso. revert Hk. unfold db_grow. destruct (_ <? _); cbn; lia.
      * apply lemmas_in. auto.
      * intros c Hc. destruct (HL c Hc) as (W1 & W2 & _). split; auto.
      * intros l1 c l2 E' Hc Hn. destruct (HR l1 c l2 E' Hc) as (m & M1 & M2); [intros Hx; apply Hn; apply lemmas_in; auto|].
        exists m. split; [auto|]. rewrite in_app_iff in *. tauto.
Qed.
