(** Soundness, completeness, detaching and agreement with the other propagator (used by StaticProps). *)
Require Import List Arith Bool NArith Lia Permutation.
Require Import Verif.Base Verif.CNFModel Verif.CNFSpec Verif.CNFProofs Verif.HeapProofs Verif.Outcome Verif.TrailModel
  Verif.TrailProofs Verif.TrailLemmas Verif.DbModel Verif.PropModel Verif.PropProofs Verif.DbProofs Verif.PropSpec Verif.PropLemmas
  Verif.StaticModel Verif.StaticSpec Verif.StaticProofs Verif.StaticLemmas.
Import ListNotations.

Lemma spropagate_defined d s t : sreach d s t None -> exists k s' t', spropagate d s t = Ok (k, s', t').
Proof. intros H. destruct (sreach_propagate d s t H) as (k & s' & t' & E & _). eauto. Qed.

Lemma listed_len n d s c : DI n d -> SWt n d s -> listed d (svw s) c -> 2 <= length (clits d c).
Proof.
  intros HD HW (q & [Hc|Hc]).
  - apply in_vw_fst in Hc. destruct Hc as (i & Hi & <-).
    destruct (st_1 _ _ _ HW q i Hi) as (_ & _ & _ & _ & A & _). change (alits (arena d) (crf (smem s) i)) with (clits d (crf (smem s) i)) in A. lia.
  - apply in_map_iff in Hc. destruct Hc as ([c' o] & E & Hin). simpl in E. subst c'.
    destruct (di_bw0 n d HD q c o Hin) as (B1 & B2 & B3). lia.
Qed.

Lemma spropagate_new d s t k s' t' : sreach d s t None -> spropagate d s t = Ok (k, s', t') ->
  exists new, tr t' = tr t ++ new /\
    forall l, In l new -> exists c, reason t' (lvar l) = Some c /\ In c (cls d) /\ In l (clits d c) /\
      forall m, In m (clits d c) -> m <> l -> value t' m = Some false.
Proof.
  intros HP HE. destruct (sreach_propagate d s t HP) as (k1 & s1 & t1 & E & HR & HS).
  rewrite HE in E. inversion E; subst k1 s1 t1. clear E. pose proof (SSS_B _ _ _ _ HS) as HB.
  pose proof (TB_TI _ _ HB) as HT.
  destruct HR as (A1 & A2 & A3 & _).
  destruct (tx_tr _ _ A2) as (new & En & Hn). exists new. split; [exact En|]. intros l Hl.
  destruct (reason t' (lvar l)) as [c|] eqn:Er; [|exfalso; eapply Hn; eauto]. exists c. split; auto.
  assert (Hin : In l (tr t')) by (rewrite En; apply in_or_app; auto).
  destruct (sb_RD _ _ _ HB l c Hin Er) as [Hc _]. split; auto. apply In_nth_error in Hin. destruct Hin as (i & Hi).
  destruct (sp_TRe _ _ _ A1 i l c Hi Er) as [H1 H2]. split; auto. intros m Hm Hne. destruct (H2 m Hm Hne) as (j & _ & Ej).
  apply (ti_val_false t' m HT). eapply nth_error_In; eauto.
Qed.

Lemma spropagate_entailed d s t k s' t' : sreach d s t None -> spropagate d s t = Ok (k, s', t') ->
  forall l, In l (tr t') -> entails (db_formula d ++ units (tr t)) [l].
Proof.
  intros HP HE l Hl a Ha. apply sat_app in Ha. destruct Ha as [Ha Hu]. rewrite sat_units in Hu. apply sat_clause_unit.
  destruct (spropagate_new _ _ _ _ _ _ HP HE) as (new & En & Hnew).
  destruct (sreach_propagate d s t HP) as (k1 & s1 & t1 & E & HR & HS).
  rewrite HE in E. inversion E; subst k1 s1 t1. clear E. pose proof (SSS_B _ _ _ _ HS) as HB.
  apply In_nth_error in Hl. destruct Hl as (i & Hi).
  apply (trail_entailed a d t' (length (tr t)) (TB_TI _ _ HB) (TB_TRe _ _ HB)) with (i := i); auto.
  - intros j m Hj Hlen. rewrite En, nth_error_app2 in Hj by auto. apply nth_error_In in Hj.
    destruct (Hnew m Hj) as (c & C1 & C2 & _). exists c. split; auto. apply Ha. unfold db_formula. apply in_map; auto.
  - intros j m Hj Hlen. rewrite En, nth_error_app1 in Hj by auto. apply Hu. eapply nth_error_In; eauto.
Qed.

Lemma spropagate_conflict d s t c s' t' : sreach d s t None -> spropagate d s t = Ok (Some c, s', t') ->
  In c (cls d) /\ (forall m, In m (clits d c) -> value t' m = Some false) /\ unsat (db_formula d ++ units (tr t)).
Proof.
  intros HP HE. destruct (sreach_propagate d s t HP) as (k1 & s1 & t1 & E & HR & HS).
  rewrite HE in E. inversion E; subst k1 s1 t1. clear E. simpl in HS. split; [apply (sd_use _ _ _ _ HS)|]. split; [apply (sd_false _ _ _ _ HS)|].
  intros a Ha. pose proof (spropagate_entailed _ _ _ _ _ _ HP HE) as HEn.
  assert (Hd : sat a (db_formula d)) by (apply sat_app in Ha; apply Ha).
  destruct (Hd (clits d c)) as (m & Hm & Hh); [unfold db_formula; apply in_map, (sd_use _ _ _ _ HS)|].
  pose proof (sd_false _ _ _ _ HS m Hm) as Hf.
  apply (ti_val_false t' m (TB_TI _ _ (sd_B _ _ _ _ HS))) in Hf.
  specialize (HEn _ Hf a Ha). apply sat_clause_unit in HEn. apply lit_holds_neg in HEn. contradiction.
Qed.

(** ** Completeness *)
Definition bin0 (d : db) : Prop := forall c, In c (cls d) -> length (clits d c) = 2 -> cwt d c = 0%N.

Lemma create_bin0 ls lbd lem d c0 d' : createClause ls lbd lem d = Ok (c0, d') -> bin0 d ->
  (forall c, In c (cls d) -> c < length (arena d)) -> bin0 d' /\ (forall c, In c (cls d') -> c < length (arena d')).
Proof.
  intros E Hw Hl. pose proof (createClause_wt _ _ _ _ _ _ E) as Ea. destruct (createClause_created _ _ _ _ _ _ E) as (C1 & C2 & C3 & _).
  split; intros c Hc; rewrite C3 in Hc; apply in_app_or in Hc; destruct Hc as [Hc|[<-|[]]].
  - rewrite clits_alits, cwt_awt, Ea, alits_app, awt_app by auto. apply Hw; auto.
  - rewrite clits_alits, cwt_awt, Ea, C1, alits_new, awt_new. simpl. intros ->. reflexivity.
  - rewrite Ea, app_length. specialize (Hl c Hc). lia.
  - rewrite Ea, app_length, C1. simpl. lia.
Qed.
Lemma create_all_bin0 cs lem : forall d d', create_all cs lem d = Ok d' -> bin0 d ->
  (forall c, In c (cls d) -> c < length (arena d)) -> bin0 d'.
Proof.
  induction cs as [|ls r IH]; intros d0 d1 E Hw Hl; cbn [create_all] in E; [inversion E; subst; auto|].
  apply bind_ok in E. destruct E as ([c0 d2] & E1 & E2). destruct (create_bin0 _ _ _ _ _ _ E1 Hw Hl). eapply IH; eauto.
Qed.

Lemma sreach_bin d s t k : sreach d s t k -> bin0 d.
Proof.
  assert (HG : forall n d0, cls (db_grow n d0) = cls d0 /\ arena (db_grow n d0) = arena d0).
  { intros n d0. unfold db_grow. destruct (nv d0 <? n); auto. }
  intros HPR. induction HPR as [n cs d Hc Hi|d s t l b t' H IH Hd Hl Hf|d s t H IH Hq|d s t l t' H IH Hl Hv Hdc|d s t k s' t' H IH Hp
    |d s t k cs H IH Hcs|d s t k lev H IH Hl|d s t x r lbd c d' b t' H IH Hok Hv Hr Hy Hc Hp|d s t l lbd lem c d' H IH Hl Hc|d s t k cs H IH d'|d s t k n cs d' H IH Hok Hi]; auto.
  - unfold db_init in Hi. apply (create_all_bin0 _ _ _ _ Hi); destruct (HG n db_new) as [E1 E2]; red; rewrite E1; intros c [].
  - destruct (reestimate_fields t cs d) as (A1 & A2 & A3 & A4 & A5 & A6 & A7 & A8 & A9 & A10). intros c. rewrite A3, clits_alits, A9. auto.
  - pose proof (TB_DI _ _ (SSS_B _ _ _ _ (sreach_SSS _ _ _ _ H))) as HD.
    apply (create_bin0 _ _ _ _ _ _ Hc IH). intros c1 Hc1. apply (di_rng _ _ HD), (di_cls _ _ HD); auto.
  - pose proof (TB_DI _ _ (SSS_B _ _ _ _ (sreach_SSS _ _ _ _ H))) as HD.
    apply (create_bin0 _ _ _ _ _ _ Hc IH). intros c1 Hc1. apply (di_rng _ _ HD), (di_cls _ _ HD); auto.
  - pose proof (TB_DI _ _ (SSS_B _ _ _ _ (sreach_SSS _ _ _ _ H))) as HD. pose proof (fold_remove_DI _ cs d HD) as HD1.
    intros c Hc Hl. unfold d' in Hc, Hl |- *. apply reorganize_cls in Hc. destruct Hc as [Hc Hdel].
    destruct (di_small _ _ HD1 c Hc) as [E|E]; auto.
    + change (clits (reorganize (fold_left (fun d c => removeClause c d) cs d)) c) with (clits (fold_left (fun d c => removeClause c d) cs d) c) in Hl. lia.
    + unfold isDeleted in Hdel. rewrite E in Hdel. discriminate.
  - unfold db_init in Hi. pose proof (TB_DI _ _ (SSS_B _ _ _ _ (sreach_SSS _ _ _ _ H))) as HD.
    destruct (HG n d) as [E1 E2]. apply (create_all_bin0 _ _ _ _ Hi); red; rewrite E1; intros c Hc.
    + rewrite clits_alits, cwt_awt, E2. apply IH; auto.
    + rewrite E2. apply (di_rng _ _ HD), (di_cls _ _ HD); auto.
Qed.

Definition settled (d : db) (t : trail_t) : Prop := forall c, In c (cls d) -> 2 <= length (clits d c) ->
  (exists m, In m (clits d c) /\ value t m = Some true) \/
  (exists m1 m2, In m1 (clits d c) /\ In m2 (clits d c) /\ m1 <> m2 /\ value t m1 = None /\ value t m2 = None).

Lemma sDone_settled d s t : TB d t -> SWt (nvt t) d s -> Done d (svw s) t (length (tr t)) -> bin0 d -> settled d t.
Proof.
  intros HB HW HDn H2 c Hc Hl. pose proof (TB_TI _ _ HB) as HT. pose proof (TB_DI _ _ HB) as HD.
  pose proof (proj1 (di_WFA _ _ HD c)) as Hnd. change (alits (arena d) c) with (clits d c) in Hnd.
  assert (Hpos : forall m, value t m = Some false -> exists i, i < length (tr t) /\ nth_error (tr t) i = Some (lneg m)).
  { intros m Hm. apply (ti_val_false t m HT) in Hm. apply In_nth_error in Hm. destruct Hm as (i & Hi). exists i. split; auto. eapply nth_error_lt; eauto. }
  destruct (Nat.eq_dec (length (clits d c)) 2) as [E2|E2].
  - assert (Hx : forall x, In x (clits d c) -> value t x = Some false -> exists m, In m (clits d c) /\ value t m = Some true).
    { intros x Hin Hv. destruct (Hpos x Hv) as (i & Hi & Ei). destruct (HDn i _ Hi Ei) as [_ D2].
      destruct (di_cov2 _ _ HD c x Hc (H2 c Hc E2) E2 Hin) as (o & Ho). destruct (D2 c o Ho) as [V _]. exists o. split; auto.
      apply (di_BW _ _ HD (lneg x) c o Ho o). auto. }
    destruct (clits d c) as [|x [|y [|]]]; try discriminate.
    destruct (value t x) as [[|]|] eqn:Vx; [left; exists x; simpl; auto|left; apply (Hx x); simpl; auto|].
    destruct (value t y) as [[|]|] eqn:Vy; [left; exists y; simpl; auto|left; apply (Hx y); simpl; auto|].
    right. exists x, y. simpl. split; auto. split; auto. split; auto. intros ->. simpl in Hnd. inversion Hnd as [|? ? Hn _]. apply Hn. simpl; auto.
  - destruct (st_C _ _ _ HW c Hc) as (i & Hi & Ec & Wx & Wy); [lia|].
    destruct (st_1 _ _ _ HW _ _ Wx) as (_ & W0 & W1 & W2' & _). rewrite Ec in *. change (alits (arena d) c) with (clits d c) in *.
    set (x := watch0 (wat (smem s) i)) in *. set (y := watch1 (wat (smem s) i)) in *.
    assert (Hx : forall x, In i (sl (slists s) (lneg x)) -> value t x = Some false -> exists m, In m (clits d c) /\ value t m = Some true).
    { intros u Hin Hv. destruct (Hpos u Hv) as (j & Hj & Ej). destruct (HDn j _ Hj Ej) as [D1 _].
      destruct (D1 c 0) as (m & M1 & M2 & _); [apply in_vw; eauto|]. exists m. auto. }
    destruct (value t x) as [[|]|] eqn:Vx; [left; exists x; auto|left; apply (Hx x); auto|].
    destruct (value t y) as [[|]|] eqn:Vy; [left; exists y; auto|left; apply (Hx y); auto|].
    right. exists x, y. auto.
Qed.

Lemma spropagate_complete d s t s' t' : sreach d s t None -> spropagate d s t = Ok (None, s', t') -> settled d t'.
Proof.
  intros HP HE. pose proof (sreach_bin _ _ _ _ HP) as HB.
  destruct (sreach_propagate d s t HP) as (k1 & s1 & t1 & E & HR & HS).
  rewrite HE in E. inversion E; subst k1 s1 t1. clear E. simpl in HS.
  destruct HR as (A1 & A2 & A3 & A4 & A5 & A6 & A7 & A8 & A9 & A10). destruct (A10 eq_refl) as [Eq _].
  apply (sDone_settled d s' t'); auto; try apply HS. rewrite <- Eq. apply HS.
Qed.

(** ** Where a clause is watched *)
Lemma filter_single {A} (f : A -> bool) i l : NoDup l -> In i l -> (forall j, In j l -> f j = true <-> j = i) -> filter f l = [i].
Proof.
  induction l as [|x r IH]; intros Hnd Hin Hf; [destruct Hin|]. inversion Hnd as [|? ? Hn Hr]; subst. simpl.
  assert (Hnil : ~ In i r -> filter f r = []).
  { intros Hi. assert (HA : forall j, In j r -> f j = false).
    { intros j Hj. destruct (f j) eqn:E; auto. exfalso. apply Hi. destruct (Hf j) as [H1 _]; [simpl; auto|]. rewrite <- (H1 E); auto. }
    clear -HA. induction r as [|y r IH]; auto. simpl. rewrite HA by (simpl; auto). apply IH. intros; apply HA; simpl; auto. }
  destruct (f x) eqn:E.
  - assert (x = i) by (apply Hf; simpl; auto). subst. rewrite Hnil; auto.
  - destruct Hin as [->|Hin]; [exfalso; destruct (Hf i) as [_ H]; [simpl; auto|]; rewrite H in E; [discriminate|auto]|].
    apply IH; auto. intros j Hj. apply Hf; simpl; auto.
Qed.
Lemma filter_nil {A} (f : A -> bool) l : (forall j, In j l -> f j = false) -> filter f l = [].
Proof. induction l as [|x r IH]; intros H; auto. simpl. rewrite H by (simpl; auto). apply IH. intros; apply H; simpl; auto. Qed.

Lemma sreach_watched d s t k c : sreach d s t k -> In c (cls d) -> 3 <= length (clits d c) ->
  exists i x y, x <> y /\ In x (clits d c) /\ In y (clits d c) /\
    forall q, watches_of s c q = if (q =? lneg x) || (q =? lneg y) then [i] else [].
Proof.
  intros HP Hc Hl. pose proof (SSS_W _ _ _ _ (sreach_SSS _ _ _ _ HP)) as HW.
  destruct (st_C _ _ _ HW c Hc Hl) as (i & Hi & Ec & Wx & Wy).
  destruct (st_1 _ _ _ HW _ _ Wx) as (_ & W0 & W1 & W2' & _). rewrite Ec in *. change (alits (arena d) c) with (clits d c) in *.
  exists i, (watch0 (wat (smem s) i)), (watch1 (wat (smem s) i)). split; auto. split; auto. split; auto. intros q.
  assert (Heq : forall q' j, In j (sl (slists s) q') -> (cref (wat (smem s) j) =? c) = true <-> j = i).
  { intros q' j Hj. rewrite Nat.eqb_eq. split; [|intros ->; exact Ec]. intros E. eapply (st_U _ _ _ HW); eauto. fold (crf (smem s) j) in E. congruence. }
  unfold watches_of. change (nth q (slists s) []) with (sl (slists s) q).
  destruct (Nat.eqb_spec q (lneg (watch0 (wat (smem s) i)))) as [->|N0]; simpl.
  - apply filter_single; auto; [apply (st_2 _ _ _ HW)|intros j; apply Heq].
  - destruct (Nat.eqb_spec q (lneg (watch1 (wat (smem s) i)))) as [->|N1]; simpl.
    + apply filter_single; auto; [apply (st_2 _ _ _ HW)|intros j; apply Heq].
    + apply filter_nil. intros j Hj. destruct (cref (wat (smem s) j) =? c) eqn:E; auto. exfalso.
      apply (Heq q j Hj) in E. subst j. destruct (st_1 _ _ _ HW q i Hj) as (_ & _ & _ & _ & _ & [A|A]).
      * apply N0. rewrite A. symmetry. apply lneg_invol.
      * apply N1. rewrite A. symmetry. apply lneg_invol.
Qed.

(** ** Detaching *)
Lemma filter_at_sl p f (w : list (list nat)) q : sl (filter_at p f w) q = if q =? p then filter f (sl w q) else sl w q.
Proof.
  unfold filter_at, sl. destruct (Nat.eqb_spec q p) as [->|Hn]; [|apply nth_set_nth_other; auto].
  destruct (Nat.lt_ge_cases p (length w)) as [Hl|Hl]; [apply nth_set_nth_same; auto|].
  rewrite !nth_overflow; auto. rewrite set_nth_length; auto.
Qed.
Lemma filter_all {A} (f : A -> bool) l : (forall j, In j l -> f j = true) -> filter f l = l.
Proof. induction l as [|x r IH]; intros H; auto. simpl. rewrite H by (simpl; auto). f_equal. apply IH. intros; apply H; simpl; auto. Qed.
Lemma filter_filter_same {A} (f : A -> bool) l : filter f (filter f l) = filter f l.
Proof. apply filter_all. intros j Hj. apply filter_In in Hj. apply Hj. Qed.

Lemma sdetach_loop_spec n d s c ls : SWt n d s ->
  (forall q i, In i (sl (slists s) q) -> crf (smem s) i = c -> In (lneg q) ls) ->
  smem (sdetach_loop c ls s) = smem s /\
  forall q, sl (slists (sdetach_loop c ls s)) q = filter (fun i => negb (cref (wat (smem s) i) =? c)) (sl (slists s) q).
Proof.
  intros HW. induction ls as [|l r IH]; intros Hc; cbn [sdetach_loop].
  - split; auto. intros q. symmetry. apply filter_all. intros j Hj. apply negb_true_iff, Nat.eqb_neq. intros E. apply (Hc q j Hj E).
  - destruct (find (fun i => cref (wat (smem s) i) =? c) (nth (lneg l) (slists s) [])) as [i|] eqn:EF.
    + apply find_some in EF. destruct EF as [Hi E]. apply Nat.eqb_eq in E. change (nth (lneg l) (slists s) []) with (sl (slists s) (lneg l)) in Hi.
      cbn [smem slists]. split; auto. intros q.
      assert (Hext : forall q, filter (fun j => negb (j =? i)) (sl (slists s) q) = filter (fun i => negb (cref (wat (smem s) i) =? c)) (sl (slists s) q)).
      { intros q0. apply filter_ext_in. intros j Hj. f_equal. destruct (Nat.eqb_spec j i) as [->|Hn].
        - symmetry. apply Nat.eqb_eq. exact E.
        - symmetry. apply Nat.eqb_neq. intros E'. apply Hn. eapply (st_U _ _ _ HW); eauto. unfold crf. congruence. }
      rewrite !filter_at_sl. rewrite <- Hext.
      destruct (Nat.eqb_spec q (lneg (watch1 (wat (smem s) i)))) as [E1|N1];
      destruct (Nat.eqb_spec q (lneg (watch0 (wat (smem s) i)))) as [E0|N0]; auto.
      * apply filter_filter_same.
      * symmetry. apply filter_all. intros j Hj. apply negb_true_iff, Nat.eqb_neq. intros ->.
        destruct (st_1 _ _ _ HW q i Hj) as (_ & _ & _ & _ & _ & [A|A]).
        -- apply N0. rewrite A. symmetry. apply lneg_invol.
        -- apply N1. rewrite A. symmetry. apply lneg_invol.
    + apply IH. intros q i Hi E. destruct (Hc q i Hi E) as [Eq|]; auto. exfalso.
      pose proof (find_none _ _ EF i) as Hf. assert (In i (nth (lneg l) (slists s) [])) by (rewrite Eq, lneg_invol; exact Hi).
      specialize (Hf H). apply Nat.eqb_neq in Hf. apply Hf. exact E.
Qed.

Lemma sdetach_spec d s t k c : sreach d s t k ->
  smem (sdetach d c s) = smem s /\
  forall q, nth q (slists (sdetach d c s)) [] = filter (fun i => negb (cref (wat (smem s) i) =? c)) (nth q (slists s) []).
Proof.
  intros HP. pose proof (SSS_W _ _ _ _ (sreach_SSS _ _ _ _ HP)) as HW.
  apply (sdetach_loop_spec _ d s c (clits d c) HW). intros q i Hi E.
  destruct (st_1 _ _ _ HW q i Hi) as (_ & _ & A & B & _ & C). rewrite E in *. destruct C as [C|C]; rewrite <- C; auto.
Qed.

(** ** Agreement of the two propagators *)
(** a trail whose new literals are propagated from [d] is part of every settled trail *)
Lemma settled_contains d a' t1 t2 base : TI t1 -> TI t2 -> settled d t2 -> TRe a' t1 ->
  (forall c m, In m (alits a' c) <-> In m (clits d c)) ->
  (exists new, tr t1 = base ++ new /\ forall l, In l new -> exists c, reason t1 (lvar l) = Some c /\ In c (cls d) /\ 2 <= length (clits d c)) ->
  (forall l, In l base -> In l (tr t2)) -> forall l, In l (tr t1) -> In l (tr t2).
Proof.
  intros HT1 HT2 HS HR HA (new & En & Hn) HB.
  assert (HI : forall i l, nth_error (tr t1) i = Some l -> In l (tr t2)).
  { induction i as [i IH] using lt_wf_ind. intros l Hl. destruct (Nat.lt_ge_cases i (length base)) as [Hi|Hi].
    - apply HB. rewrite En, nth_error_app1 in Hl by auto. eapply nth_error_In; eauto.
    - pose proof Hl as Hl'. rewrite En, nth_error_app2 in Hl' by auto. apply nth_error_In in Hl'.
      destruct (Hn l Hl') as (c & C1 & C2 & C3). destruct (HR i l c Hl C1) as [R1 R2].
      assert (Hfalse : forall m, In m (clits d c) -> m <> l -> value t2 m = Some false).
      { intros m Hm Hne. apply HA in Hm. destruct (R2 m Hm Hne) as (j & Hj & Ej). apply (ti_val_false t2 m HT2). eapply IH; eauto. }
      destruct (HS c C2 C3) as [(m & M1 & M2)|(m1 & m2 & M1 & M2 & M3 & M4 & M5)].
      + destruct (Nat.eq_dec m l) as [->|Hne]; [apply (ti_val t2 HT2); auto|]. rewrite (Hfalse m M1 Hne) in M2. discriminate.
      + exfalso. destruct (Nat.eq_dec m1 l) as [->|Hne].
        * rewrite (Hfalse m2 M2) in M5; [discriminate|congruence].
        * rewrite (Hfalse m1 M1 Hne) in M4. discriminate. }
  intros l Hl. apply In_nth_error in Hl. destruct Hl as (i & Hi). eauto.
Qed.

Definition same_lits (d d' : db) : Prop := cls d' = cls d /\ forall c, Permutation (clits d c) (clits d' c).
Lemma settled_perm d d' t : same_lits d d' -> settled d' t -> settled d t.
Proof.
  intros [E HP] H c Hc Hl. assert (HI : forall m, In m (clits d' c) -> In m (clits d c)) by (intros m; apply Permutation_in, Permutation_sym, HP).
  destruct (H c) as [(m & M1 & M2)|(m1 & m2 & M1 & M2 & M3)]; [congruence|rewrite <- (Permutation_length (HP c)); auto|left|right].
  - exists m. auto.
  - exists m1, m2. auto.
Qed.

Section Agree.
Variables (d : db) (w : watches) (s : sprop) (t : trail_t) (k : option cid) (d' : db) (w' : watches) (t1 : trail_t)
  (ks : option cid) (s' : sprop) (t2 : trail_t).
Hypothesis HP : preach d w t None.
Hypothesis HS : sreach d s t None.
Hypothesis EP : propagate d w t = Ok (k, d', w', t1).
Hypothesis ES : spropagate d s t = Ok (ks, s', t2).

Lemma ag_p : prop_result d w t k d' w' t1 /\ SState d' w' t1 k.
Proof. destruct (preach_propagate d w t HP) as (? & ? & ? & ? & E & H). rewrite EP in E. inversion E; subst. exact H. Qed.
Lemma ag_s : sprop_result d s t ks s' t2 /\ SSS d s' t2 ks.
Proof. destruct (sreach_propagate d s t HS) as (? & ? & ? & E & H). rewrite ES in E. inversion E; subst. exact H. Qed.
Lemma ag_same : same_lits d d'.
Proof. destruct (propagate_new _ _ _ _ _ _ _ HP EP) as (E1 & E2 & _). split; auto. Qed.
Lemma ag_lits c m : In m (alits (arena d') c) <-> In m (clits d c).
Proof. destruct ag_same as [_ H]. change (alits (arena d') c) with (clits d' c). split; apply Permutation_in; [apply Permutation_sym|]; apply H. Qed.

Lemma ag_plen c : listed d w c -> 2 <= length (clits d c).
Proof.
  pose proof (SState_B _ _ _ _ (preach_SState _ _ _ _ HP)) as HB. intros (q & [Hc|Hc]).
  - apply in_map_iff in Hc. destruct Hc as ([c' b] & E & Hin). simpl in E. subst c'.
    destruct (pi_W1 _ _ _ (sb_P _ _ _ HB) q c b Hin) as (_ & x & y & z & r & El & _). change (alits (arena d) c) with (clits d c) in El.
    rewrite El. simpl. lia.
  - apply in_map_iff in Hc. destruct Hc as ([c' o] & E & Hin). simpl in E. subst c'.
    destruct (di_bw0 _ d (sb_D _ _ _ HB) q c o Hin) as (B1 & B2 & B3). lia.
Qed.
Lemma ag_slen c : listed d (svw s) c -> 2 <= length (clits d c).
Proof.
  pose proof (sreach_SSS _ _ _ _ HS) as H. apply (listed_len (nvt t)); [apply (TB_DI _ _ (SSS_B _ _ _ _ H))|apply (SSS_W _ _ _ _ H)].
Qed.

Lemma ag_pnew : TI t1 /\ TRe (arena d') t1 /\ (forall l, In l (tr t) -> In l (tr t1)) /\ exists new, tr t1 = tr t ++ new /\
  forall l, In l new -> exists c, reason t1 (lvar l) = Some c /\ In c (cls d) /\ 2 <= length (clits d c).
Proof.
  destruct ag_p as [(A1 & A2 & A3 & A4 & A5 & A6 & A7 & A8 & A9 & _) HSt].
  split; [apply A1|]. split; [apply A1|]. destruct (tx_tr _ _ A2) as (new & En & Hn). change (tr (with_qh (qh t1) t)) with (tr t) in En.
  split; [intros l Hl; rewrite En; apply in_or_app; auto|]. exists new. split; auto. intros l Hl.
  destruct (reason t1 (lvar l)) as [c|] eqn:Er; [|exfalso; eapply Hn; eauto]. exists c. split; auto.
  assert (Hin : In l (tr t1)) by (rewrite En; apply in_or_app; auto).
  assert (Hnin : ~ In l (tr t)).
  { intros Hi. pose proof (ti_nodup t1 (pi_TI _ _ _ A1)) as Hnd. rewrite En, map_app in Hnd.
    apply (in_map lvar) in Hi. apply (in_map lvar) in Hl. clear -Hnd Hi Hl. induction (map lvar (tr t)) as [|x r IH]; simpl in *; [contradiction|].
    inversion Hnd as [|? ? Hx Hr]; subst. destruct Hi as [->|Hi]; auto. apply Hx. apply in_or_app; auto. }
  destruct (A9 l c Hin Er) as [[H1 _]|H1]; [contradiction|]. split; [|apply ag_plen; auto].
  pose proof (sb_RD _ _ _ (SState_B _ _ _ _ HSt) l c Hin Er) as [Hc _]. destruct ag_same as [E _]. rewrite <- E. auto.
Qed.
Lemma ag_snew : TI t2 /\ TRe (arena d) t2 /\ (forall l, In l (tr t) -> In l (tr t2)) /\ exists new, tr t2 = tr t ++ new /\
  forall l, In l new -> exists c, reason t2 (lvar l) = Some c /\ In c (cls d) /\ 2 <= length (clits d c).
Proof.
  destruct ag_s as [(A1 & A2 & A3 & A4 & A5 & A6 & A7 & A8 & _) HSt].
  split; [apply A1|]. split; [apply A1|]. destruct (tx_tr _ _ A2) as (new & En & Hn). change (tr (with_qh (qh t2) t)) with (tr t) in En.
  split; [intros l Hl; rewrite En; apply in_or_app; auto|]. exists new. split; auto. intros l Hl.
  destruct (reason t2 (lvar l)) as [c|] eqn:Er; [|exfalso; eapply Hn; eauto]. exists c. split; auto.
  assert (Hin : In l (tr t2)) by (rewrite En; apply in_or_app; auto).
  assert (Hnin : ~ In l (tr t)).
  { intros Hi. pose proof (ti_nodup t2 (sp_TI _ _ _ A1)) as Hnd. rewrite En, map_app in Hnd.
    apply (in_map lvar) in Hi. apply (in_map lvar) in Hl. clear -Hnd Hi Hl. induction (map lvar (tr t)) as [|x r IH]; simpl in *; [contradiction|].
    inversion Hnd as [|? ? Hx Hr]; subst. destruct Hi as [->|Hi]; auto. apply Hx. apply in_or_app; auto. }
  destruct (A8 l c Hin Er) as [[H1 _]|H1]; [contradiction|]. split; [|apply ag_slen; auto].
  apply (sb_RD _ _ _ (SSS_B _ _ _ _ HSt) l c Hin Er).
Qed.

Lemma ag_pset : k = None -> settled d t1.
Proof.
  intros E. pose proof EP as EP'. rewrite E in EP'. apply (settled_perm d d'); [apply ag_same|]. intros c. apply (propagate_complete _ _ _ _ _ _ HP EP').
Qed.
Lemma ag_sset : ks = None -> settled d t2.
Proof. intros E. pose proof ES as ES'. rewrite E in ES'. apply (spropagate_complete _ _ _ _ _ HS ES'). Qed.
Lemma ag_sub_sp : k = None -> forall l, In l (tr t2) -> In l (tr t1).
Proof.
  intros E. destruct ag_pnew as (P1 & P2 & P3 & _). destruct ag_snew as (S1 & S2 & S3 & S4).
  apply (settled_contains d (arena d) t2 t1 (tr t)); auto; [apply ag_pset; auto|intros; reflexivity].
Qed.
Lemma ag_sub_ps : ks = None -> forall l, In l (tr t1) -> In l (tr t2).
Proof.
  intros E. destruct ag_pnew as (P1 & P2 & P3 & P4). destruct ag_snew as (S1 & S2 & S3 & _).
  apply (settled_contains d (arena d') t1 t2 (tr t)); auto; [apply ag_sset; auto|apply ag_lits].
Qed.

Lemma none_or (x : option cid) : x = None \/ exists c, x = Some c.
Proof. destruct x; eauto. Qed.

Lemma agree_none : k = None <-> ks = None.
Proof.
  destruct ag_pnew as (P1 & _). destruct ag_snew as (S1 & _).
  split; intros E.
  - destruct (none_or ks) as [|(c & Ek)]; auto. exfalso. pose proof (ag_sub_sp E) as Hsub.
    destruct ag_s as [(_ & _ & _ & _ & _ & _ & _ & _ & A9 & _) HSt]. destruct (A9 c Ek) as (F & L & _).
    rewrite Ek in HSt. simpl in HSt. pose proof (sd_use _ _ _ _ HSt) as [Hc _].
    assert (HF : forall m, In m (clits d c) -> value t1 m = Some false).
    { intros m Hm. apply (ti_val_false t1 m P1). apply Hsub. apply (ti_val_false t2 m S1). auto. }
    destruct (ag_pset E c Hc (ag_slen c L)) as [(m & M1 & M2)|(m1 & m2 & M1 & M2 & M3 & M4 & M5)].
    + rewrite (HF m M1) in M2. discriminate.
    + rewrite (HF m1 M1) in M4. discriminate.
  - destruct (none_or k) as [|(c & Ek)]; auto. exfalso. pose proof (ag_sub_ps E) as Hsub.
    destruct ag_p as [(_ & _ & _ & _ & _ & _ & _ & _ & _ & A9 & _) HSt]. destruct (A9 c Ek) as (F & L & _).
    rewrite Ek in HSt. simpl in HSt. pose proof (sc_use _ _ _ _ HSt) as [Hc _]. rewrite (proj1 ag_same) in Hc.
    assert (HF : forall m, In m (clits d c) -> value t2 m = Some false).
    { intros m Hm. apply (ti_val_false t2 m S1). apply Hsub. apply (ti_val_false t1 m P1). apply F. apply ag_lits. auto. }
    destruct (ag_sset E c Hc (ag_plen c L)) as [(m & M1 & M2)|(m1 & m2 & M1 & M2 & M3 & M4 & M5)].
    + rewrite (HF m M1) in M2. discriminate.
    + rewrite (HF m1 M1) in M4. discriminate.
Qed.
End Agree.

Lemma propagators_agree d w s t k d' w' t1 ks s' t2 : preach d w t None -> sreach d s t None ->
  propagate d w t = Ok (k, d', w', t1) -> spropagate d s t = Ok (ks, s', t2) ->
  (k = None <-> ks = None) /\ (k = None -> forall l, value t1 l = value t2 l).
Proof.
  intros HP HS EP ES. pose proof (agree_none d w s t k d' w' t1 ks s' t2 HP HS EP ES) as HN. split; [exact HN|].
  intros Hk. pose proof (proj1 HN Hk) as Hks. 
  pose proof (ag_sub_sp d w s t k d' w' t1 ks s' t2 HP HS EP ES Hk) as S1.
  pose proof (ag_sub_ps d w s t k d' w' t1 ks s' t2 HP HS EP ES Hks) as S2.
  destruct (ag_pnew d w t k d' w' t1 HP EP) as (T1 & _). destruct (ag_snew d s t ks s' t2 HS ES) as (T2 & _).
  intros l. destruct (value t1 l) as [[|]|] eqn:V1; destruct (value t2 l) as [[|]|] eqn:V2; auto; exfalso.
  all: try (apply (ti_val t1 T1) in V1; apply S2 in V1; apply (ti_val t2 T2) in V1; congruence).
  all: try (apply (ti_val_false t1 l T1) in V1; apply S2 in V1; apply (ti_val_false t2 l T2) in V1; congruence).
  all: try (apply (ti_val t2 T2) in V2; apply S1 in V2; apply (ti_val t1 T1) in V2; congruence).
  all: try (apply (ti_val_false t2 l T2) in V2; apply S1 in V2; apply (ti_val_false t1 l T1) in V2; congruence).
Qed.
