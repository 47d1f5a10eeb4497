(** Every step of [preach] keeps the solver invariant; consequences for C14 and C15. *)
Require Import List Arith Bool NArith Lia Permutation.
Require Import Verif.Base Verif.CNFModel Verif.CNFSpec Verif.CNFProofs Verif.HeapProofs Verif.Outcome Verif.TrailModel
  Verif.TrailProofs Verif.TrailLemmas Verif.DbModel Verif.PropModel Verif.PropProofs Verif.DbProofs Verif.PropSpec.
Import ListNotations.

(** reasons are clauses of the vector that propagation may use *)
Definition usable (d : db) (c : cid) : Prop := In c (cls d) /\ (3 <= length (clits d c) \/ cwt d c = 0%N).
Definition RD (d : db) (t : trail_t) : Prop := forall l c, In l (tr t) -> reason t (lvar l) = Some c -> usable d c.

Record SBase (d : db) (w : watches) (t : trail_t) : Prop := {
  sb_P : PInv d w t;
  sb_D : DI (nvt t) d;
  sb_WI : WI d w;
  sb_C3 : Cov3 d w;
  sb_RD : RD d t }.
(** [Q] says whether everything before the head of the propagation queue was propagated *)
Section Strength.
Context {Q : Prop}.
Record SInvQ (d : db) (w : watches) (t : trail_t) : Prop := {
  si_B : SBase d w t;
  si_L : LimQ t;
  si_Done : Q -> Done d w t (qh t) }.
Record SConfQ (d : db) (w : watches) (t : trail_t) (c : cid) : Prop := {
  sc_B : SBase d w t;
  sc_false : forall m, In m (clits d c) -> value t m = Some false;
  sc_use : usable d c;
  sc_lev : exists m, In m (clits d c) /\ level t (lvar m) = dlevel t;
  sc_L : forall x, In x (lim t) -> x <= pred (qh t);
  sc_Done : Q -> Done d w t (pred (qh t)) }.
Local Notation SInv := SInvQ.
Local Notation SConf := SConfQ.
Definition SStateQ d w t (k : option cid) : Prop :=
  match k with None => SInv d w t | Some c => SConf d w t c end.
Local Notation SState := SStateQ.

Lemma SState_B d w t k : SState d w t k -> SBase d w t.
Proof. destruct k; simpl; intros []; auto. Qed.

Lemma usable_eq d d' c : cls d' = cls d -> length (clits d' c) = length (clits d c) ->
  (cwt d c = 0%N -> cwt d' c = 0%N) -> usable d c -> usable d' c.
Proof. intros E1 E2 E3 [H1 [H2|H2]]; split; rewrite ?E1, ?E2; auto. Qed.

(** ** Starting on an empty trail *)
Lemma SInv_start d t : DI (nvt t) d -> TI t -> tr t = [] -> lim t = [] -> (forall v, reason t v = None) ->
  SInv d (prop_reset d) t.
Proof.
  intros HD HT E1 E2 ER. destruct (prop_reset_spec _ d HD) as (A1 & A2 & A3 & A4 & A5).
  constructor; [constructor; auto|..].
  - constructor; auto; try apply HD. intros i l c Hi. rewrite E1 in Hi. destruct i; discriminate.
  - intros v c _ Hr. rewrite ER in Hr. discriminate.
  - intros k Hk. rewrite E2 in Hk. destruct Hk.
  - intros _ i q _ Hq. rewrite E1 in Hq. destruct i; discriminate.
Qed.

Lemma reason_reset t v : reason (trail_reset t) v = None.
Proof.
  unfold reason, trail_reset; cbn [vd].
  destruct (Nat.lt_ge_cases v (length (vd t))) as [H|H].
  - change (@None cid, 0) with ((fun _ : option cid * nat => (@None cid, 0)) (None, 0)). rewrite map_nth. reflexivity.
  - rewrite nth_overflow by (rewrite map_length; auto). reflexivity.
Qed.

Lemma SInv_reset d t : DI (nvt t) d -> TI t -> SInv d (prop_reset d) (trail_reset t).
Proof.
  intros HD HT. apply SInv_start; auto.
  - apply TI_reset; apply HT.
  - apply reason_reset.
Qed.

(** ** Growing the trail *)
Lemma Sat4_push a w t l r q : TI t -> value t l = None -> lvar l < nvt t -> In q (tr t) -> Sat4 a w t q -> Sat4 a w (tpush l r t) q.
Proof.
  intros HT Hv Hl Hq HS c b Hin. destruct (HS c b Hin) as (m & M1 & M2 & M3). exists m. split; auto.
  assert (Ha : lvar l < length (asg t)) by (rewrite (ti_asg t HT); auto).
  assert (Hd : lvar l < length (vd t)) by (rewrite (ti_vd t HT); auto).
  split; [apply value_push_other; auto|]. rewrite !level_push by auto.
  assert (Hne : forall x, In x (tr t) -> lvar x <> lvar l).
  { intros x Hx E. apply (value_none_notin t l HT Hv). rewrite <- E. apply in_map; auto. }
  pose proof (Hne q Hq) as N1. pose proof (Hne m (proj1 (ti_val t HT m) M2)) as N2.
  apply Nat.eqb_neq in N1. apply Nat.eqb_neq in N2. rewrite N1, N2. auto.
Qed.
Lemma SatB_push b t l r q : TI t -> value t l = None -> lvar l < nvt t -> In q (tr t) -> SatB b t q -> SatB b (tpush l r t) q.
Proof.
  intros HT Hv Hl Hq HS c o Hin. destruct (HS c o Hin) as (M2 & M3).
  assert (Ha : lvar l < length (asg t)) by (rewrite (ti_asg t HT); auto).
  assert (Hd : lvar l < length (vd t)) by (rewrite (ti_vd t HT); auto).
  split; [apply value_push_other; auto|]. rewrite !level_push by auto.
  assert (Hne : forall x, In x (tr t) -> lvar x <> lvar l).
  { intros x Hx E. apply (value_none_notin t l HT Hv). rewrite <- E. apply in_map; auto. }
  pose proof (Hne q Hq) as N1. pose proof (Hne o (proj1 (ti_val t HT o) M2)) as N2.
  apply Nat.eqb_neq in N1. apply Nat.eqb_neq in N2. rewrite N1, N2. auto.
Qed.
Lemma Done_push d w t l r n : TI t -> value t l = None -> lvar l < nvt t -> n <= length (tr t) ->
  Done d w t n -> Done d w (tpush l r t) n.
Proof.
  intros HT Hv Hl Hn HD i q Hi Hq. cbn [tpush tr] in Hq. rewrite nth_error_app1 in Hq by lia.
  destruct (HD i q Hi Hq) as [D1 D2]. pose proof (nth_error_In _ _ Hq) as Hin.
  split; [apply Sat4_push; auto|apply SatB_push; auto].
Qed.

Lemma PInv_push_none d w t l : PInv d w t -> value t l = None -> lvar l < nvt t -> PInv d w (tpush l None t).
Proof.
  intros H Hv Hl. constructor; try solve [apply H].
  - apply TI_push; auto. apply H.
  - intros i m c Hi Hr. rewrite reason_push in Hr by (rewrite (ti_vd t (pi_TI _ _ _ H)); auto).
    destruct (Nat.eqb_spec (lvar m) (lvar l)); [discriminate|]. cbn [tpush tr] in *. apply nth_error_snoc in Hi.
    destruct Hi as [Hi|[_ ->]]; [|contradiction]. destruct (pi_TRe _ _ _ H i m c Hi Hr) as [H1 H2]. split; auto.
    intros x Hx Hn. destruct (H2 x Hx Hn) as (j & Hj & Ej). exists j. split; auto. apply nth_error_snoc; auto.
Qed.
Lemma RD_push d t l r : TI t -> lvar l < nvt t -> (forall c, r = Some c -> usable d c) -> RD d t -> RD d (tpush l r t).
Proof.
  intros HT Hl Hr H m c Hm. rewrite reason_push by (rewrite (ti_vd t HT); auto). cbn [tpush tr] in Hm. apply in_app_or in Hm.
  destruct (Nat.eqb_spec (lvar m) (lvar l)) as [E|E]; [apply Hr|]. destruct Hm as [Hm|[<-|[]]]; [apply H; auto|contradiction].
Qed.
Lemma SInv_push_none d w t l : SInv d w t -> value t l = None -> lvar l < nvt t -> SInv d w (tpush l None t).
Proof.
  intros [[HP HD HW HC HR] HL HDn] Hv Hl. pose proof (pi_TI _ _ _ HP) as HT.
  constructor; [constructor; auto|..]; auto.
  - apply PInv_push_none; auto.
  - apply RD_push; auto. discriminate.
  - intros HQ. apply Done_push; auto. apply (ti_qh t HT).
Qed.

Lemma SInv_decide d w t l : SInv d w t -> value t l = None -> lvar l < nvt t ->
  exists t', decide l t = Ok t' /\ SInv d w t'.
Proof.
  intros H Hv Hl. exists (tpush l None t). split; [|apply SInv_push_none; auto].
  apply decide_push. eapply TI_room; eauto. apply H.
Qed.

Lemma TRe_set_vd a t l : TI t -> lvar l < nvt t -> TRe a t -> TRe a (set_vd (lvar l) (None, 0) t).
Proof.
  intros HT Hl H i m c Hi Hr. cbn [set_vd tr] in *. apply (H i m c Hi).
  unfold reason in *. cbn [set_vd vd] in Hr. rewrite nth_set_nth in Hr.
  destruct ((lvar m =? lvar l) && (lvar l <? length (vd t))); [discriminate|auto].
Qed.

Lemma PInv_fact d w t l : PInv d w t -> dlevel t = 0 -> lvar l < nvt t ->
  exists b t', fact l t = Ok (b, t') /\ PInv d w t' /\ dlevel t' = 0 /\ lim t' = lim t /\ nvt t' = nvt t /\
    (b = true -> value t' l = Some true) /\ (b = false -> value t l = Some false /\ t' = t) /\
    (tr t' = tr t \/ (tr t' = tr t ++ [l] /\ value t l = None)) /\ qh t' = qh t /\ dec t' = dec t /\ assum t' = assum t /\
    (forall v c, reason t' v = Some c -> reason t v = Some c).
Proof.
  intros HP Hd Hl. pose proof (pi_TI _ _ _ HP) as HT. destruct (value t l) as [[|]|] eqn:E.
  - rewrite fact_true by auto. exists true, (set_vd (lvar l) (None, 0) t). split; auto.
    split; [|split; [exact Hd|split; [reflexivity|split; [reflexivity|split; [auto|split; [discriminate|split; [auto|split; [reflexivity|split; [reflexivity|split; [reflexivity|]]]]]]]]]].
    + constructor; try solve [apply HP]; [apply TI_set_vd_fact; auto|apply TRe_set_vd; auto; apply HP].
    + intros v c Hr. unfold reason in *. cbn [set_vd vd] in Hr. rewrite nth_set_nth in Hr.
      destruct ((v =? lvar l) && (lvar l <? length (vd t))); [discriminate|auto].
  - rewrite fact_false by auto. exists false, t. split; [reflexivity|]. split; [exact HP|].
    repeat (split; [first [reflexivity|assumption|discriminate|(intros _; split; auto)|(left; reflexivity)]|]). auto.
  - rewrite fact_push by auto. exists true, (tpush l None t). split; [reflexivity|]. split; [apply PInv_push_none; auto|].
    split; [exact Hd|]. split; [reflexivity|]. split; [reflexivity|].
    split; [intros _; apply value_push_self; rewrite (ti_asg t HT); auto|]. split; [discriminate|].
    split; [right; auto|]. split; [reflexivity|]. split; [reflexivity|]. split; [reflexivity|].
    intros v c. rewrite reason_push by (rewrite (ti_vd t HT); auto). destruct (v =? lvar l); [discriminate|auto].
Qed.

Lemma SInv_fact d w t l b t' : SInv d w t -> dlevel t = 0 -> lvar l < nvt t -> fact l t = Ok (b, t') -> SInv d w t'.
Proof.
  intros H Hd Hl E. pose proof (pi_TI _ _ _ (sb_P _ _ _ (si_B _ _ _ H))) as HT. destruct (value t l) as [[|]|] eqn:V.
  - rewrite fact_true in E by auto. inversion E; subst. destruct H as [[HP HD HW HC HR] HL HDn].
    constructor; [constructor; auto|..]; auto.
    + constructor; try solve [apply HP]; [apply TI_set_vd_fact; auto|apply TRe_set_vd; auto; apply HP].
    + intros v c Hin Hr. apply (HR v c); [exact Hin|]. unfold reason in *. cbn [set_vd vd] in Hr. rewrite nth_set_nth in Hr.
      destruct ((lvar v =? lvar l) && (lvar l <? length (vd t))); [discriminate|auto].
    + assert (Hlv : forall m, In m (tr t) -> level (set_vd (lvar l) (None, 0) t) (lvar m) = level t (lvar m)).
      { intros m Hm. unfold level. cbn [set_vd vd]. rewrite nth_set_nth.
        destruct ((lvar m =? lvar l) && (lvar l <? length (vd t))); auto. simpl.
        apply In_nth_error in Hm. destruct Hm as (i & Hi). symmetry. apply (dlevel0_level t i m); auto. }
      intros HQ i q Hi Hq. destruct (HDn HQ i q Hi Hq) as [D1 D2]. pose proof (nth_error_In _ _ Hq) as Hin.
      change (tr (set_vd (lvar l) (None, 0) t)) with (tr t) in Hin. split.
      * intros c b Hc. destruct (D1 c b Hc) as (m & M1 & M2 & M3). exists m. split; auto. split; [exact M2|].
        rewrite !Hlv; auto. apply (ti_val t HT); auto.
      * intros c o Hc. destruct (D2 c o Hc) as (M2 & M3). split; [exact M2|]. rewrite !Hlv; auto. apply (ti_val t HT); auto.
  - rewrite fact_false in E by auto. inversion E; subst; auto.
  - rewrite fact_push in E by auto. inversion E; subst. apply SInv_push_none; auto.
Qed.

Lemma SInv_level d w t : SInv d w t -> qh t = length (tr t) -> SInv d w (newDecisionLevel t).
Proof.
  intros [[HP HD HW HC HR] HL HDn] Hq. constructor; [constructor; auto|..]; auto.
  - constructor; try solve [apply HP]. apply TI_newlevel. apply HP.
  - intros k Hk. cbn [newDecisionLevel lim qh] in *. apply in_app_or in Hk. destruct Hk as [Hk|[<-|[]]]; [auto|lia].
Qed.

(** ** Propagation *)
Lemma listed_usable d w n c : DI n d -> W1 (arena d) w -> WI d w -> listed d w c -> usable d c.
Proof.
  intros HD HW1 HWI (q & [Hc|Hc]).
  - split; [eapply HWI; eauto|]. left. apply in_map_iff in Hc. destruct Hc as ([c' b] & E & Hin). simpl in E. subst c'.
    destruct (HW1 q c b Hin) as (_ & x & y & z & r & El & _). change (alits (arena d) c) with (clits d c) in El.
    rewrite El. simpl. lia.
  - apply in_map_iff in Hc. destruct Hc as ([c' o] & E & Hin). simpl in E. subst c'.
    destruct (di_bw0 n d HD q c o Hin) as (B1 & B2 & B3). split; auto.
Qed.

Lemma usable_aperm d a c : aperm (arena d) a -> usable d c -> usable (with_arena d a) c.
Proof.
  intros HP. apply usable_eq; auto.
  - symmetry. apply (aperm_len (arena d) a c HP).
  - intros E. rewrite <- E. apply (proj2 HP).
Qed.

Lemma SBase_propagate d w t k d' w' t' : SBase d w t -> prop_result d w t k d' w' t' -> SBase d' w' t'.
Proof.
  intros [HP HD HW HC HR] (A1 & A2 & A3 & A4 & A5 & A6 & A7 & A8 & A9 & A10 & A11).
  assert (En : nvt t' = nvt t) by (apply (tx_nvt _ _ A2)).
  assert (HU : forall c, usable d c -> usable d' c) by (intros c Hc; rewrite A5; apply usable_aperm; auto).
  constructor; auto.
  - rewrite En, A5. apply aperm_DI; auto.
  - intros c q Hc. destruct (A8 c q Hc) as (q' & Hq'). rewrite A5. cbn [cls with_arena]. eapply HW; eauto.
  - intros c Hc Hl. apply A7. apply HC.
    + rewrite A5 in Hc. exact Hc.
    + rewrite A5 in Hl. rewrite clits_alits in *. cbn [arena with_arena] in Hl. rewrite (aperm_len _ _ c A4). auto.
  - intros v c Hin Hr. apply HU. destruct (A9 v c Hin Hr) as [[Hin' Hr']|Hl]; [eapply HR; eauto|].
    eapply listed_usable; eauto. apply HP.
Qed.

Lemma SInv_propagate d w t : SInv d w t ->
  exists k d' w' t', propagate d w t = Ok (k, d', w', t') /\ prop_result d w t k d' w' t' /\ SState d' w' t' k.
Proof.
  intros [HB HL HDn]. destruct (propagate_spec d w t (sb_P _ _ _ HB)) as (k & d' & w' & t' & E & HR).
  exists k, d', w', t'. split; auto. split; auto. pose proof (SBase_propagate _ _ _ _ _ _ _ HB HR) as HB'.
  destruct HR as (A1 & A2 & A3 & A4 & A5 & A6 & A7 & A8 & A9 & A10 & A11).
  destruct k as [c|]; simpl.
  - destruct (A10 c eq_refl) as (B1 & B2 & B3). destruct (B3 HL) as (B4 & B5 & B6 & B7). constructor; auto.
    rewrite A5. apply usable_aperm; auto. destruct HB as [HP HD HW HC HRD]. eapply listed_usable; eauto. apply HP.
  - destruct (A11 eq_refl) as (B1 & B2). constructor; auto.
    + intros x Hx. rewrite (tx_lim _ _ A2) in Hx. specialize (HL x Hx). lia.
    + rewrite B1. auto.
Qed.

(** ** Re-estimation of LBD values *)
Lemma alits_ext_TRe a a' t : (forall c, alits a' c = alits a c) -> TRe a t -> TRe a' t.
Proof. intros E H i l c Hi Hr. rewrite E. apply (H i l c); auto. Qed.
Lemma alits_ext_W1 a a' w : (forall c, alits a' c = alits a c) -> W1 a w -> W1 a' w.
Proof. intros E H p c b Hc. rewrite E. apply (H p c b); auto. Qed.
Lemma alits_ext_Done d d' w t n : (forall c, alits (arena d') c = alits (arena d) c) -> bw d' = bw d -> Done d w t n -> Done d' w t n.
Proof.
  intros E Eb H i q Hi Hq. destruct (H i q Hi Hq) as [D1 D2]. split; [|rewrite Eb; auto].
  intros c b Hc. destruct (D1 c b Hc) as (m & M1 & M2). exists m. rewrite E. auto.
Qed.

Lemma SBase_reestimate d w t cs : SBase d w t -> (forall c, In c cs -> usable d c) -> SBase (reestimate t cs d) w t.
Proof.
  intros [HP HD HW HC HR] Hcs. destruct (reestimate_fields t cs d) as (A1 & A2 & A3 & A4 & A5 & A6 & A7 & A8 & A9 & A10).
  assert (HD' : DI (nvt t) (reestimate t cs d)).
  { apply reestimate_DI; auto. intros c Hc. destruct (Hcs c Hc) as [H1 [H2|H2]]; auto. }
  constructor; auto.
  - constructor; try solve [apply HP]; try solve [apply HD'].
    + eapply alits_ext_TRe; [apply A9|apply HP].
    + eapply alits_ext_W1; [apply A9|apply HP].
  - intros c q Hc. rewrite A3. eapply HW; eauto.
  - intros c Hc Hl. rewrite A3 in Hc. rewrite clits_alits, A9 in Hl. destruct (HC c Hc Hl) as (x & y & z & r & E & H1 & H2).
    exists x, y, z, r. rewrite A9. auto.
  - intros v c Hin Hr. apply (usable_eq d); auto; [rewrite !clits_alits, A9; auto|eapply HR; eauto].
Qed.
Lemma SState_reestimate d w t k cs : SState d w t k ->
  (forall c, In c cs -> k = Some c \/ exists l, In l (tr t) /\ reason t (lvar l) = Some c) -> SState (reestimate t cs d) w t k.
Proof.
  intros H Hcs. pose proof (SState_B _ _ _ _ H) as HB.
  destruct (reestimate_fields t cs d) as (A1 & A2 & A3 & A4 & A5 & A6 & A7 & A8 & A9 & A10).
  assert (HB' : SBase (reestimate t cs d) w t).
  { apply SBase_reestimate; auto. intros c Hc. destruct (Hcs c Hc) as [E|(v & Hin & Hv)].
    - subst k. apply H.
    - eapply (sb_RD _ _ _ HB); eauto. }
  destruct k as [c|]; simpl in *.
  - destruct H as [B F U L LL D]. constructor; auto.
    + intros m Hm. apply F. rewrite clits_alits, A9 in Hm. auto.
    + apply (usable_eq d); auto. rewrite !clits_alits, A9; auto.
    + destruct L as (m & M1 & M2). exists m. rewrite clits_alits, A9. auto.
    + intros HQ. eapply alits_ext_Done; eauto.
  - destruct H as [B L D]. constructor; auto. intros HQ. eapply alits_ext_Done; eauto.
Qed.

(** ** Backtracking *)
Lemma lim_ge_level t n i l : TI t -> n < dlevel t -> nth_error (tr t) i = Some l -> level t (lvar l) <= n -> i < nth n (lim t) 0.
Proof.
  intros HT Hn Hi Hl. rewrite (ti_lev t HT i l Hi) in Hl. destruct (Nat.lt_ge_cases i (nth n (lim t) 0)); auto. exfalso.
  assert (Hall : S n <= lev_at (lim t) i); [|lia].
  unfold lev_at. rewrite <- (firstn_skipn (S n) (lim t)), filter_app, app_length.
  assert (E : length (filter (fun k => k <=? i) (firstn (S n) (lim t))) = S n).
  { unfold dlevel in Hn. transitivity (length (firstn (S n) (lim t))); [|rewrite firstn_length; lia].
    assert (HA : forall k, In k (firstn (S n) (lim t)) -> (k <=? i) = true).
    { intros k Hk. apply Nat.leb_le. apply in_firstn_iff in Hk. destruct Hk as (j & Hj & Ej).
      assert (k <= nth n (lim t) 0).
      { rewrite <- (nth_error_nth (lim t) j 0 Ej). apply (ti_sorted t HT); [lia|exact Hn]. }
      lia. }
    clear -HA. induction (firstn (S n) (lim t)) as [|x r IH]; auto. simpl. rewrite HA by (simpl; auto). simpl. f_equal.
    apply IH. intros; apply HA; simpl; auto. }
  lia.
Qed.

Lemma backtrack_keep t n l : TI t -> n < dlevel t -> value t l = Some true -> level t (lvar l) <= n ->
  value (backtrack n t) l = Some true.
Proof.
  intros HT Hn Hv Hl. apply backtrack_value; auto. apply (ti_val t HT) in Hv. apply In_nth_error in Hv.
  destruct Hv as (i & Hi). exists i. split; auto. eapply lim_ge_level; eauto.
Qed.

Lemma level_before t n i l : TI t -> n < dlevel t -> nth_error (tr t) i = Some l -> i < nth n (lim t) 0 -> level t (lvar l) <= n.
Proof.
  intros HT Hn Hi Hl. rewrite (ti_lev t HT i l Hi). rewrite <- (lev_at_firstn (lim t) n i); auto.
  - unfold lev_at. eapply Nat.le_trans; [apply filter_length_le'|]. rewrite firstn_length. lia.
  - apply (ti_sorted t HT).
Qed.

Lemma backtrack_drop t n l : TI t -> n < dlevel t -> n < level t (lvar l) -> value (backtrack n t) l = None.
Proof.
  intros HT Hn Hl. pose proof (TI_backtrack n t HT) as HT'. apply notin_value_none; auto.
  destruct (backtrack_fields n t Hn) as (E1 & _). rewrite E1. intros Hi. apply in_map_iff in Hi. destruct Hi as (m & Em & Hm).
  apply in_firstn_iff in Hm. destruct Hm as (i & Hi & Hnth). pose proof (level_before t n i m HT Hn Hnth Hi). rewrite Em in *. lia.
Qed.

Lemma SBase_backtrack d w t n : SBase d w t -> n < dlevel t -> SBase d w (backtrack n t).
Proof.
  intros [HP HD HW HC HR] Hn. pose proof (pi_TI _ _ _ HP) as HT.
  destruct (backtrack_fields n t Hn) as (E1 & E2 & E3 & E4 & E5 & E6 & E7). constructor; auto.
  - constructor; try solve [apply HP]; try (rewrite E3; apply HP).
    + apply TI_backtrack; auto.
    + intros i l c Hi Hr. rewrite E1 in *. apply nth_error_firstn_iff in Hi. destruct Hi as [Hk Hi].
      unfold reason in Hr. rewrite E4 in Hr. destruct (pi_TRe _ _ _ HP i l c Hi Hr) as [H1 H2]. split; auto.
      intros m Hm Hne. destruct (H2 m Hm Hne) as (j & Hj & Ej). exists j. split; auto. apply nth_error_firstn_iff. split; auto. lia.
  - rewrite E3. auto.
  - intros v c Hin Hr. unfold reason in Hr. rewrite E4 in Hr. rewrite E1 in Hin. apply in_firstn_iff in Hin. destruct Hin as (i & _ & Hi).
    eapply HR; eauto. eapply nth_error_In; eauto.
Qed.

Lemma Done_backtrack d w t n k : TI t -> n < dlevel t -> nth n (lim t) 0 <= k -> Done d w t k ->
  Done d w (backtrack n t) (nth n (lim t) 0).
Proof.
  intros HT Hn Hk HD i q Hi Hq. destruct (backtrack_fields n t Hn) as (E1 & E2 & E3 & E4 & E5 & E6 & E7).
  rewrite E1 in Hq. apply nth_error_firstn_iff in Hq. destruct Hq as [_ Hq].
  pose proof (level_before t n i q HT Hn Hq Hi) as Hlq.
  destruct (HD i q ltac:(lia) Hq) as [D1 D2]. split.
  - intros c b Hc. destruct (D1 c b Hc) as (m & M1 & M2 & M3). exists m. split; auto. split; [apply backtrack_keep; auto; lia|].
    unfold level. rewrite E4. exact M3.
  - intros c o Hc. destruct (D2 c o Hc) as (M2 & M3). split; [apply backtrack_keep; auto; lia|]. unfold level. rewrite E4. exact M3.
Qed.

Lemma SState_backtrack d w t k n : SState d w t k -> n < dlevel t -> SInv d w (backtrack n t).
Proof.
  intros H Hn. pose proof (SState_B _ _ _ _ H) as HB. pose proof (pi_TI _ _ _ (sb_P _ _ _ HB)) as HT.
  assert (HDn : exists q, (forall x, In x (lim t) -> x <= q) /\ (Q -> Done d w t q)).
  { destruct k as [c|]; simpl in H; [exists (pred (qh t))|exists (qh t)]; destruct H; auto. }
  destruct HDn as (q & HL & HD). destruct (backtrack_fields n t Hn) as (E1 & E2 & E3 & E4 & E5 & E6 & E7).
  assert (Hq : nth n (lim t) 0 <= q) by (apply HL, nth_In; auto).
  constructor; [apply SBase_backtrack; auto|..].
  - intros x Hx. rewrite E2 in Hx. rewrite E7. apply in_firstn_iff in Hx. destruct Hx as (j & Hj & Ej).
    destruct (Nat.eqb_spec n 0); [lia|]. rewrite <- (nth_error_nth (lim t) j 0 Ej). apply (ti_sorted t HT); [lia|exact Hn].
  - intros HQ. pose proof (Done_backtrack d w t n q HT Hn Hq (HD HQ)) as HB'. rewrite E7. destruct (n =? 0); auto.
    intros i p Hi. lia.
Qed.

(** ** Learning *)
Lemma createClause_bw ls lbd lem d c d' : createClause ls lbd lem d = Ok (c, d') -> bw d' = watch_binary c ls (bw d).
Proof. unfold createClause. destruct (65536 <=? N.of_nat (length ls))%N; [discriminate|]. intros H. inversion H; reflexivity. Qed.
Lemma createClause_wt ls lbd lem d c d' : createClause ls lbd lem d = Ok (c, d') ->
  arena d' = arena d ++ [mkC ls (if length ls <? 3 then 0%N else (lbd mod 65536)%N)].
Proof. unfold createClause. destruct (65536 <=? N.of_nat (length ls))%N; [discriminate|]. intros H. inversion H; reflexivity. Qed.

Lemma SInv_learn d w t x r lbd c d' : SInv d w t -> wfc (nvt t) (x :: r) ->
  value t x = None -> (forall m, In m r -> value t m = Some false) ->
  (forall y r', r = y :: r' -> level t (lvar y) = dlevel t) ->
  createClause (x :: r) lbd false d = Ok (c, d') ->
  exists t', tpropagate x c t = Ok (true, t') /\ t' = tpush x (Some c) t /\
    SInv d' (if 2 <? length (x :: r) then attachClause d' c w else w) t'.
Proof.
  intros [[HP HD HW HC HR] HL HDn] Hwf Hx Hr Hy Hcr. pose proof (pi_TI _ _ _ HP) as HT.
  assert (Hxv : lvar x < nvt t) by (apply Hwf; simpl; auto).
  pose proof (createClause_DI _ _ _ _ _ _ _ HD Hwf Hcr) as HD'.
  pose proof (createClause_bw _ _ _ _ _ _ Hcr) as Hbw. pose proof (createClause_wt _ _ _ _ _ _ Hcr) as Hwt.
  destruct (createClause_created _ _ _ _ _ _ Hcr) as (C1 & C2 & C3 & _ & C5).
  exists (tpush x (Some c) t). split; [apply tpropagate_push; [eapply TI_room; eauto|congruence]|]. split; auto.
  set (a := arena d) in *. set (ob := mkC (x :: r) (if length (x :: r) <? 3 then 0%N else (lbd mod 65536)%N)) in *.
  assert (Hold : forall i, i < length a -> alits (arena d') i = alits a i) by (intros i Hi; rewrite Hwt; apply alits_app; auto).
  assert (Hnew : clits d' c = x :: r) by (rewrite clits_alits, Hwt, C1; apply alits_new).
  assert (HTRe : TRe (arena d') t).
  { intros i l c' Hi Hrs. destruct (pi_TRe _ _ _ HP i l c' Hi Hrs) as [H1 H2]. rewrite Hold by (eapply alits_lt; eauto). auto. }
  assert (HW1 : W1 (arena d') w).
  { intros p c' b Hin. destruct (pi_W1 _ _ _ HP p c' b Hin) as [H1 H2]. rewrite Hold by (eapply alits_lt; eauto). auto. }
  assert (Hlt : forall q, In q (cls d) -> q < length a) by (intros q Hq; apply (di_rng _ _ HD), (di_cls _ _ HD); auto).
  assert (Hnotw : forall q, ~ In c (map fst (wl w q))) by (intros q Hq; apply HW in Hq; apply Hlt in Hq; lia).
  assert (HlenN : forall l, In l (clits d' c) -> lneg l < length w).
  { intros l Hl. apply (pi_len _ _ _ HP). rewrite lvar_neg. apply Hwf. rewrite Hnew in Hl. auto. }
  set (w' := if 2 <? length (x :: r) then attachClause d' c w else w).
  assert (Hw' : W1 (arena d') w' /\ W2 w' /\ length w' = length w /\ (forall q y, In y (wl w q) -> In y (wl w' q)) /\
    (3 <= length (x :: r) -> watched2 (arena d') w' c) /\
    (forall q c' b, In (c', b) (wl w' q) -> In (c', b) (wl w q) \/
       (c' = c /\ exists y r', r = y :: r' /\ ((q = lneg x /\ b = y) \/ (q = lneg y /\ b = x))))).
  { unfold w'. destruct (Nat.ltb_spec 2 (length (x :: r))) as [Hl|Hl].
    - split; [apply attach_W1; auto; rewrite Hnew; auto|]. split; [apply attach_W2; auto; [apply HP|rewrite Hnew; apply Hwf]|].
      split; [apply attach_len|]. split; [intros; apply attach_old; auto|]. split; [intros _; apply attach_watched2; auto; rewrite Hnew; auto|].
      intros q c' b Hin. apply attach_in in Hin. destruct Hin as [Hin|(-> & x' & y & r' & E & Hq)]; auto. right. split; auto.
      rewrite Hnew in E. inversion E; subst. eauto.
    - split; auto. split; [apply HP|]. split; auto. split; auto. split; auto. intros; lia. }
  destruct Hw' as (A1 & A2 & A3 & A4 & A5 & A6).
  assert (Hfalse : forall m, In m (clits d' c) -> m <> x -> value t m = Some false).
  { intros m Hm Hne. rewrite Hnew in Hm. destruct Hm as [->|Hm]; [contradiction|auto]. }
  assert (Huse : usable d' c).
  { split; [rewrite C3; apply in_or_app; simpl; auto|]. rewrite Hnew.
    destruct (Nat.lt_ge_cases (length (x :: r)) 3) as [Hl|Hl]; auto. right. rewrite cwt_awt, Hwt, C1, awt_new. unfold ob. simpl wt.
    apply Nat.ltb_lt in Hl. simpl length in Hl. rewrite Hl. reflexivity. }
  (* a literal true at the current level is no witness problem: q false literal's level is the current level *)
  assert (Hself : forall q y r', r = y :: r' -> (q = lneg x \/ q = lneg y) -> In q (tr t) -> q = lneg y /\ level t (lvar q) = dlevel t).
  { intros q y r' Er [->| ->] Hq.
    - exfalso. apply (ti_val_false t x HT) in Hq. congruence.
    - split; auto. rewrite lvar_neg. eapply Hy; eauto. }
  constructor; [constructor|..].
  - constructor; try solve [apply HD']; auto.
    + apply TI_push; auto.
    + apply TRe_push; auto. rewrite clits_alits in Hnew. rewrite Hnew. simpl; auto.
    + intros l Hl. rewrite A3. apply HP. exact Hl.
  - exact HD'.
  - intros c' q Hin. apply in_map_iff in Hin. destruct Hin as ([c0 b] & E & Hin). simpl in E. subst c0. rewrite C3. apply in_or_app.
    destruct (A6 q c' b Hin) as [Hin'|(-> & _)]; [|simpl; auto]. left. eapply HW. apply in_map_iff. exists (c', b). eauto.
  - intros c' Hin Hl. rewrite C3 in Hin. apply in_app_or in Hin. destruct Hin as [Hin|[<-|[]]].
    + pose proof (Hlt c' Hin) as Hc'. rewrite clits_alits, Hold in Hl by auto. destruct (HC c' Hin Hl) as (x' & y' & z' & r' & E & H1 & H2).
      apply (watched2_mono _ w); auto. exists x', y', z', r'. rewrite Hold by auto. auto.
    + apply A5. rewrite Hnew in Hl. auto.
  - apply RD_push; auto; [intros c' [= <-]; auto|]. intros v c' Hin Hrs. destruct (HR v c' Hin Hrs) as [H1 H2]. split; [rewrite C3; apply in_or_app; auto|].
    rewrite clits_alits, cwt_awt, Hold by auto. rewrite Hwt, awt_app by auto. exact H2.
  - exact HL.
  - change (qh (tpush x (Some c) t)) with (qh t).
    intros HQ i q Hi Hq. cbn [tpush tr] in Hq. rewrite nth_error_app1 in Hq by (pose proof (ti_qh t HT); lia).
    destruct (HDn HQ i q Hi Hq) as [D1 D2]. pose proof (nth_error_In _ _ Hq) as Hin.
    assert (Hlev : forall m, In m (tr t) -> level (tpush x (Some c) t) (lvar m) = level t (lvar m)).
    { intros m Hm. rewrite level_push by (rewrite (ti_vd t HT); auto). destruct (Nat.eqb_spec (lvar m) (lvar x)) as [E|]; auto.
      exfalso. apply (value_none_notin t x HT Hx). rewrite <- E. apply in_map; auto. }
    assert (Hxs : value (tpush x (Some c) t) x = Some true) by (apply value_push_self; rewrite (ti_asg t HT); auto).
    assert (Hxl : level (tpush x (Some c) t) (lvar x) = dlevel t) by (rewrite level_push, Nat.eqb_refl by (rewrite (ti_vd t HT); auto); auto).
    split.
    + intros c' b Hc. destruct (A6 q c' b Hc) as [Hc'|(-> & y & r' & Er & Hq')].
      * assert (HS : Sat4 (arena d') w t q).
        { intros c1 b1 H1. destruct (D1 c1 b1 H1) as (m & M1 & M2). exists m. rewrite Hold by (eapply alits_lt; eauto). auto. }
        apply (Sat4_push _ _ t x (Some c) q HT Hx Hxv Hin HS c' b Hc').
      * destruct (Hself q y r' Er) as [_ Hlq]; auto; [tauto|]. exists x. rewrite clits_alits in Hnew. rewrite Hnew. split; [simpl; auto|].
        split; [exact Hxs|]. rewrite Hxl, Hlev by auto. lia.
    + rewrite Hbw. intros c' o Hc. apply watch_binary_in in Hc. destruct Hc as [Hc|(-> & Hl2 & x' & y & E & Hq')].
      * apply (SatB_push _ t x (Some c) q HT Hx Hxv Hin D2 c' o Hc).
      * inversion E; subst x' r. destruct (Hself q y []) as [E' Hlq]; auto; [tauto|].
        destruct Hq' as [[E1 _]|[_ ->]].
        -- exfalso. subst q. apply (ti_val_false t x HT) in Hin. congruence.
        -- split; auto. rewrite Hxl, Hlev by auto. lia.
Qed.

Lemma SInv_unit d w t l lbd lem c d' : SInv d w t -> lvar l < nvt t ->
  createClause [l] lbd lem d = Ok (c, d') -> SInv d' w t.
Proof.
  intros [[HP HD HW HC HR] HL HDn] Hl Hcr.
  assert (Hwf : wfc (nvt t) [l]) by (split; [repeat constructor; simpl; tauto|intros x [<-|[]]; auto]).
  pose proof (createClause_DI _ _ _ _ _ _ _ HD Hwf Hcr) as HD'.
  pose proof (createClause_bw _ _ _ _ _ _ Hcr) as Hbw. pose proof (createClause_wt _ _ _ _ _ _ Hcr) as Hwt.
  destruct (createClause_created _ _ _ _ _ _ Hcr) as (C1 & C2 & C3 & _ & C5).
  set (a := arena d) in *.
  assert (Hold : forall i, i < length a -> alits (arena d') i = alits a i) by (intros i Hi; rewrite Hwt; apply alits_app; auto).
  assert (Hlt : forall q, In q (cls d) -> q < length a) by (intros q Hq; apply (di_rng _ _ HD), (di_cls _ _ HD); auto).
  constructor; [constructor|..]; auto.
  - constructor; try solve [apply HD'|apply HP].
    + intros i m c' Hi Hr. destruct (pi_TRe _ _ _ HP i m c' Hi Hr) as [H1 H2]. rewrite Hold by (eapply alits_lt; eauto). auto.
    + intros p c' b Hin. destruct (pi_W1 _ _ _ HP p c' b Hin) as [H1 H2]. rewrite Hold by (eapply alits_lt; eauto). auto.
  - intros c' q Hin. rewrite C3. apply in_or_app. left. eapply HW; eauto.
  - intros c' Hin Hlen. rewrite C3 in Hin. apply in_app_or in Hin. destruct Hin as [Hin|[<-|[]]].
    + pose proof (Hlt c' Hin) as Hc'. rewrite clits_alits, Hold in Hlen by auto. destruct (HC c' Hin Hlen) as (x & y & z & r & E & H).
      exists x, y, z, r. rewrite Hold by auto. auto.
    + rewrite clits_alits, Hwt, C1, alits_new in Hlen. simpl in Hlen. lia.
  - intros v c' Hin Hrs. destruct (HR v c' Hin Hrs) as [H1 H2]. split; [rewrite C3; apply in_or_app; auto|].
    rewrite clits_alits, cwt_awt, Hold by auto. rewrite Hwt, awt_app by auto. exact H2.
  - intros HQ i q Hi Hq. destruct (HDn HQ i q Hi Hq) as [D1 D2]. split.
    + intros c' b Hc. destruct (D1 c' b Hc) as (m & M1 & M2). exists m. rewrite Hold by (eapply alits_lt; eauto). auto.
    + rewrite Hbw. exact D2.
Qed.

(** ** All reachable states *)
Lemma fold_remove_DI n cs : forall d, DI n d -> DI n (fold_left (fun d c => removeClause c d) cs d).
Proof. induction cs as [|c r IH]; intros d H; simpl; auto. apply IH. apply removeClause_DI; auto. Qed.

Lemma db_init_DI n m cs lem d d' : DI n d -> Forall (wfc (max m n)) cs -> db_init m cs lem d = Ok d' -> DI (max m n) d'.
Proof. intros H Hc E. unfold db_init in E. apply (create_all_spec (max m n) cs lem _ _ (db_grow_DI n m d H) Hc E). Qed.

Lemma preach_SStateQ d w t k : preach d w t k -> SState d w t k.
Proof.
  induction 1 as [n cs d Hc Hi|d w t l b t' H IH Hd Hl Hf|d w t H IH Hq|d w t l t' H IH Hl Hv Hdc|d w t k d' w' t' H IH Hp
    |d w t k cs H IH Hcs|d w t k lev H IH Hl|d w t x r lbd c d' b t' H IH Hok Hv Hr Hy Hc Hp|d w t l lbd lem c d' H IH Hl Hc|d w t k cs H IH d'|d w t k n cs d' H IH Hok Hi].
  - simpl. apply SInv_start.
    + destruct (init_fields n trail_new) as (_ & _ & _ & _ & E). rewrite E. apply (db_init_DI 0 n cs true db_new); auto. apply db_new_DI. rewrite Nat.max_0_r. exact Hc.
    + apply TI_init, TI_new.
    + destruct (init_fields n trail_new) as (E & _). rewrite E. reflexivity.
    + destruct (init_fields n trail_new) as (_ & E & _). rewrite E. reflexivity.
    + intros v. rewrite reason_init by reflexivity. unfold reason, trail_new; cbn. destruct v; reflexivity.
  - eapply SInv_fact; eauto.
  - apply SInv_level; auto.
  - destruct (SInv_decide d w t l IH Hv Hl) as (t2 & E & HI). rewrite Hdc in E. inversion E; subst; auto.
  - destruct (SInv_propagate d w t IH) as (k1 & d1 & w1 & t1 & E & _ & HS). rewrite Hp in E. inversion E; subst; auto.
  - apply SState_reestimate; auto.
  - eapply SState_backtrack; eauto.
  - destruct (SInv_learn d w t x r lbd c d' IH Hok Hv Hr Hy Hc) as (t2 & E & -> & HI). rewrite Hp in E. inversion E; subst; auto.
  - eapply SInv_unit; eauto.
  - pose proof (SState_B _ _ _ _ IH) as HB. simpl. apply SInv_reset; [|apply HB]. apply reorganize_DI, fold_remove_DI, HB.
  - pose proof (SState_B _ _ _ _ IH) as HB. simpl. apply SInv_reset; [|apply TI_init, HB].
    destruct (init_fields n t) as (_ & _ & _ & _ & E). rewrite E. eapply db_init_DI; eauto. apply HB.
Qed.

(** ** Soundness *)
Lemma preach_propagateQ d w t : preach d w t None ->
  exists k d' w' t', propagate d w t = Ok (k, d', w', t') /\ prop_result d w t k d' w' t' /\ SState d' w' t' k.
Proof. intros H. apply preach_SStateQ in H. apply SInv_propagate; auto. Qed.

End Strength.
Arguments SInvQ Q d w t : clear implicits.
Arguments SConfQ Q d w t c : clear implicits.
Arguments SStateQ Q d w t k : clear implicits.
Notation SInv := (SInvQ True).
Notation SConf := (SConfQ True).
Notation SState := (SStateQ True).
Definition preach_SState d w t k := @preach_SStateQ True d w t k.
Definition preach_propagate d w t := @preach_propagateQ True d w t.

(** a trail whose reasons are in [F] and whose decisions hold is satisfied *)
Lemma trail_entailed a d t k : TI t -> TRe (arena d) t ->
  (forall i l, nth_error (tr t) i = Some l -> k <= i -> exists c, reason t (lvar l) = Some c /\ sat_clause a (clits d c)) ->
  (forall i l, nth_error (tr t) i = Some l -> i < k -> lit_holds a l) ->
  forall i l, nth_error (tr t) i = Some l -> lit_holds a l.
Proof.
  intros HT HR Hc Hk i. induction i as [i IH] using lt_wf_ind. intros l Hl.
  destruct (Nat.lt_ge_cases i k) as [Hi|Hi]; [eapply Hk; eauto|].
  destruct (Hc i l Hl Hi) as (c & Hr & Hs). destruct (HR i l c Hl Hr) as [H1 H2].
  destruct Hs as (m & Hm & Ht). destruct (Nat.eq_dec m l) as [->|Hn]; auto.
  destruct (H2 m Hm Hn) as (j & Hj & Ej). specialize (IH j Hj (lneg m) Ej). apply lit_holds_neg in IH. contradiction.
Qed.

Lemma lit_true_or_case a t l c d' : sat_clause a (clits d' c) -> (forall m, In m (clits d' c) -> value t m = Some false) ->
  (forall m, In m (tr t) -> lit_holds a m) -> TI t -> lit_holds a l.
Proof.
  intros (m & Hm & Ha) Hf Ht HT. exfalso. specialize (Hf m Hm). apply (ti_val_false t m HT) in Hf. apply Ht in Hf.
  apply lit_holds_neg in Hf. contradiction.
Qed.

Lemma propagate_new d w t k d' w' t' : preach d w t None -> propagate d w t = Ok (k, d', w', t') ->
  cls d' = cls d /\ (forall c, Permutation (clits d c) (clits d' c)) /\
  exists new, tr t' = tr t ++ new /\
    forall l, In l new -> exists c, reason t' (lvar l) = Some c /\ In c (cls d') /\ In l (clits d' c) /\
      forall m, In m (clits d' c) -> m <> l -> value t' m = Some false.
Proof.
  intros HP HE. destruct (preach_propagate d w t HP) as (k1 & d1 & w1 & t1 & E & HR & HS).
  rewrite HE in E. inversion E; subst k1 d1 w1 t1. clear E. pose proof (SState_B _ _ _ _ HS) as HB.
  pose proof (pi_TI _ _ _ (sb_P _ _ _ HB)) as HT.
  destruct HR as (A1 & A2 & A3 & A4 & A5 & _). split; [rewrite A5; reflexivity|]. split; [intros c; apply A4|].
  destruct (tx_tr _ _ A2) as (new & En & Hn). exists new. split; [exact En|]. intros l Hl.
  destruct (reason t' (lvar l)) as [c|] eqn:Er; [|exfalso; eapply Hn; eauto]. exists c. split; auto.
  assert (Hin : In l (tr t')) by (rewrite En; apply in_or_app; auto).
  destruct (sb_RD _ _ _ HB l c Hin Er) as [Hc _]. split; auto. apply In_nth_error in Hin. destruct Hin as (i & Hi).
  destruct (pi_TRe _ _ _ A1 i l c Hi Er) as [H1 H2]. split; auto. intros m Hm Hne. destruct (H2 m Hm Hne) as (j & _ & Ej).
  apply (ti_val_false t' m HT). eapply nth_error_In; eauto.
Qed.

Lemma sat_perm a d d' : cls d' = cls d -> (forall c, Permutation (clits d c) (clits d' c)) -> sat a (db_formula d) -> sat a (db_formula d').
Proof.
  intros E HP HS c Hc. unfold db_formula in *. apply in_map_iff in Hc. destruct Hc as (i & <- & Hi). rewrite E in Hi.
  destruct (HS (clits d i)) as (m & Hm & Ha); [apply in_map; auto|]. exists m. split; auto. eapply Permutation_in; eauto.
Qed.

Lemma propagate_entailed d w t k d' w' t' : preach d w t None -> propagate d w t = Ok (k, d', w', t') ->
  forall l, In l (tr t') -> entails (db_formula d ++ units (tr t)) [l].
Proof.
  intros HP HE l Hl a Ha. apply sat_app in Ha. destruct Ha as [Ha Hu]. rewrite sat_units in Hu. apply sat_clause_unit.
  destruct (propagate_new _ _ _ _ _ _ _ HP HE) as (E1 & E2 & new & En & Hnew). pose proof (sat_perm a d d' E1 E2 Ha) as Ha'.
  destruct (preach_propagate d w t HP) as (k1 & d1 & w1 & t1 & E & HR & HS).
  rewrite HE in E. inversion E; subst k1 d1 w1 t1. clear E. pose proof (SState_B _ _ _ _ HS) as HB.
  apply In_nth_error in Hl. destruct Hl as (i & Hi).
  apply (trail_entailed a d' t' (length (tr t)) (pi_TI _ _ _ (sb_P _ _ _ HB)) (pi_TRe _ _ _ (sb_P _ _ _ HB))) with (i := i); auto.
  - intros j m Hj Hlen. rewrite En, nth_error_app2 in Hj by auto. apply nth_error_In in Hj.
    destruct (Hnew m Hj) as (c & C1 & C2 & _). exists c. split; auto. apply Ha'. unfold db_formula. apply in_map; auto.
  - intros j m Hj Hlen. rewrite En, nth_error_app1 in Hj by auto. apply Hu. eapply nth_error_In; eauto.
Qed.

Lemma propagate_conflict d w t c d' w' t' : preach d w t None -> propagate d w t = Ok (Some c, d', w', t') ->
  In c (cls d') /\ (forall m, In m (clits d' c) -> value t' m = Some false) /\ unsat (db_formula d ++ units (tr t)).
Proof.
  intros HP HE. destruct (preach_propagate d w t HP) as (k1 & d1 & w1 & t1 & E & HR & HS).
  rewrite HE in E. inversion E; subst k1 d1 w1 t1. clear E. simpl in HS. split; [apply (sc_use _ _ _ _ HS)|]. split; [apply (sc_false _ _ _ _ HS)|].
  intros a Ha. pose proof (propagate_entailed _ _ _ _ _ _ _ HP HE) as HEn.
  destruct (propagate_new _ _ _ _ _ _ _ HP HE) as (E1 & E2 & _).
  assert (Hd : sat a (db_formula d')) by (apply (sat_perm a d); auto; apply sat_app in Ha; apply Ha).
  destruct (Hd (clits d' c)) as (m & Hm & Hh); [unfold db_formula; apply in_map, (sc_use _ _ _ _ HS)|].
  pose proof (sc_false _ _ _ _ HS m Hm) as Hf.
  apply (ti_val_false t' m (pi_TI _ _ _ (sb_P _ _ _ (sc_B _ _ _ _ HS)))) in Hf.
  specialize (HEn _ Hf a Ha). apply sat_clause_unit in HEn. apply lit_holds_neg in HEn. contradiction.
Qed.

(** ** Completeness *)
(** binary clauses of the vector are never deleted *)
Lemma preach_bin d w t k : preach d w t k -> forall c, In c (cls d) -> length (clits d c) = 2 -> cwt d c = 0%N.
Proof.
  assert (HC : forall cs lem d d', create_all cs lem d = Ok d' ->
    (forall c, In c (cls d) -> length (clits d c) = 2 -> cwt d c = 0%N) -> (forall c, In c (cls d) -> c < length (arena d)) ->
    forall c, In c (cls d') -> length (clits d' c) = 2 -> cwt d' c = 0%N).
  { assert (H1 : forall ls lbd lem d c0 d', createClause ls lbd lem d = Ok (c0, d') ->
      (forall c, In c (cls d) -> length (clits d c) = 2 -> cwt d c = 0%N) -> (forall c, In c (cls d) -> c < length (arena d)) ->
      (forall c, In c (cls d') -> length (clits d' c) = 2 -> cwt d' c = 0%N) /\ (forall c, In c (cls d') -> c < length (arena d'))).
    { intros ls lbd lem d0 c0 d1 E Hw Hl. pose proof (createClause_wt _ _ _ _ _ _ E) as Ea. destruct (createClause_created _ _ _ _ _ _ E) as (C1 & C2 & C3 & _).
      split; intros c Hc; rewrite C3 in Hc; apply in_app_or in Hc; destruct Hc as [Hc|[<-|[]]].
      - rewrite clits_alits, cwt_awt, Ea, alits_app, awt_app by auto. apply Hw; auto.
      - rewrite clits_alits, cwt_awt, Ea, C1, alits_new, awt_new. simpl. intros ->. reflexivity.
      - rewrite Ea, app_length. specialize (Hl c Hc). lia.
      - rewrite Ea, app_length, C1. simpl. lia. }
    induction cs as [|ls r IH]; intros lem d0 d1 E Hw Hl; cbn [create_all] in E; [inversion E; subst; auto|].
    apply bind_ok in E. destruct E as ([c0 d2] & E1 & E2). destruct (H1 _ _ _ _ _ _ E1 Hw Hl). eapply IH; eauto. }
  assert (HG : forall n d0, cls (db_grow n d0) = cls d0 /\ arena (db_grow n d0) = arena d0).
  { intros n d0. unfold db_grow. destruct (nv d0 <? n); auto. }
  intros HPR. induction HPR as [n cs d Hc Hi|d w t l b t' H IH Hd Hl Hf|d w t H IH Hq|d w t l t' H IH Hl Hv Hdc|d w t k d' w' t' H IH Hp
    |d w t k cs H IH Hcs|d w t k lev H IH Hl|d w t x r lbd c d' b t' H IH Hok Hv Hr Hy Hc Hp|d w t l lbd lem c d' H IH Hl Hc|d w t k cs H IH d'|d w t k n cs d' H IH Hok Hi]; auto.
  - unfold db_init in Hi. apply (HC _ _ _ _ Hi); destruct (HG n db_new) as [E1 E2]; rewrite E1; intros c [].
  - destruct (preach_propagate d w t H) as (k1 & d1 & w1 & t1 & E & HR & HS). rewrite Hp in E. inversion E; subst k1 d1 w1 t1.
    destruct HR as (A1 & A2 & A3 & A4 & A5 & _). intros c. rewrite A5. rewrite clits_alits, cwt_awt. cbn [arena with_arena cls].
    rewrite <- (aperm_len _ _ c A4), (proj2 (proj2 A4 c)). apply IH.
  - destruct (reestimate_fields t cs d) as (A1 & A2 & A3 & A4 & A5 & A6 & A7 & A8 & A9 & A10). intros c. rewrite A3, clits_alits, A9. auto.
  - pose proof (preach_SState _ _ _ _ H) as HS. pose proof (sb_D _ _ _ (SState_B _ _ _ _ HS)) as HD.
    assert (Hcr : create_all [x :: r] false d = Ok d' \/ True) by auto. clear Hcr.
    pose proof (createClause_wt _ _ _ _ _ _ Hc) as Ea. destruct (createClause_created _ _ _ _ _ _ Hc) as (C1 & C2 & C3 & _).
    intros c1 Hc1. rewrite C3 in Hc1. apply in_app_or in Hc1. destruct Hc1 as [Hc1|[<-|[]]].
    + assert (Hlt : c1 < length (arena d)) by (apply (di_rng _ _ HD), (di_cls _ _ HD); auto).
      rewrite clits_alits, cwt_awt, Ea, alits_app, awt_app by auto. apply IH; auto.
    + rewrite clits_alits, cwt_awt, Ea, C1, alits_new, awt_new. cbn [lits wt]. intros ->. reflexivity.
  - pose proof (preach_SState _ _ _ _ H) as HS. pose proof (sb_D _ _ _ (SState_B _ _ _ _ HS)) as HD.
    pose proof (createClause_wt _ _ _ _ _ _ Hc) as Ea. destruct (createClause_created _ _ _ _ _ _ Hc) as (C1 & C2 & C3 & _).
    intros c1 Hc1. rewrite C3 in Hc1. apply in_app_or in Hc1. destruct Hc1 as [Hc1|[<-|[]]].
    + assert (Hlt : c1 < length (arena d)) by (apply (di_rng _ _ HD), (di_cls _ _ HD); auto).
      rewrite clits_alits, cwt_awt, Ea, alits_app, awt_app by auto. apply IH; auto.
    + rewrite clits_alits, cwt_awt, Ea, C1, alits_new, awt_new. cbn [lits wt]. intros ->. reflexivity.
  - pose proof (sb_D _ _ _ (SState_B _ _ _ _ (preach_SState _ _ _ _ H))) as HD. pose proof (fold_remove_DI _ cs d HD) as HD1.
    intros c Hc Hl. unfold d' in Hc, Hl |- *. apply reorganize_cls in Hc. destruct Hc as [Hc Hdel].
    destruct (di_small _ _ HD1 c Hc) as [E|E]; auto.
    + change (clits (reorganize (fold_left (fun d c => removeClause c d) cs d)) c) with (clits (fold_left (fun d c => removeClause c d) cs d) c) in Hl. lia.
    + unfold isDeleted in Hdel. rewrite E in Hdel. discriminate.
  - unfold db_init in Hi. pose proof (sb_D _ _ _ (SState_B _ _ _ _ (preach_SState _ _ _ _ H))) as HD.
    destruct (HG n d) as [E1 E2]. apply (HC _ _ _ _ Hi); rewrite E1; intros c Hc.
    + rewrite clits_alits, cwt_awt, E2. apply IH; auto.
    + rewrite E2. apply (di_rng _ _ HD), (di_cls _ _ HD); auto.
Qed.

Lemma Done_complete d w t c : SBase d w t -> Done d w t (length (tr t)) -> In c (cls d) ->
  2 <= length (clits d c) -> (length (clits d c) = 2 -> cwt d c = 0%N) ->
  (exists m, In m (clits d c) /\ value t m = Some true) \/
  (exists m1 m2, In m1 (clits d c) /\ In m2 (clits d c) /\ m1 <> m2 /\ value t m1 = None /\ value t m2 = None).
Proof.
  intros [HP HD HW HC HR] HDn Hc Hl H2. pose proof (pi_TI _ _ _ HP) as HT.
  pose proof (proj1 (di_WFA _ _ HD c)) as Hnd. change (alits (arena d) c) with (clits d c) in Hnd.
  assert (Hpos : forall m, value t m = Some false -> exists i, i < length (tr t) /\ nth_error (tr t) i = Some (lneg m)).
  { intros m Hm. apply (ti_val_false t m HT) in Hm. apply In_nth_error in Hm. destruct Hm as (i & Hi). exists i. split; auto. eapply nth_error_lt; eauto. }
  destruct (Nat.eq_dec (length (clits d c)) 2) as [E2|E2].
  - assert (Hx : forall x, In x (clits d c) -> value t x = Some false -> exists m, In m (clits d c) /\ value t m = Some true).
    { intros x Hin Hv. destruct (Hpos x Hv) as (i & Hi & Ei). destruct (HDn i _ Hi Ei) as [_ D2].
      destruct (di_cov2 _ _ HD c x Hc (H2 E2) E2 Hin) as (o & Ho). destruct (D2 c o Ho) as [V _]. exists o. split; auto.
      apply (di_BW _ _ HD (lneg x) c o Ho o). auto. }
    destruct (clits d c) as [|x [|y [|]]]; try discriminate.
    destruct (value t x) as [[|]|] eqn:Vx; [left; exists x; simpl; auto|left; apply (Hx x); simpl; auto|].
    destruct (value t y) as [[|]|] eqn:Vy; [left; exists y; simpl; auto|left; apply (Hx y); simpl; auto|].
    right. exists x, y. simpl. split; auto. split; auto. split; auto. intros ->. simpl in Hnd. inversion Hnd as [|? ? Hn _]. apply Hn. simpl; auto.
  - destruct (HC c Hc) as (x & y & z & r & E & Wx & Wy); [lia|]. change (alits (arena d) c) with (clits d c) in E.
    assert (Hx : forall x, In c (map fst (wl w (lneg x))) -> value t x = Some false -> exists m, In m (clits d c) /\ value t m = Some true).
    { intros u Hin Hv. destruct (Hpos u Hv) as (i & Hi & Ei). destruct (HDn i _ Hi Ei) as [D1 _]. apply in_map_iff in Hin.
      destruct Hin as ([c' b] & Ec & Hin). simpl in Ec. subst c'. destruct (D1 c b Hin) as (m & M1 & M2 & _). exists m. auto. }
    destruct (value t x) as [[|]|] eqn:Vx; [left; exists x; rewrite E; simpl; auto|left; apply (Hx x); auto|].
    destruct (value t y) as [[|]|] eqn:Vy; [left; exists y; rewrite E; simpl; auto|left; apply (Hx y); auto|].
    right. exists x, y. rewrite E. simpl. split; auto. split; auto. split; auto. intros ->. rewrite E in Hnd. simpl in Hnd. inversion Hnd as [|? ? Hn _]. apply Hn. simpl; auto.
Qed.

Lemma propagate_complete d w t d' w' t' : preach d w t None -> propagate d w t = Ok (None, d', w', t') ->
  forall c, In c (cls d') -> 2 <= length (clits d' c) ->
  (exists m, In m (clits d' c) /\ value t' m = Some true) \/
  (exists m1 m2, In m1 (clits d' c) /\ In m2 (clits d' c) /\ m1 <> m2 /\ value t' m1 = None /\ value t' m2 = None).
Proof.
  intros HP HE c Hc Hl. pose proof (preach_bin _ _ _ _ (pr_propagate _ _ _ _ _ _ _ HP HE)) as HB.
  destruct (preach_propagate d w t HP) as (k1 & d1 & w1 & t1 & E & HR & HS).
  rewrite HE in E. inversion E; subst k1 d1 w1 t1. clear E. simpl in HS.
  destruct HR as (A1 & A2 & A3 & A4 & A5 & A6 & A7 & A8 & A9 & A10 & A11). destruct (A11 eq_refl) as [Eq _].
  apply (Done_complete d' w' t' c (si_B _ _ _ HS)); auto. rewrite <- Eq. apply (si_Done _ _ _ HS). exact I.
Qed.

Lemma propagate_defined d w t : preach d w t None -> exists k d' w' t', propagate d w t = Ok (k, d', w', t').
Proof. intros H. destruct (preach_propagate d w t H) as (k & d' & w' & t' & E & _). eauto. Qed.
