(** Lemmas behind SimpProps. *)
Require Import List Arith Bool NArith Permutation Lia.
From Coq Require Import ZifyBool ZifyNat ZifyN.
Require Import Verif.Base Verif.CNFModel Verif.Outcome Verif.TrailModel Verif.TrailProofs Verif.DbModel Verif.PropModel Verif.PropProofs Verif.DbProofs
  Verif.PropSpec Verif.SimpModel Verif.SubsProofs Verif.SimpProofs Verif.SimpSpec.
Import ListNotations.

Definition NEmp (d : db) : Prop := empt d = false -> forall c, In c (cls d) -> clits d c <> [].

Lemma create_NEmp ls lbd lem d c d' n : DI n d -> createClause ls lbd lem d = Ok (c, d') -> NEmp d -> NEmp d'.
Proof.
  intros HD E H He x Hx. pose proof (createClause_created _ _ _ _ _ _ E) as HC. pose proof HC as (-> & _ & Ec & _ & Ee).
  rewrite Ee in He. destruct (Nat.eqb_spec (length ls) 0); [discriminate|].
  rewrite Ec, in_app_iff in Hx. destruct Hx as [Hx|[<-|[]]].
  - rewrite (clits_old _ _ _ _ _ HC) by (eapply cls_lt; eauto). apply H; auto.
  - rewrite (clits_new _ _ _ _ HC). destruct ls; simpl in *; congruence.
Qed.
Lemma create_all_inv n lem cs : forall d d', DI n d -> LenOk d -> NEmp d -> Forall (clause_ok n) cs ->
  create_all cs lem d = Ok d' -> DI n d' /\ LenOk d' /\ NEmp d'.
Proof.
  induction cs as [|c r IH]; intros d d' HD HL HN HF E; cbn [create_all] in E.
  - inversion E; subst. auto.
  - apply bind_ok in E. destruct E as ([x d1] & E1 & E2). inversion HF; subst. eapply IH; [| | |eauto|eauto].
    + eapply createClause_DI; eauto.
    + eapply created_LenOk; eauto.
    + eapply create_NEmp; eauto.
Qed.

Lemma dreach_inv d : dreach d -> DI (nv d) d /\ LenOk d /\ NEmp d.
Proof.
  induction 1 as [|d n cs d' _ IH HF E|d ls lbd c d' _ IH HO E|d c _ IH|d c l c' d' _ IH E|d _ IH|d a _ IH HL HP|d c w _ IH Hc H3|d _ IH].
  - split; [apply db_new_DI|]. split.
    + intros c. unfold clits, cobj_at. destruct c; cbn; lia.
    + intros _ c [].
  - destruct IH as (HD & HL & HN). unfold db_init in E. pose proof (db_grow_DI (nv d) n d HD) as HG.
    assert (G : DI (max n (nv d)) d' /\ LenOk d' /\ NEmp d').
    { eapply create_all_inv; [exact HG| | |exact HF|exact E].
      - unfold db_grow. destruct (nv d <? n); auto.
      - unfold db_grow. destruct (nv d <? n); auto. }
    destruct G as (G1 & G2). rewrite (di_nv _ _ G1). split; auto.
  - destruct IH as (HD & HL & HN). assert (HD' : DI (nv d) d') by (eapply createClause_DI; eauto).
    rewrite (di_nv _ _ HD'). split; auto. split; [exact (created_LenOk _ _ _ _ _ _ E HL)|exact (create_NEmp _ _ _ _ _ _ _ HD E HN)].
  - destruct IH as (HD & HL & HN). split; [apply removeClause_DI; auto|]. split; [apply remove_LenOk; auto|].
    intros He x Hx. rewrite clits_remove. apply HN; auto.
  - destruct IH as (HD & HL & HN). pose proof (strengthenClause_DI _ _ _ _ _ _ HD E) as HD'. rewrite (di_nv _ _ HD'). split; auto.
    unfold strengthenClause in E. apply bind_ok in E. destruct E as ([x d1] & E1 & E2). inversion E2; subst.
    split; [apply remove_LenOk; exact (created_LenOk _ _ _ _ _ _ E1 HL)|]. intros He y Hy. rewrite clits_remove.
    exact (create_NEmp _ _ _ _ _ _ _ HD E1 HN He y Hy).
  - destruct IH as (HD & HL & HN). split; [destruct HD; constructor; auto|]. split; auto. intros He. discriminate.
  - destruct IH as (HD & HL' & HN). assert (HA : aperm (arena d) a) by (split; auto).
    split; [apply (aperm_DI (nv d)); auto|]. split.
    + intros c. rewrite <- (Permutation_length (proj1 (HP c))). apply HL'.
    + intros He c Hc E. apply (HN He c Hc). apply Permutation_nil. rewrite <- E. apply Permutation_sym, HP.
  - destruct IH as (HD & HL & HN).
    assert (EL : forall x, clits (with_arena d (set_wt c w (arena d))) x = clits d x) by (intros; apply alits_set_wt).
    split; [apply set_wt_DI; auto|]. split.
    + intros x. rewrite EL. apply HL.
    + intros He x Hx. rewrite EL. apply HN; auto.
  - destruct IH as (HD & HL & HN). split; [apply (reorganize_DI (nv d)); auto|]. split; auto.
    intros He x Hx. apply reorganize_cls in Hx. apply (HN He). apply (di_live _ _ HD); apply Hx.
Qed.

Lemma sat_live d a : sat a (live_formula d) <-> forall c, LV d c -> sat_clause a (clits d c).
Proof.
  unfold live_formula, LV. split.
  - intros H c [Hc Hd]. apply H. apply in_map. apply filter_In. split; auto. rewrite Hd. auto.
  - intros H x Hx. apply in_map_iff in Hx. destruct Hx as (c & <- & Hc). apply filter_In in Hc. apply H. split; [apply Hc|].
    destruct Hc as [_ Hc]. apply negb_true_iff in Hc. auto.
Qed.
Lemma in_kept d c : In c (kept_formula d) <-> exists x, In x (cls d) /\ cwt d x = 0%N /\ clits d x = c.
Proof.
  unfold kept_formula. rewrite in_map_iff. split; intros (x & H).
  - destruct H as [<- H]. apply filter_In in H. exists x. split; [apply H|]. split; auto. apply N.eqb_eq, H.
  - exists x. split; [apply H|]. apply filter_In. split; [apply H|]. unfold isPersistent. apply N.eqb_eq, H.
Qed.
Lemma wt0_LV d c : In c (cls d) -> cwt d c = 0%N -> LV d c.
Proof. intros H E. split; auto. unfold isDeleted. rewrite E. reflexivity. Qed.
Lemma sat_clause_incl a c c' : incl c c' -> sat_clause a c -> sat_clause a c'.
Proof. intros H (l & L1 & L2). exists l. auto. Qed.

(** consequences of [spost] on the live clauses *)
Lemma spost_models n d s d' s' : SI n d s -> SL d s -> WR (fun _ => False) d s -> spost n d s d' s' -> equiv (live_formula d) (live_formula d').
Proof.
  intros H HL HW HP a. rewrite !sat_live. split; intros Ha c Hc.
  - destruct (sp_WE _ _ _ _ _ HP (fun a => forall c, LV d c -> sat_clause a (clits d c))) as [_ HN].
    { intros i x b Hi Hb. apply Hb. split; [apply (s_cls _ _ _ H i x Hi)|apply (sl_live _ _ HL i x Hi)]. }
    destruct (Nat.lt_ge_cases c (length (arena d))) as [Hlt|Hge].
    + rewrite (ds_lits _ _ (sp_step _ _ _ _ _ HP)) by auto. apply Ha. destruct Hc as [C1 C2]. split.
      * apply (ds_cls _ _ (sp_step _ _ _ _ _ HP)) in C1. destruct C1; auto. lia.
      * unfold isDeleted in *. destruct (ds_wt _ _ (sp_step _ _ _ _ _ HP) c Hlt) as [E|E]; rewrite E in C2; [auto|discriminate].
    + apply HN; auto. split; auto. apply (cls_lt n); [apply HP|]. apply Hc.
  - destruct (sp_SL _ _ _ _ _ HP HL) as [_ HC]. destruct (HC c Hc) as (c' & C1 & C2 & _). eapply sat_clause_incl; eauto.
Qed.

Lemma subsume_defined ptr d is : dreach d -> empt d = false ->
  exists b d' s' cnt, subsume_list ptr is d (sdb_init d) cnt0 = Ok (b, d', s', cnt).
Proof.
  intros H He. destruct (dreach_inv d H) as (HD & HL & HN). destruct (sdb_init_spec _ d HD HL (HN He)) as (HS & _).
  destruct (subsume_list_spec ptr _ is d (sdb_init d) cnt0 HS) as (b & d' & s' & cnt & E & _). eauto 6.
Qed.
Lemma subsume_models ptr d is b d' s' cnt : dreach d -> empt d = false -> no_deleted d ->
  subsume_list ptr is d (sdb_init d) cnt0 = Ok (b, d', s', cnt) ->
  equiv (live_formula d) (live_formula d') /\ (b = false -> unsat (live_formula d)).
Proof.
  intros H He Hn E. destruct (dreach_inv d H) as (HD & HL & HN). destruct (sdb_init_spec _ d HD HL (HN He)) as (HS & _ & HW & HSL).
  specialize (HSL Hn). destruct (subsume_list_spec ptr _ is d (sdb_init d) cnt0 HS) as (b1 & d1 & s1 & cnt1 & E1 & HP & Hb).
  rewrite E1 in E. inversion E; subst. split; [eapply spost_models; eauto|].
  intros Eb a Ha. apply (Hb Eb (fun a => sat a (live_formula d)) a); auto.
  intros i c a0 Hi Ha0. rewrite sat_live in Ha0. apply Ha0. split; [apply (s_cls _ _ _ HS i c Hi)|apply (sl_live _ _ HSL i c Hi)].
Qed.
Lemma subsume_kept ptr d is b d' s' cnt : dreach d -> empt d = false -> no_deleted d ->
  subsume_list ptr is d (sdb_init d) cnt0 = Ok (b, d', s', cnt) ->
  forall c, In c (kept_formula d) -> exists c', In c' (kept_formula d') /\ incl c' c.
Proof.
  intros H He Hn E c Hc. destruct (dreach_inv d H) as (HD & HL & HN). destruct (sdb_init_spec _ d HD HL (HN He)) as (HS & _ & HW & HSL).
  specialize (HSL Hn). destruct (subsume_list_spec ptr _ is d (sdb_init d) cnt0 HS) as (b1 & d1 & s1 & cnt1 & E1 & HP & Hb).
  rewrite E1 in E. inversion E; subst. apply in_kept in Hc. destruct Hc as (x & X1 & X2 & <-).
  destruct (proj2 (sp_SL _ _ _ _ _ HP HSL) x (wt0_LV _ _ X1 X2)) as (y & Y1 & Y2 & Y3).
  exists (clits d' y). split; auto. apply in_kept. exists y. split; [apply Y1|]. auto.
Qed.
Lemma subsume_new ptr d is b d' s' cnt : dreach d -> empt d = false -> no_deleted d ->
  subsume_list ptr is d (sdb_init d) cnt0 = Ok (b, d', s', cnt) ->
  nv d' = nv d /\ forall c, In c (live_formula d') -> clause_ok (nv d) c /\ c <> [].
Proof.
  intros H He Hn E. destruct (dreach_inv d H) as (HD & HL & HN). destruct (sdb_init_spec _ d HD HL (HN He)) as (HS & _ & HW & HSL).
  specialize (HSL Hn). destruct (subsume_list_spec ptr _ is d (sdb_init d) cnt0 HS) as (b1 & d1 & s1 & cnt1 & E1 & HP & Hb).
  rewrite E1 in E. inversion E; subst. split; [apply HP|]. intros c Hc. unfold live_formula in Hc. apply in_map_iff in Hc.
  destruct Hc as (x & <- & Hx). apply filter_In in Hx. destruct Hx as [X1 X2]. apply negb_true_iff in X2.
  split; [apply (di_WFA _ _ (s_D _ _ _ (sp_SI _ _ _ _ _ HP)) x)|].
  destruct (sp_WR _ _ _ _ _ HP (fun _ => False) HSL HW x (conj X1 X2)) as [(i & Hi)|[]]. apply (s_cls _ _ _ (sp_SI _ _ _ _ _ HP) i x Hi).
Qed.

Lemma flipped_subset_but l c d : flipped l c d -> subset_but l c d.
Proof.
  intros (H1 & H2 & H3). split; auto. intros m Hm. apply in_map_iff in Hm. destruct Hm as (x & E & Hx).
  destruct (Nat.eqb_spec x l); subst; auto.
Qed.
Lemma subset_but_flipped l c d : subset_but l c d -> flipped l c d.
Proof.
  intros (H1 & H2). split; auto. split.
  - apply H2. apply in_map_iff. exists l. rewrite Nat.eqb_refl. auto.
  - intros m Hm Hn. apply H2. apply in_map_iff. exists m. apply Nat.eqb_neq in Hn. rewrite Hn. auto.
Qed.
