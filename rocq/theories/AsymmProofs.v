(** Asymmetric variable reduction. *)
Require Import List Arith Bool NArith Permutation Lia.
From Coq Require Import ZifyBool ZifyNat ZifyN.
Require Import Verif.Base Verif.CNFModel Verif.CNFProofs Verif.Outcome Verif.TrailModel Verif.TrailSpec Verif.TrailProofs Verif.TrailLemmas Verif.DbModel Verif.PropModel Verif.PropProofs Verif.DbProofs
  Verif.PropSpec Verif.PropLemmas Verif.SimpModel Verif.SubsProofs Verif.SimpProofs.
Import ListNotations.

(** clause objects may be permuted, clauses are added and deleted *)
Record pstep (d d' : db) : Prop := {
  ps_len : length (arena d) <= length (arena d');
  ps_lits : forall c, c < length (arena d) -> Permutation (clits d c) (clits d' c);
  ps_cls : forall c, In c (cls d') <-> In c (cls d) \/ length (arena d) <= c < length (arena d');
  ps_wt : forall c, c < length (arena d) -> cwt d' c = cwt d c \/ cwt d' c = W_DELETED;
  ps_nv : nv d' = nv d;
  ps_empt : empt d' = empt d;
  ps_new : forall c, length (arena d) <= c < length (arena d') -> clits d' c <> [] }.
Lemma dstep_pstep d d' : dstep d d' -> pstep d d'.
Proof. intros [H1 H2 H3 H4 H5 H6 H7]. constructor; auto. intros c Hc. rewrite H2; auto. Qed.
Lemma pstep_refl d : pstep d d.
Proof. apply dstep_pstep, dstep_refl. Qed.
Lemma pstep_trans a b c : pstep a b -> pstep b c -> pstep a c.
Proof.
  intros [A1 A2 A3 A4 A5 A6 A7] [B1 B2 B3 B4 B5 B6 B7]. constructor; try congruence; try lia.
  - intros x Hx. eapply Permutation_trans; [apply A2; auto|apply B2; lia].
  - intros x. rewrite B3, A3. split; [intros [[H|H]|H]; auto; right; lia|intros [H|H]; auto].
    destruct (Nat.lt_ge_cases x (length (arena b))); [left; right; lia|right; lia].
  - intros x Hx. destruct (B4 x ltac:(lia)) as [->|E]; auto.
  - intros x Hx. destruct (Nat.lt_ge_cases x (length (arena b))); [|apply B7; lia].
    intros E. apply (A7 x ltac:(lia)). apply Permutation_nil. rewrite <- E. apply Permutation_sym. auto.
Qed.
Lemma aperm_pstep d a : aperm (arena d) a -> pstep d (with_arena d a).
Proof.
  intros [H1 H2]. constructor; cbn [with_arena arena cls nv empt]; auto; try lia.
  - intros c _. apply H2.
  - intros c. split; auto. intros [H|H]; auto. lia.
  - intros c _. left. apply H2.
Qed.
Lemma pstep_NE_trans P a b c : pstep b c -> NE P a b -> NE P b c -> NE P a c.
Proof.
  intros HS HA HB x v Hx Hv. destruct (Nat.lt_ge_cases x (length (arena b))) as [Hlt|Hge]; [|apply HB; auto; lia].
  destruct (HA x v ltac:(lia) Hv) as (l & L1 & L2). exists l. split; auto. eapply Permutation_in; [apply (ps_lits _ _ HS)|]; auto.
Qed.

Definition LE (P : assignment -> Prop) (d : db) (w : watches) : Prop :=
  forall c a, listed d w c -> P a -> sat_clause a (clits d c).
Definition TE (P : assignment -> Prop) (t : trail_t) : Prop := forall l a, In l (tr t) -> P a -> lit_holds a l.

Lemma sat_clause_perm a c c' : Permutation c c' -> sat_clause a c -> sat_clause a c'.
Proof. intros HP (l & L1 & L2). exists l. split; auto. eapply Permutation_in; eauto. Qed.

(** *** permuting literals *)
Section Perm.
Variables (n : nat) (d : db) (a : list cobj) (s : sdb).
Hypothesis HP : aperm (arena d) a.
Let d' := with_arena d a.
Lemma ap_in c l : In l (clits d' c) <-> In l (clits d c).
Proof. symmetry. apply (aperm_in (arena d) a); auto. Qed.
Lemma ap_len c : length (clits d' c) = length (clits d c).
Proof. symmetry. apply (aperm_len (arena d) a c HP). Qed.
Lemma ap_wt c : cwt d' c = cwt d c.
Proof. apply HP. Qed.
Lemma ap_LV c : LV d' c <-> LV d c.
Proof. unfold LV, isDeleted. rewrite ap_wt. reflexivity. Qed.
Lemma SI_aperm : SI n d s -> SI n d' s.
Proof.
  intros H. constructor; try apply H.
  - apply aperm_DI; auto. apply H.
  - intros c. rewrite ap_len. apply H.
  - intros i c Hi. destruct (s_cls _ _ _ H i c Hi) as [H1 H2]. split; auto. intros E. apply H2. apply length_zero_iff_nil. rewrite <- ap_len, E. auto.
  - intros v i c Hi Hc. destruct (s_occ _ _ _ H v i c Hi Hc) as (l & L1 & L2). exists l. rewrite ap_in. auto.
  - intros i c l Hi Hl. rewrite ap_in in Hl. apply (s_full _ _ _ H i c); auto.
Qed.
Lemma SL_aperm : SL d s -> SL d' s.
Proof. intros [H1 H2]. constructor; auto. intros i c Hi. unfold isDeleted. rewrite ap_wt. apply (H1 i c Hi). Qed.
Lemma WR_aperm X : WR X d s -> WR X d' s.
Proof. intros H c Hc. apply H. apply ap_LV. auto. Qed.
Lemma Cover_aperm : Cover d d'.
Proof. intros c Hc. exists c. rewrite ap_LV, ap_wt. split; auto. split; auto. intros l. rewrite ap_in. auto. Qed.
Lemma WE_aperm P : WE P d s -> WE P d' s.
Proof. intros H i c x Hi Hx. eapply sat_clause_perm; [apply HP|]. apply (H i c x Hi Hx). Qed.
Lemma NE_aperm P : NE P d d'.
Proof. intros c x Hc. destruct HP as [E _]. unfold d' in Hc. cbn [with_arena arena] in Hc. lia. Qed.
End Perm.

Lemma LE_prop P d w t k d' w' t' : LE P d w -> prop_result d w t k d' w' t' -> LE P d' w'.
Proof.
  intros H (A1 & A2 & A3 & A4 & A5 & A6 & A7 & A8 & A9 & A10 & A11) c a Hc Ha.
  assert (Hl : listed d w c).
  { destruct Hc as (q & [Hc|Hc]).
    - destruct (A8 c q Hc) as (q' & Hq). exists q'. auto.
    - exists q. right. rewrite A5 in Hc. exact Hc. }
  eapply sat_clause_perm; [|apply (H c a Hl Ha)]. apply A4.
Qed.

Lemma listed_lt d w c : W1 (arena d) w -> BW (arena d) (bw d) -> listed d w c -> c < length (arena d).
Proof.
  intros H1 H2 (q & H). destruct (Nat.lt_ge_cases c (length (arena d))) as [|Hge]; auto. exfalso.
  assert (E : alits (arena d) c = []) by (unfold alits; rewrite nth_overflow; auto).
  destruct H as [H|H]; apply in_map_iff in H; destruct H as ([c' b] & Ec & Hin); simpl in Ec; subst c'.
  - destruct (H1 q c b Hin) as [Hb _]. rewrite E in Hb. destruct Hb.
  - pose proof (proj2 (H2 q c b Hin b) (or_intror eq_refl)) as Hb. rewrite E in Hb. destruct Hb.
Qed.

Lemma LE_dstep P n d d' w : DI n d -> DI n d' -> dstep d d' -> W1 (arena d) w -> NE P d d' -> LE P d w -> LE P d' w.
Proof.
  intros HD HD' HS HW HN H c a Hc Ha. destruct (Nat.lt_ge_cases c (length (arena d))) as [Hlt|Hge].
  - rewrite (ds_lits _ _ HS) by auto. apply H; auto. destruct Hc as (q & [Hc|Hc]); [exists q; auto|].
    apply in_map_iff in Hc. destruct Hc as ([c' o] & Ec & Hin). simpl in Ec; subst c'.
    destruct (di_bw0 _ _ HD' q c o Hin) as (B1 & B2 & B3). rewrite (ds_lits _ _ HS) in B3 by auto.
    assert (Hcl : In c (cls d)) by (apply (ds_cls _ _ HS) in B1; destruct B1; auto; lia).
    assert (Hw : cwt d c = 0%N) by (destruct (ds_wt _ _ HS c Hlt) as [E|E]; rewrite E in B2; [auto|discriminate]).
    assert (Hx : exists x, In x (clits d c)) by (destruct (clits d c) as [|x r]; [discriminate|exists x; simpl; auto]). destruct Hx as (x & Hx).
    destruct (di_cov2 _ _ HD c x Hcl Hw B3 Hx) as (o' & Ho). exists (lneg x). right. apply in_map_iff. exists (c, o'). auto.
  - apply HN; auto. split; auto.
    destruct (Nat.lt_ge_cases c (length (arena d'))) as [|Hge']; auto. exfalso.
    destruct Hc as (q & [Hc|Hc]); apply in_map_iff in Hc; destruct Hc as ([c' o] & Ec & Hin); simpl in Ec; subst c'.
    + destruct (HW q c o Hin) as [Hb _]. unfold alits in Hb. rewrite nth_overflow in Hb by auto. destruct Hb.
    + destruct (di_bw0 _ _ HD' q c o Hin) as (B1 & B2 & B3). apply (di_cls _ _ HD'), (di_rng _ _ HD') in B1. lia.
Qed.

Lemma PInv_dstep d d' w t : PInv d w t -> DI (nvt t) d' -> dstep d d' -> PInv d' w t.
Proof.
  intros H HD HS. constructor; try apply H; try apply HD.
  - intros i l c Hi Hr. destruct (pi_TRe _ _ _ H i l c Hi Hr) as [H1 H2].
    assert (Hc : c < length (arena d)).
    { destruct (Nat.lt_ge_cases c (length (arena d))) as [|Hge]; auto. unfold alits in H1. rewrite nth_overflow in H1 by auto. destruct H1. }
    change (alits (arena d') c) with (clits d' c). rewrite (ds_lits _ _ HS) by auto. auto.
  - intros p c b Hin. destruct (pi_W1 _ _ _ H p c b Hin) as [H1 H2].
    assert (Hc : c < length (arena d)).
    { destruct (Nat.lt_ge_cases c (length (arena d))) as [|Hge]; auto. unfold alits in H1. rewrite nth_overflow in H1 by auto. destruct H1. }
    change (alits (arena d') c) with (clits d' c). rewrite (ds_lits _ _ HS) by auto. auto.
Qed.
Lemma PInv_newlevel d w t : PInv d w t -> PInv d w (newDecisionLevel t).
Proof. intros H. constructor; try apply H. apply TI_newlevel, H. Qed.
Lemma PInv_backtrack d w t k : PInv d w t -> PInv d w (backtrack k t).
Proof.
  intros HP. destruct (Nat.lt_ge_cases k (dlevel t)) as [Hk|Hk].
  2: { unfold backtrack. destruct (Nat.ltb_spec k (dlevel t)); [lia|auto]. }
  destruct (backtrack_fields k t Hk) as (E1 & E2 & E3 & E4 & E5 & E6 & E7).
  constructor; try solve [apply HP]; try (rewrite E3; apply HP).
  - apply TI_backtrack; auto. apply HP.
  - intros i l c Hi Hr. rewrite E1 in *. apply nth_error_firstn_iff in Hi. destruct Hi as [Hki Hi].
    unfold reason in Hr. rewrite E4 in Hr. destruct (pi_TRe _ _ _ HP i l c Hi Hr) as [H1 H2]. split; auto.
    intros m Hm Hne. destruct (H2 m Hm Hne) as (j & Hj & Ej). exists j. split; auto. apply nth_error_firstn_iff. split; auto. lia.
Qed.

(** *** deciding the negated literals of a clause *)
Lemma asymm_decide_spec v ls : forall ol d w t, PInv d w t -> NoDup (map lvar ls) -> (forall l, In l ls -> lvar l < nvt t) ->
  exists ol' t', asymm_decide v ls ol t = Ok (ol', t') /\ PInv d w t' /\ lim t' = lim t /\ nvt t' = nvt t /\ dec t' = dec t /\ assum t' = assum t /\
    exists ds, tr t' = tr t ++ map lneg ds /\ incl ds ls /\
      (forall l, ol' = Some l -> ol = Some l \/ (In l ls /\ ~ In l ds)) /\
      ((exists l, In l ls /\ lvar l = v) \/ ol <> None -> ol' <> None) /\
      (forall l, In l ds -> lvar l <> v) /\
      (forall l, In l (tr t) -> reason t' (lvar l) = reason t (lvar l)).
Proof.
  induction ls as [|x r IH]; intros ol d w t HP Hnd Hr; cbn [asymm_decide].
  - exists ol, t. split; auto. split; auto. split; auto. split; auto. split; auto. split; auto. exists []. simpl. rewrite app_nil_r. split; auto. split; [apply incl_refl|].
    split; auto. split; [|split; [intros l []|auto]]. intros [(l & [] & _)|H]; auto.
  - inversion Hnd as [|? ? Hx Hndr]; subst. destruct (negb (lvar x =? v) && is_undef (vvalue t (lvar x))) eqn:E.
    + apply andb_true_iff in E. destruct E as [E1 E2]. apply negb_true_iff, Nat.eqb_neq in E1.
      assert (Hxn : lvar x < nvt t) by (apply Hr; simpl; auto).
      assert (Hvv : vvalue t (lvar x) = None) by (destruct (vvalue t (lvar x)); [discriminate|auto]).
      assert (Hv : value t (lneg x) = None) by (unfold value; rewrite lvar_neg, Hvv; auto).
      rewrite decide_push by (apply (TI_room t (lneg x)); [apply HP|auto|rewrite lvar_neg; auto]). cbn [bind].
      destruct (IH ol d w (tpush (lneg x) None t)) as (ol' & t' & I1 & I2 & I3 & I4 & I5 & I6 & ds & D1 & D2 & D3 & D4 & D5 & D6); auto.
      * apply PInv_push_none; auto. rewrite lvar_neg. auto.
      * intros l Hl. apply Hr. simpl; auto.
      * exists ol', t'. split; auto. split; auto. split; auto. split; auto. split; auto. split; auto. exists (x :: ds). split; [rewrite D1; simpl; rewrite <- app_assoc; reflexivity|].
        split; [intros y [<-|Hy]; simpl; auto|]. split.
        { intros l Hl. destruct (D3 l Hl) as [D|[D D']]; auto. right. split; [simpl; auto|]. intros [<-|Hi]; auto. apply Hx. apply in_map; auto. }
        split; [|split; [intros l [<-|Hl]; auto|]].
        2: { intros l Hl. rewrite D6 by (simpl; apply in_app_iff; auto). rewrite reason_push by (rewrite (ti_vd t (pi_TI _ _ _ HP)), lvar_neg; auto).
             rewrite lvar_neg. destruct (Nat.eqb_spec (lvar l) (lvar x)) as [Elx|]; auto. exfalso.
             apply (value_none_notin t (lneg x) (pi_TI _ _ _ HP) Hv). rewrite lvar_neg, <- Elx. apply in_map; auto. }
        intros [(l & [<-|Hl] & Hlv)|H]; [contradiction|apply D4; left; eauto|apply D4; auto].
    + destruct (IH (Some x) d w t) as (ol' & t' & I1 & I2 & I3 & I4 & I5 & I6 & ds & D1 & D2 & D3 & D4 & D5 & D6); auto.
      * intros l Hl. apply Hr. simpl; auto.
      * exists ol', t'. split; auto. split; auto. split; auto. split; auto. split; auto. split; auto. exists ds. split; auto. split; [intros y Hy; simpl; auto|].
        split; [|split; [intros _; apply D4; right; discriminate|auto]].
        intros l Hl. destruct (D3 l Hl) as [D|[D D']]; [|right; simpl; auto]. inversion D; subst l. right. split; [simpl; auto|].
        intros Hi. apply D2 in Hi. apply Hx. apply in_map; auto.
Qed.

Record apost (n : nat) (d : db) (w : watches) (t : trail_t) (s : sdb) (d' : db) (w' : watches) (t' : trail_t) (s' : sdb) : Prop := {
  ap_SI : SI n d' s';
  ap_P : PInv d' w' t';
  ap_step : pstep d d';
  ap_E : forall P, WE P d s -> LE P d w -> TE P t -> WE P d' s' /\ LE P d' w' /\ NE P d d';
  ap_SL : SL d s -> SL d' s' /\ Cover d d';
  ap_WR : forall X, SL d s -> WR X d s -> WR X d' s';
  ap_vars : forall i c l, wclause s' i = Some c -> In l (clits d' c) -> exists j c0, wclause s j = Some c0 /\ In l (clits d c0);
  ap_tr : tr t' = tr t;
  ap_t : lim t' = [] /\ nvt t' = nvt t /\ dec t' = dec t /\ assum t' = assum t;
  ap_w : forall c q, In c (map fst (wl w' q)) -> exists q', In c (map fst (wl w q'));
  ap_wlen : length w' = length w;
  ap_vd : forall l, In l (tr t) -> reason t' (lvar l) = reason t (lvar l) }.

Lemma apost_refl n d w t s : SI n d s -> PInv d w t -> lim t = [] -> apost n d w t s d w t s.
Proof.
  intros H1 H2 H3. constructor; auto.
  - apply pstep_refl.
  - intros P A B C. split; auto. split; auto. apply NE_refl.
  - intros HL. split; auto. apply Cover_refl.
  - eauto.
  - eauto.
Qed.
Lemma apost_trans n d w t s d1 w1 t1 s1 d2 w2 t2 s2 :
  apost n d w t s d1 w1 t1 s1 -> apost n d1 w1 t1 s1 d2 w2 t2 s2 -> apost n d w t s d2 w2 t2 s2.
Proof.
  intros A B. constructor; try apply B.
  - eapply pstep_trans; [apply A|apply B].
  - intros P H1 H2 H3. destruct (ap_E _ _ _ _ _ _ _ _ _ A P H1 H2 H3) as (A1 & A2 & A3).
    destruct (ap_E _ _ _ _ _ _ _ _ _ B P A1 A2) as (B1 & B2 & B3).
    { intros l a Hl. apply H3. rewrite <- (ap_tr _ _ _ _ _ _ _ _ _ A). auto. }
    split; auto. split; auto. eapply pstep_NE_trans; [apply B|auto|auto].
  - intros HL. destruct (ap_SL _ _ _ _ _ _ _ _ _ A HL) as [A1 A2]. destruct (ap_SL _ _ _ _ _ _ _ _ _ B A1) as [B1 B2]. split; auto. eapply Cover_trans; eauto.
  - intros X HL HX. apply (ap_WR _ _ _ _ _ _ _ _ _ B); [apply (ap_SL _ _ _ _ _ _ _ _ _ A); auto|]. apply (ap_WR _ _ _ _ _ _ _ _ _ A); auto.
  - intros i c l Hi Hl. destruct (ap_vars _ _ _ _ _ _ _ _ _ B i c l Hi Hl) as (j & c0 & Hj & Hl0). exact (ap_vars _ _ _ _ _ _ _ _ _ A j c0 l Hj Hl0).
  - rewrite (ap_tr _ _ _ _ _ _ _ _ _ B). apply A.
  - destruct (ap_t _ _ _ _ _ _ _ _ _ A) as (A1 & A2 & A3 & A4). destruct (ap_t _ _ _ _ _ _ _ _ _ B) as (B1 & B2 & B3 & B4).
    split; auto. split; [congruence|]. split; congruence.
  - intros c q Hc. destruct (ap_w _ _ _ _ _ _ _ _ _ B c q Hc) as (q' & Hq). apply (ap_w _ _ _ _ _ _ _ _ _ A c q' Hq).
  - rewrite (ap_wlen _ _ _ _ _ _ _ _ _ B). apply A.
  - intros l Hl. rewrite (ap_vd _ _ _ _ _ _ _ _ _ B) by (rewrite (ap_tr _ _ _ _ _ _ _ _ _ A); auto). apply (ap_vd _ _ _ _ _ _ _ _ _ A); auto.
Qed.

(** a conflict refutes the decisions *)
Lemma conflict_refutes (P : assignment -> Prop) d w t1 c d2 w2 t2 a : PInv d w t1 -> LE P d w ->
  prop_result d w t1 (Some c) d2 w2 t2 -> P a -> (forall l, In l (tr t1) -> lit_holds a l) ->
  (forall l, In l (tr t1) -> lit_holds a l) -> False.
Proof.
  intros HI HL HR Ha Ht _. pose proof (LE_prop P _ _ _ _ _ _ _ HL HR) as HL2.
  destruct HR as (A1 & A2 & A3 & A4 & A5 & A6 & A7 & A8 & A9 & A10 & A11).
  destruct (A10 c eq_refl) as (B1 & B2 & _).
  assert (Hex : forall x, listed d w x -> sat_clause a (clits d2 x)).
  { intros x Hx. eapply sat_clause_perm; [|apply (HL x a Hx Ha)]. apply A4. }
  destruct (tx_tr _ _ A2) as (new & En & Hnew). cbn [with_qh tr] in En.
  assert (Hall : forall i l, nth_error (tr t2) i = Some l -> lit_holds a l).
  { apply (trail_entailed a d2 t2 (length (tr t1)) (pi_TI _ _ _ A1) (pi_TRe _ _ _ A1)).
    - intros i l Hi Hge. rewrite En in Hi. rewrite nth_error_app2 in Hi by auto. pose proof (nth_error_In _ _ Hi) as Hin.
      specialize (Hnew l Hin). destruct (reason t2 (lvar l)) as [r|] eqn:Er; [|congruence]. exists r. split; auto.
      assert (Hl2 : In l (tr t2)) by (rewrite En; apply in_app_iff; auto).
      destruct (A9 l r Hl2 Er) as [[N1 _]|N]; [|apply Hex; auto]. exfalso.
      pose proof (ti_nodup t2 (pi_TI _ _ _ A1)) as ND. rewrite En, map_app in ND.
      apply in_split in N1. destruct N1 as (p1 & p2 & Ep). rewrite Ep, map_app, <- app_assoc in ND. apply NoDup_remove_2 in ND. apply ND.
      rewrite !in_app_iff. right. right. apply in_map; auto.
    - intros i l Hi Hlt. apply Ht. rewrite En, nth_error_app1 in Hi by auto. eapply nth_error_In; eauto. }
  destruct (Hex c B2) as (m & M1 & M2). specialize (B1 m M1). apply (ti_val_false _ _ (pi_TI _ _ _ A1)) in B1.
  apply In_nth_error in B1. destruct B1 as (i & Hi). apply Hall in Hi. apply lit_holds_neg in Hi. auto.
Qed.

Lemma sub_size_len d d' s : (forall i c, wclause s i = Some c -> length (clits d' c) = length (clits d c)) -> sub_size d' s = sub_size d s.
Proof.
  rewrite !sub_size_sum. unfold wclause. induction (subs s) as [|o r IH]; simpl; intros H; auto.
  rewrite IH by (intros i c Hi; apply (H (S i) c Hi)). f_equal. destruct o as [c|]; auto. simpl. rewrite (H 0 c); auto.
Qed.

Lemma asymm_loop_full n v os : forall k d w t s, SI n d s -> PInv d w t -> nvt t = n -> lim t = [] -> NoDup os ->
  (forall i c, In i os -> wclause s i = Some c -> exists l, In l (clits d c) /\ lvar l = v) ->
  exists b k' d' w' t' s', asymm_loop v os k d w t s = Ok (b, k', d', w', t', s') /\ apost n d w t s d' w' t' s' /\
    (b = false -> forall P a, WE P d s -> LE P d w -> TE P t -> ~ P a) /\
    (b = true -> sub_size d' s' + k' <= sub_size d s + k).
Proof.
  induction os as [|i r IH]; intros k d w t s H HP Hn Hlim Hnd Hv; cbn [asymm_loop].
  - exists true, k, d, w, t, s. split; [reflexivity|]. split; [apply apost_refl; auto|]. split; [discriminate|auto].
  - inversion Hnd as [|? ? Hir Hndr]; subst.
    destruct (live s i && negb (satisfies_any t (wlits d s i))) eqn:E.
    2: { apply IH; auto. intros; eapply Hv; simpl; eauto. }
    apply andb_true_iff in E. destruct E as [E1 E2]. apply live_some in E1. destruct E1 as (c & Ec).
    assert (Ewl : wlits d s i = clits d c) by (unfold wlits; rewrite Ec; auto). rewrite Ewl in *.
    pose proof (di_WFA _ _ (s_D _ _ _ H) c) as [Wn Wr]. change (alits (arena d) c) with (clits d c) in Wn, Wr.
    destruct (asymm_decide_spec v (clits d c) None d w (newDecisionLevel t) (PInv_newlevel _ _ _ HP) Wn Wr)
      as (ol & t1 & D0 & D1 & D2 & D3 & Ddec & Das & ds & D4 & D5 & D6 & D7 & D8 & D9).
    rewrite D0. cbn [bind]. destruct (propagate_spec d w t1 D1) as (cf & d2 & w2 & t2 & EP & HR). rewrite EP. cbn [bind].
    cbv zeta. set (t3 := backtrack 0 t2).
    pose proof HR as (A1 & A2 & A3 & A4 & A5 & A6 & A7 & A8 & A9 & A10 & A11).
    assert (Hl2 : lim t2 = [length (tr t)]).
    { pose proof (tx_lim _ _ A2) as El. cbn [with_qh lim] in El. rewrite El, D2. unfold newDecisionLevel; cbn [lim]. rewrite Hlim. reflexivity. }
    assert (Hlt : 0 < dlevel t2) by (unfold dlevel; rewrite Hl2; simpl; lia).
    destruct (backtrack_fields 0 t2 Hlt) as (F1 & F2 & F3 & F4 & F5 & F6 & F7).
    assert (Ht3 : tr t3 = tr t).
    { unfold t3. rewrite F1, Hl2. cbn [nth]. destruct (tx_tr _ _ A2) as (new & En & _). cbn [with_qh tr] in En. rewrite En, D4.
      unfold newDecisionLevel; cbn [tr]. rewrite <- app_assoc, firstn_app, Nat.sub_diag, firstn_all. simpl. apply app_nil_r. }
    assert (Hf3 : lim t3 = [] /\ nvt t3 = nvt t /\ dec t3 = dec t /\ assum t3 = assum t).
    { unfold t3. rewrite F2, F3, F5, F6. rewrite (tx_nvt _ _ A2), (tx_dec _ _ A2), (tx_assum _ _ A2). cbn [with_qh nvt dec assum].
      rewrite D3, Ddec, Das. repeat split; reflexivity. }
    assert (Hvd3 : forall l, In l (tr t) -> reason t3 (lvar l) = reason t (lvar l)).
    { intros l Hl. unfold t3, reason. rewrite F4. fold (reason t2 (lvar l)).
      rewrite (proj2 (tx_vd _ _ A2 l (ltac:(cbn [with_qh tr]; rewrite D4; apply in_app_iff; auto)))). apply (D9 l Hl). }
    assert (HS2 : SI (nvt t) d2 s) by (rewrite A5; apply SI_aperm; auto).
    assert (HPi : PInv d2 w2 t3) by (apply PInv_backtrack; auto).
    assert (HA : apost (nvt t) d w t s d2 w2 t3 s).
    { constructor; auto.
      - rewrite A5; apply aperm_pstep; auto.
      - intros P X1 X2 X3. split; [rewrite A5; apply WE_aperm; auto|]. split; [eapply LE_prop; eauto|rewrite A5; apply NE_aperm; auto].
      - intros HL. split; [rewrite A5; apply SL_aperm; auto|rewrite A5; apply Cover_aperm; auto].
      - intros X HL HX. rewrite A5; apply WR_aperm; auto.
      - intros j x l Hj Hl. rewrite A5 in Hl. apply ap_in in Hl; auto. eauto. }
    assert (Hv2 : forall j x, In j r -> wclause s j = Some x -> exists l, In l (clits d2 x) /\ lvar l = v).
    { intros j x Hj Hx. destruct (Hv j x (or_intror Hj) Hx) as (l & L1 & L2). exists l. rewrite A5, ap_in; auto. }
    assert (HZ2 : sub_size d2 s = sub_size d s).
    { apply sub_size_len. intros j x Hj. rewrite A5, ap_len; auto. }
    destruct cf as [cf|].
    + destruct ol as [l|].
      2: { exfalso. apply D7; auto. left. destruct (Hv i c (or_introl eq_refl) Ec) as (l & L1 & L2). eauto. }
      destruct (D6 l eq_refl) as [|[Hl1 Hl2']]; [discriminate|].
      assert (Ewl2 : wlits d2 s i = clits d2 c) by (unfold wlits; rewrite Ec; auto). rewrite Ewl2.
      assert (Himp : forall P, WE P d s -> LE P d w -> TE P t -> forall a, P a -> exists x, In x ds /\ lit_holds a x).
      { intros P X1 X2 X3 a Ha. destruct (existsb (fun x => lit_val a x) ds) eqn:Ex.
        - apply existsb_exists in Ex. exact Ex.
        - exfalso. assert (Hh : forall y, In y (tr t1) -> lit_holds a y).
          { intros y Hy. rewrite D4 in Hy. unfold newDecisionLevel in Hy; cbn [tr] in Hy. apply in_app_iff in Hy. destruct Hy as [Hy|Hy]; [apply X3; auto|].
            apply in_map_iff in Hy. destruct Hy as (x & <- & Hx). apply lit_holds_neg. intros Hh.
            assert (existsb (fun x => lit_val a x) ds = true) by (apply existsb_exists; exists x; auto). congruence. }
          exact (conflict_refutes P d w t1 cf d2 w2 t2 a D1 X2 HR Ha Hh Hh). }
      destruct (Nat.ltb_spec 1 (length (clits d2 c))) as [Hlen|Hlen].
      * assert (Hlc : In l (clits d2 c)) by (rewrite A5, ap_in; auto).
        destruct (strengthen_gen (nvt t) i c l d2 s HS2 Ec Hlen Hlc) as (d3 & s3 & EX & (G1 & G2 & G3 & G4 & G5 & G6 & G7) & GZ & G8 & G9 & _).
        rewrite EX. cbn [bind].
        assert (HA3 : apost (nvt t) d w t s d3 w2 t3 s3).
        { constructor; auto.
          - apply (PInv_dstep d2); auto. rewrite (proj1 (proj2 Hf3)). apply G1.
          - eapply pstep_trans; [apply HA|apply dstep_pstep; auto].
          - intros P X1 X2 X3. destruct (ap_E _ _ _ _ _ _ _ _ _ HA P X1 X2 X3) as (Y1 & Y2 & Y3).
            assert (Hst : forall a, P a -> sat_clause a (lfilt l (clits d2 c))).
            { intros a Ha. destruct (Himp P X1 X2 X3 a Ha) as (x & X4 & X5). exists x. split; auto. apply lfilt_in. split; [|congruence].
              rewrite A5, ap_in; auto. }
            destruct (G3 P Y1 Hst) as [Z1 Z2]. split; auto. split.
            + apply (LE_dstep P (nvt t) d2); auto; [apply HS2|apply G1|apply A1].
            + eapply pstep_NE_trans; [apply dstep_pstep; eauto|auto|auto].
          - intros HL. destruct (ap_SL _ _ _ _ _ _ _ _ _ HA HL) as [Y1 Y2]. destruct (G4 Y1) as [Z1 Z2]. split; auto. eapply Cover_trans; eauto.
          - intros X HL HX. apply G5; [apply (ap_SL _ _ _ _ _ _ _ _ _ HA HL)|]. apply (ap_WR _ _ _ _ _ _ _ _ _ HA X HL HX).
          - intros j x y Hj Hy. destruct (G7 j x y Hj Hy) as (j' & c' & J1 & J2). apply (ap_vars _ _ _ _ _ _ _ _ _ HA j' c' y J1 J2). }
        destruct (IH (S k) d3 w2 t3 s3) as (b & k' & d' & w' & t' & s' & I1 & I2 & I3 & I4); auto; try apply HA3; try apply Hf3.
        -- intros j x Hj Hx. assert (Hji : j <> i) by (intros ->; auto). rewrite G9 in Hx. 
           assert (Hx' : wclause s j = Some x).
           { rewrite <- Hx. unfold sstr. change (wclause s j = wclause (mkS (set_nth i (Some (length (arena d2))) (subs s)) (occ s)) j).
             rewrite wclause_set by (eapply wclause_lt; eauto). destruct (Nat.eqb_spec j i); congruence. }
           destruct (Hv2 j x Hj Hx') as (y & Y1 & Y2). exists y. rewrite (ds_lits _ _ G2); auto.
           eapply cls_lt; [apply HS2|]. apply (s_cls _ _ _ HS2 j x Hx').
        -- exists b, k', d', w', t', s'. split; auto. split; [eapply apost_trans; eauto|].
           split; [|intros Eb; specialize (I4 Eb); lia]. intros Eb P a X1 X2 X3. apply (I3 Eb P a); try apply (ap_E _ _ _ _ _ _ _ _ _ HA3 P); auto. intros y z Hy. apply X3. rewrite <- Ht3. auto.
      * exists false, (S k), d2, w2, t3, s. split; [reflexivity|]. split; auto. split; [|discriminate]. intros _ P a X1 X2 X3 Ha.
        destruct (Himp P X1 X2 X3 a Ha) as (x & X4 & X5). pose proof (D8 x X4) as X6. apply D5 in X4.
        destruct (Hv i c (or_introl eq_refl) Ec) as (y & Y1 & Y2).
        assert (Hlen' : length (clits d c) <= 1) by (rewrite A5, ap_len in Hlen; auto).
        destruct (clits d c) as [|z [|z' q]]; simpl in *; try lia; destruct X4 as [X4|[]]; destruct Y1 as [Y1|[]]; congruence.
    + destruct (IH k d2 w2 t3 s) as (b & k' & d' & w' & t' & s' & I1 & I2 & I3 & I4); auto; try apply Hf3.
      exists b, k', d', w', t', s'. split; auto. split; [eapply apost_trans; eauto|].
      split; [|intros Eb; specialize (I4 Eb); lia]. intros Eb P a X1 X2 X3. apply (I3 Eb P a); try apply (ap_E _ _ _ _ _ _ _ _ _ HA P); auto. intros y z Hy. apply X3. rewrite <- Ht3. auto.
Qed.

Lemma asymm_loop_spec n v os : forall k d w t s, SI n d s -> PInv d w t -> nvt t = n -> lim t = [] -> NoDup os ->
  (forall i c, In i os -> wclause s i = Some c -> exists l, In l (clits d c) /\ lvar l = v) ->
  exists b k' d' w' t' s', asymm_loop v os k d w t s = Ok (b, k', d', w', t', s') /\ apost n d w t s d' w' t' s' /\
    (b = false -> forall P a, WE P d s -> LE P d w -> TE P t -> ~ P a).
Proof.
  intros k d w t s H1 H2 H3 H4 H5 H6. destruct (asymm_loop_full n v os k d w t s H1 H2 H3 H4 H5 H6) as (b & k' & d' & w' & t' & s' & E & A & B & _). exists b, k', d', w', t', s'. auto.
Qed.

Lemma asymm_vars_full n vs : forall k d w t s, SI n d s -> PInv d w t -> nvt t = n -> lim t = [] ->
  exists b k' d' w' t' s', asymm_vars vs k d w t s = Ok (b, k', d', w', t', s') /\ apost n d w t s d' w' t' s' /\
    (b = false -> forall P a, WE P d s -> LE P d w -> TE P t -> ~ P a) /\
    (b = true -> sub_size d' s' + k' <= sub_size d s + k).
Proof.
  induction vs as [|v r IH]; intros k d w t s H HP Hn Hlim; cbn [asymm_vars].
  - exists true, k, d, w, t, s. split; [reflexivity|]. split; [apply apost_refl; auto|]. split; [discriminate|auto].
  - destruct (is_undef (vvalue t v)); [|apply IH; auto].
    destruct (asymm_loop_full n v (occs s v) k d w t s H HP Hn Hlim (s_nd _ _ _ H v)) as (b & k1 & d1 & w1 & t1 & s1 & E & A & B & BN).
    { intros i c Hi Hc. exact (s_occ _ _ _ H v i c Hi Hc). }
    rewrite E. cbn [bind]. destruct b.
    + destruct (ap_t _ _ _ _ _ _ _ _ _ A) as (T1 & T2 & T3 & T4).
      destruct (IH k1 d1 w1 t1 s1) as (b & k' & d' & w' & t' & s' & I1 & I2 & I3 & I4); try apply A; try congruence.
      exists b, k', d', w', t', s'. split; auto. split; [eapply apost_trans; eauto|].
      split; [|intros Eb; specialize (I4 Eb); specialize (BN eq_refl); lia]. intros Eb P a X1 X2 X3. apply (I3 Eb P a); try apply (ap_E _ _ _ _ _ _ _ _ _ A P); auto. intros y z Hy. apply X3.
      rewrite <- (ap_tr _ _ _ _ _ _ _ _ _ A). auto.
    + exists false, k1, d1, w1, t1, s1. split; auto.
Qed.

Lemma asymm_vars_spec n vs : forall k d w t s, SI n d s -> PInv d w t -> nvt t = n -> lim t = [] ->
  exists b k' d' w' t' s', asymm_vars vs k d w t s = Ok (b, k', d', w', t', s') /\ apost n d w t s d' w' t' s' /\
    (b = false -> forall P a, WE P d s -> LE P d w -> TE P t -> ~ P a).
Proof.
  intros k d w t s H1 H2 H3 H4. destruct (asymm_vars_full n vs k d w t s H1 H2 H3 H4) as (b & k' & d' & w' & t' & s' & E & A & B & _). exists b, k', d', w', t', s'. auto.
Qed.

Lemma asymm_reduce_full active d w t s : SI (nvt t) d s -> PInv d w t -> lim t = [] ->
  exists b k' d' w' t' s', asymm_reduce active d w t s = Ok (b, k', d', w', t', s') /\ apost (nvt t) d w t s d' w' t' s' /\
    (b = false -> forall P a, WE P d s -> LE P d w -> TE P t -> ~ P a) /\
    (b = true -> sub_size d' s' + k' <= sub_size d s).
Proof.
  intros H HP Hlim. unfold asymm_reduce. destruct active; [destruct (asymm_vars_full (nvt t) (seq 0 (nvt t)) 0 d w t s H HP eq_refl Hlim) as (b & k' & d' & w' & t' & s' & E & A & B & BN); exists b, k', d', w', t', s'; split; auto; split; auto; split; auto; intros Eb; specialize (BN Eb); lia|].
  exists true, 0, d, w, t, s. split; [reflexivity|]. split; [apply apost_refl; auto|]. split; [discriminate|lia].
Qed.
Lemma asymm_reduce_spec active d w t s : SI (nvt t) d s -> PInv d w t -> lim t = [] ->
  exists b k' d' w' t' s', asymm_reduce active d w t s = Ok (b, k', d', w', t', s') /\ apost (nvt t) d w t s d' w' t' s' /\
    (b = false -> forall P a, WE P d s -> LE P d w -> TE P t -> ~ P a).
Proof.
  intros H1 H2 H3. destruct (asymm_reduce_full active d w t s H1 H2 H3) as (b & k' & d' & w' & t' & s' & E & A & B & _). exists b, k', d', w', t', s'. auto.
Qed.
