(** Invariants of the static watch lists (used by StaticProps). *)
Require Import List Arith Bool NArith Lia Permutation.
Require Import Verif.Base Verif.CNFModel Verif.CNFSpec Verif.CNFProofs Verif.HeapProofs Verif.Outcome Verif.TrailModel
  Verif.TrailProofs Verif.TrailLemmas Verif.DbModel Verif.PropModel Verif.PropProofs Verif.DbProofs Verif.PropSpec Verif.PropLemmas
  Verif.StaticModel Verif.StaticSpec.
Import ListNotations.

Definition sl (w : list (list nat)) (q : lit) : list nat := nth q w [].
Definition crf (m : list watcher) (i : nat) : cid := cref (wat m i).

(** the lists as lists of (clause, blocker) *)
Definition vw (m : list watcher) (w : list (list nat)) : watches := map (map (fun i => (crf m i, 0))) w.
Lemma wl_vw m w q : wl (vw m w) q = map (fun i => (crf m i, 0)) (sl w q).
Proof. unfold wl, vw, sl. change (@nil (cid * lit)) with (map (fun i => (crf m i, 0)) []). apply map_nth. Qed.
Lemma in_vw m w q c b : In (c, b) (wl (vw m w) q) <-> b = 0 /\ exists i, In i (sl w q) /\ crf m i = c.
Proof.
  rewrite wl_vw, in_map_iff. split.
  - intros (i & E & Hi). inversion E; subst. eauto.
  - intros (-> & i & Hi & <-). eauto.
Qed.
Lemma in_vw_fst m w q c : In c (map fst (wl (vw m w) q)) <-> exists i, In i (sl w q) /\ crf m i = c.
Proof.
  rewrite in_map_iff. split.
  - intros ([c' b] & E & Hi). simpl in E. subst. apply in_vw in Hi. apply Hi.
  - intros H. exists (c, 0). split; auto. apply in_vw. auto.
Qed.

Definition SW1 (a : list cobj) (m : list watcher) (w : list (list nat)) : Prop :=
  forall q i, In i (sl w q) -> i < length m /\ watch0 (wat m i) <> watch1 (wat m i) /\
    In (watch0 (wat m i)) (alits a (crf m i)) /\ In (watch1 (wat m i)) (alits a (crf m i)) /\
    3 <= length (alits a (crf m i)) /\ (watch0 (wat m i) = lneg q \/ watch1 (wat m i) = lneg q).
Definition SW2 (w : list (list nat)) : Prop := forall q, NoDup (sl w q).
(** one watcher for each clause *)
Definition SU (m : list watcher) (w : list (list nat)) : Prop :=
  forall q q' i j, In i (sl w q) -> In j (sl w q') -> crf m i = crf m j -> i = j.
Definition swatched (m : list watcher) (w : list (list nat)) (c : cid) : Prop :=
  exists i, i < length m /\ crf m i = c /\ In i (sl w (lneg (watch0 (wat m i)))) /\ In i (sl w (lneg (watch1 (wat m i)))).

Lemma sl_set_same w p l : p < length w -> sl (set_nth p l w) p = l.
Proof. intros H. apply nth_set_nth_same; auto. Qed.
Lemma sl_set_other w p l q : q <> p -> sl (set_nth p l w) q = sl w q.
Proof. intros H. apply nth_set_nth_other; auto. Qed.
Lemma sl_push_same w p x : p < length w -> sl (push_at p x w) p = sl w p ++ [x].
Proof. intros H. unfold push_at, sl. rewrite nth_set_nth_same by auto. auto. Qed.
Lemma sl_push_other w p x q : q <> p -> sl (push_at p x w) q = sl w q.
Proof. intros H. unfold push_at, sl. rewrite nth_set_nth_other by auto. auto. Qed.
Lemma sl_push_in w p x q y : In y (sl (push_at p x w) q) -> In y (sl w q) \/ (q = p /\ y = x).
Proof.
  intros H. destruct (Nat.eq_dec q p) as [->|Hn]; [|rewrite sl_push_other in H by auto; auto].
  destruct (Nat.lt_ge_cases p (length w)) as [Hl|Hl].
  - rewrite sl_push_same in H by auto. apply in_app_or in H. destruct H as [H|[H|[]]]; auto.
  - unfold push_at, sl in H. rewrite nth_overflow in H by (rewrite set_nth_length; auto). destruct H.
Qed.
Lemma sl_push_old w p x q y : In y (sl w q) -> In y (sl (push_at p x w) q).
Proof.
  intros H. destruct (Nat.eq_dec q p) as [->|Hn]; [|rewrite sl_push_other by auto; auto].
  destruct (Nat.lt_ge_cases p (length w)) as [Hl|Hl].
  - rewrite sl_push_same by auto. apply in_or_app; auto.
  - unfold sl in H. rewrite nth_overflow in H by auto. destruct H.
Qed.

Lemma sfind_some t np o ls l : sfind t np o ls = Some l -> In l ls /\ l <> np /\ l <> o /\ value t l <> Some false.
Proof.
  intros H. apply find_some in H. destruct H as [H1 H2]. apply andb_true_iff in H2. destruct H2 as [H2 H3].
  apply andb_true_iff in H2. destruct H2 as [H2 H4]. apply negb_true_iff in H2, H3, H4. apply Nat.eqb_neq in H2, H4.
  split; auto. split; auto. split; auto. intros E. apply is_false_iff in E. congruence.
Qed.
Lemma sfind_none t np o ls : sfind t np o ls = None -> forall l, In l ls -> l = np \/ l = o \/ value t l = Some false.
Proof.
  intros H l Hl. pose proof (find_none _ _ H l Hl) as E. cbn beta in E.
  destruct (Nat.eqb_spec l np); auto. destruct (Nat.eqb_spec l o); auto. simpl in E. apply negb_false_iff in E.
  apply is_false_iff in E. auto.
Qed.

(** ** One move of a watcher *)
Section Move.
Variables (a : list cobj) (p : lit) (i : nat) (r kept : list nat) (m : list watcher) (w : list (list nat)) (t : trail_t) (l other : lit).
Let V := set_nth p (kept ++ i :: r) w.
Hypothesis Hp : p < length w.
Hypothesis H1 : SW1 a m V.
Hypothesis H2 : SW2 V.
Hypothesis Ho : other = if watch0 (wat m i) =? lneg p then watch1 (wat m i) else watch0 (wat m i).
Hypothesis Hl : In l (alits a (crf m i)).
Hypothesis Hlp : lneg l <> p.
Hypothesis Hlo : l <> other.
Hypothesis Hlw : lneg l < length w.
Let m2 := set_nth i (mkW (crf m i) l other) m.
Let w2 := push_at (lneg l) i w.
Let V2 := set_nth p (kept ++ r) w2.

Lemma mv_i : In i (sl V p).
Proof. unfold V. rewrite sl_set_same by auto. apply in_or_app. simpl; auto. Qed.
Lemma mv_il : i < length m.
Proof. apply (H1 p i mv_i). Qed.
Lemma mv_oth : other <> lneg p /\ In other (alits a (crf m i)) /\
  ((watch0 (wat m i) = lneg p /\ watch1 (wat m i) = other) \/ (watch1 (wat m i) = lneg p /\ watch0 (wat m i) = other)).
Proof.
  destruct (H1 p i mv_i) as (_ & A1 & A2 & A3 & _ & A4). rewrite Ho.
  destruct (Nat.eqb_spec (watch0 (wat m i)) (lneg p)) as [E|E].
  - split; [congruence|]. auto.
  - split; auto. split; auto. right. destruct A4 as [A4|A4]; [congruence|auto].
Qed.
Lemma mv_self : wat m2 i = mkW (crf m i) l other.
Proof. unfold wat, m2. apply nth_set_nth_same. apply mv_il. Qed.
Lemma mv_other j : j <> i -> wat m2 j = wat m j.
Proof. intros H. unfold wat, m2. apply nth_set_nth_other; auto. Qed.
Lemma mv_crf j : crf m2 j = crf m j.
Proof. unfold crf. destruct (Nat.eq_dec j i) as [->|Hn]; [rewrite mv_self; reflexivity|rewrite mv_other; auto]. Qed.
Lemma mv_V q : sl V q = if q =? p then kept ++ i :: r else sl w q.
Proof. unfold V. destruct (Nat.eqb_spec q p) as [->|Hn]; [apply sl_set_same; auto|apply sl_set_other; auto]. Qed.
Lemma mv_V2 q : sl V2 q = if q =? p then kept ++ r else if q =? lneg l then sl w q ++ [i] else sl w q.
Proof.
  unfold V2. destruct (Nat.eqb_spec q p) as [->|Hq].
  - apply sl_set_same. unfold w2. rewrite push_at_length. auto.
  - rewrite sl_set_other by auto. destruct (Nat.eqb_spec q (lneg l)) as [->|Hn].
    + apply sl_push_same; auto.
    + apply sl_push_other; auto.
Qed.
Lemma mv_notkr : ~ In i (kept ++ r).
Proof. pose proof (H2 p) as H. rewrite mv_V, Nat.eqb_refl in H. apply NoDup_remove_2 in H. auto. Qed.
Lemma mv_cold : ~ In i (sl w (lneg l)).
Proof.
  intros Hin. destruct (H1 (lneg l) i) as (_ & _ & _ & _ & _ & A).
  { rewrite mv_V. destruct (Nat.eqb_spec (lneg l) p); [contradiction|auto]. }
  rewrite lneg_invol in A. destruct mv_oth as (B1 & _ & [[B2 B3]|[B2 B3]]); destruct A as [A|A]; try congruence.
  - rewrite B2 in A. apply Hlp. rewrite <- A. apply lneg_invol.
  - rewrite B2 in A. apply Hlp. rewrite <- A. apply lneg_invol.
Qed.
(** where a watcher is after the move *)
Lemma mv_in q j : In j (sl V2 q) -> (j <> i /\ In j (sl V q)) \/ (j = i /\ (q = lneg l \/ (q <> p /\ In i (sl V q)))).
Proof.
  rewrite mv_V2, mv_V. destruct (Nat.eq_dec j i) as [->|Hn].
  - intros H. right. split; auto. destruct (Nat.eqb_spec q p) as [Eq|Hq]; [exfalso; exact (mv_notkr H)|].
    destruct (Nat.eqb_spec q (lneg l)) as [Eql|Hql]; auto.
  - intros H. left. split; auto. destruct (Nat.eqb_spec q p) as [->|Hq].
    + apply in_app_or in H. apply in_or_app. simpl. tauto.
    + destruct (q =? lneg l); auto. apply in_app_or in H. destruct H as [H|[H|[]]]; auto. congruence.
Qed.
Lemma mv_grow q j : j <> i \/ q <> p -> In j (sl V q) -> In j (sl V2 q).
Proof.
  intros Hor. rewrite mv_V2, mv_V. destruct (Nat.eqb_spec q p) as [->|Hq].
  - destruct Hor as [Hor|Hor]; [|contradiction]. intros H. apply in_app_or in H. apply in_or_app. destruct H as [H|[H|H]]; auto. congruence.
  - destruct (q =? lneg l); auto. intros H. apply in_or_app; auto.
Qed.
Lemma mv_SW1 : SW1 a m2 V2.
Proof.
  intros q j Hj. rewrite mv_crf. assert (Hlen : length m2 = length m) by apply set_nth_length. rewrite Hlen.
  destruct (mv_in q j Hj) as [[Hn Hj']|[-> Hq]].
  - rewrite mv_other by auto. apply H1; auto.
  - rewrite mv_self. cbn [watch0 watch1]. destruct (H1 p i mv_i) as (A0 & _ & _ & _ & A3 & _). destruct mv_oth as (B1 & B2 & B3).
    split; [exact A0|]. split; [exact Hlo|]. split; [exact Hl|]. split; [exact B2|]. split; [exact A3|].
    destruct Hq as [->|[Hq Hin]]; [left; rewrite lneg_invol; auto|]. right.
    destruct (H1 q i Hin) as (_ & _ & _ & _ & _ & C). destruct B3 as [[E1 E2]|[E1 E2]]; rewrite E1, E2 in C; destruct C as [C|C]; auto;
      apply lneg_inj in C; congruence.
Qed.
Lemma mv_SW2 : SW2 V2.
Proof.
  intros q. pose proof (H2 q) as H. rewrite mv_V2. rewrite mv_V in H. destruct (Nat.eqb_spec q p) as [Eq|Hq].
  - apply NoDup_remove_1 in H. auto.
  - destruct (Nat.eqb_spec q (lneg l)) as [->|Hn]; auto.
    apply (Permutation_NoDup (l := i :: sl w (lneg l))); [apply Permutation_cons_append|]. constructor; auto. apply mv_cold.
Qed.
Lemma mv_watched c : swatched m V c -> swatched m2 V2 c.
Proof.
  intros (j & J1 & J2 & J3 & J4). exists j. split; [unfold m2; rewrite set_nth_length; auto|]. rewrite mv_crf. split; auto.
  destruct (Nat.eq_dec j i) as [->|Hn].
  - rewrite mv_self. cbn [watch0 watch1]. split.
    + rewrite mv_V2. destruct (Nat.eqb_spec (lneg l) p); [contradiction|]. rewrite Nat.eqb_refl. apply in_or_app; simpl; auto.
    + destruct mv_oth as (B1 & _ & B3). apply mv_grow.
      * right. intros E. apply B1. rewrite <- E. symmetry. apply lneg_invol.
      * destruct B3 as [[E1 E2]|[E1 E2]]; [rewrite E2 in J4|rewrite E2 in J3]; auto.
  - rewrite mv_other by auto. split; apply mv_grow; auto.
Qed.
End Move.

(** every watcher in the list of [q] has a literal that became true no later than the level of q *)
Definition SSat (a : list cobj) (m : list watcher) (w : list (list nat)) (t : trail_t) (q : lit) : Prop := Sat4 a (vw m w) t q.
Lemma SSat_sub a m w m' w' t q : (forall i, In i (sl w' q) -> In i (sl w q) /\ crf m' i = crf m i) -> SSat a m w t q -> SSat a m' w' t q.
Proof.
  intros H HS c b Hc. apply in_vw in Hc. destruct Hc as (-> & i & Hi & <-). destruct (H i Hi) as [Hi' E]. rewrite E.
  apply (HS (crf m i) 0). apply in_vw. eauto.
Qed.

Definition swatched_spec (a : list cobj) (p : lit) (ws kept : list nat) (m : list watcher) (w : list (list nat)) (t : trail_t) : Prop :=
  exists k ws' m' w' t', sprop_watched a p ws kept m w t = Ok (k, ws', m', w', t') /\
    let V := set_nth p (kept ++ ws) w in let V' := set_nth p ws' w' in
    TI t' /\ TRe a t' /\ text t t' /\ length w' = length w /\ length m' = length m /\ (forall i, crf m' i = crf m i) /\
    SW1 a m' V' /\ SW2 V' /\
    (forall c, swatched m V c -> swatched m' V' c) /\
    (forall q, q <> p -> In q (tr t) -> SSat a m V t q -> SSat a m' V' t' q) /\
    (forall c, k = Some c -> (forall x, In x (alits a c) -> value t' x = Some false) /\ In (lneg p) (alits a c) /\ In c (map (crf m) ws)) /\
    (k = None -> (forall i, In i kept -> exists x, In x (alits a (crf m i)) /\ value t x = Some true) ->
       forall i, In i ws' -> exists x, In x (alits a (crf m i)) /\ value t' x = Some true) /\
    (forall i q, In i (sl V' q) -> exists q', In i (sl V q')) /\
    (forall l c, In l (tr t') -> reason t' (lvar l) = Some c -> (In l (tr t) /\ reason t (lvar l) = Some c) \/ In c (map (crf m) ws)).

Lemma sprop_watched_spec a p : forall ws kept m w t,
  TI t -> TRe a t -> WFA (nvt t) a -> In p (tr t) -> p < length w ->
  (forall l, lvar l < nvt t -> l < length w) ->
  SW1 a m (set_nth p (kept ++ ws) w) -> SW2 (set_nth p (kept ++ ws) w) ->
  swatched_spec a p ws kept m w t.
Proof.
  induction ws as [|i r IH]; intros kept m w t HT HR HA Hp Hpw Hw H1 H2; unfold swatched_spec; cbn [sprop_watched].
  - exists None, kept, m, w, t. split; [reflexivity|]. rewrite app_nil_r in *.
    split; [exact HT|]. split; [exact HR|]. split; [apply text_refl|]. split; [reflexivity|]. split; [reflexivity|]. split; [reflexivity|].
    split; [exact H1|]. split; [exact H2|]. split; [auto|]. split; [auto|]. split; [discriminate|]. split; [auto|]. split; [eauto|]. auto.
  - set (g := wat m i). set (other := if watch0 g =? lneg p then watch1 g else watch0 g).
    assert (Hnp : value t (lneg p) = Some false) by (apply value_neg_false; apply (ti_val t HT); auto).
    assert (Hii : In i (sl (set_nth p (kept ++ i :: r) w) p)) by (rewrite sl_set_same by auto; apply in_or_app; simpl; auto).
    destruct (mv_oth a p i r kept m w other Hpw H1 eq_refl) as (O1 & O2 & O3).
    assert (EV : set_nth p ((kept ++ [i]) ++ r) w = set_nth p (kept ++ i :: r) w) by (rewrite <- app_assoc; reflexivity).
    destruct (is_true (value t other)) eqn:Eo.
    + apply is_true_iff in Eo.
      destruct (IH (kept ++ [i]) m w t HT HR HA Hp Hpw Hw) as (k & ws' & m' & w' & t' & E & A1 & A2 & A3 & A4 & A5 & A6 & A7 & A8 & A9 & A10 & A11 & A12 & A13 & A14).
      { rewrite EV; auto. } { rewrite EV; auto. }
      rewrite EV in *. exists k, ws', m', w', t'. split; [exact E|].
      split; [exact A1|]. split; [exact A2|]. split; [exact A3|]. split; [exact A4|]. split; [exact A5|].
      split; [exact A6|]. split; [exact A7|]. split; [exact A8|]. split; [exact A9|]. split; [exact A10|].
      split; [intros c Hc; destruct (A11 c Hc) as (? & ? & ?); simpl; auto|].
      split.
      * intros Hk HK. apply A12; auto. intros j Hj. apply in_app_or in Hj. destruct Hj as [Hj|[<-|[]]]; [auto|]. exists other. auto.
      * split; [exact A13|]. intros l c Hl0 Hr0. destruct (A14 l c Hl0 Hr0); simpl; auto.
    + change (lits (nth (cref g) a cnull)) with (alits a (crf m i)).
      destruct (sfind t (lneg p) other (alits a (crf m i))) as [l|] eqn:EF.
      * destruct (sfind_some _ _ _ _ _ EF) as (L1 & L2 & L3 & L4).
        assert (Hlp : lneg l <> p) by (intros E; apply L2; rewrite <- E; symmetry; apply lneg_invol).
        apply Nat.eqb_neq in Hlp. rewrite Hlp. apply Nat.eqb_neq in Hlp.
        assert (Hlw : lneg l < length w) by (apply Hw; rewrite lvar_neg; apply (HA (crf m i)); auto).
        change (cref g) with (crf m i).
        pose proof (mv_SW1 a p i r kept m w l other Hpw H1 H2 eq_refl L1 L3 Hlw) as M1.
        pose proof (mv_SW2 a p i r kept m w l other Hpw H1 H2 eq_refl Hlp L3 Hlw) as M2.
        pose proof (mv_watched a p i r kept m w l other Hpw H1 eq_refl Hlp Hlw) as M3.
        pose proof (mv_crf a p i r kept m w l other Hpw H1) as M4.
        pose proof (mv_in p i r kept w l Hpw H2 Hlw) as M5.
        set (m2 := set_nth i (mkW (crf m i) l other) m) in *. set (w2 := push_at (lneg l) i w) in *.
        assert (Hw2l : length w2 = length w) by apply push_at_length.
        destruct (IH kept m2 w2 t HT HR HA Hp) as (k & ws' & m' & w' & t' & E & A1 & A2 & A3 & A4 & A5 & A6 & A7 & A8 & A9 & A10 & A11 & A12 & A13 & A14); auto.
        { rewrite Hw2l; auto. } { rewrite Hw2l; auto. }
        assert (Emap : map (crf m2) r = map (crf m) r) by (apply map_ext; auto).
        rewrite Emap in *.
        exists k, ws', m', w', t'. split; [exact E|].
        split; [exact A1|]. split; [exact A2|]. split; [exact A3|]. split; [congruence|].
        split; [rewrite A5; apply set_nth_length|]. split; [intros j; rewrite A6; auto|].
        split; [exact A7|]. split; [exact A8|]. split; [auto|].
        split.
        { intros q Hq Hqt HS. apply A10; auto. revert HS. apply SSat_sub. intros j Hj. split; auto.
          destruct (M5 q j Hj) as [[_ Hj']|[-> [->|[_ Hj']]]]; auto.
          exfalso. apply L4. apply (ti_val_false t l HT); auto. }
        split; [intros c Hc; destruct (A11 c Hc) as (? & ? & ?); simpl; auto|].
        split.
        { intros Hk HK j Hj. rewrite <- M4. apply A12; auto. intros j' Hj'. rewrite M4. auto. }
        split.
        { intros j q Hj. destruct (A13 j q Hj) as (q' & Hq'). destruct (M5 q' j Hq') as [[_ Hj']|[-> _]]; eauto. }
        intros l0 c Hl0 Hr0. destruct (A14 l0 c Hl0 Hr0); simpl; auto.
      * pose proof (sfind_none _ _ _ _ EF) as Hall.
        destruct (is_false (value t other)) eqn:Eff.
        -- apply is_false_iff in Eff. exists (Some (cref g)), (kept ++ i :: r), m, w, t. split; [reflexivity|].
           split; [exact HT|]. split; [exact HR|]. split; [apply text_refl|]. split; [reflexivity|]. split; [reflexivity|]. split; [reflexivity|].
           split; [exact H1|]. split; [exact H2|]. split; [auto|]. split; [auto|].
           split; [|split; [discriminate|split; [eauto|auto]]].
           intros c Hc. inversion Hc; subst c. change (cref g) with (crf m i). split; [|split; [|simpl; auto]].
           ++ intros x Hx. destruct (Hall x Hx) as [->|[->|Hx']]; auto.
           ++ destruct (H1 p i Hii) as (_ & _ & W0 & W1' & _ & [E|E]); rewrite <- E; auto.
        -- assert (Hfn : value t other = None) by (destruct (value t other) as [[|]|]; try discriminate; auto).
           assert (Hfv : lvar other < nvt t) by (apply (HA (crf m i)); auto).
           rewrite tpropagate_push; [|eapply TI_room; eauto|congruence]. cbn [bind]. change (cref g) with (crf m i).
           set (t1 := tpush other (Some (crf m i)) t).
           assert (HT1 : TI t1) by (apply TI_push; auto).
           assert (HX : text t t1) by (apply text_push; auto).
           assert (HR1 : TRe a t1).
           { apply TRe_push; auto. intros x Hx Hn. destruct (Hall x Hx) as [->|[->|Hx']]; auto. congruence. }
           destruct (IH (kept ++ [i]) m w t1 HT1 HR1 HA (text_in _ _ _ HX Hp) Hpw Hw) as (k & ws' & m' & w' & t' & E & A1 & A2 & A3 & A4 & A5 & A6 & A7 & A8 & A9 & A10 & A11 & A12 & A13 & A14).
           { rewrite EV; auto. } { rewrite EV; auto. }
           rewrite EV in *. exists k, ws', m', w', t'. split; [exact E|].
           split; [exact A1|]. split; [exact A2|]. split; [eapply text_trans; eauto|]. split; [exact A4|]. split; [exact A5|].
           split; [exact A6|]. split; [exact A7|]. split; [exact A8|]. split; [exact A9|].
           split; [intros q Hq Hqi HS; apply A10; auto; [eapply text_in; eauto|]; apply (Sat4_mono _ _ t t1); auto|].
           split; [intros c Hc; destruct (A11 c Hc) as (? & ? & ?); simpl; auto|].
           split.
           ++ intros Hk HK. apply A12; auto. intros j Hj. apply in_app_or in Hj. destruct Hj as [Hj|[<-|[]]].
              ** destruct (HK j Hj) as (x & X1 & X2). exists x. split; auto. apply (text_true t t1); auto.
              ** exists other. split; auto. apply value_push_self. rewrite (ti_asg t HT); auto.
           ++ split; [exact A13|]. intros l c Hl0 Hr0. destruct (A14 l c Hl0 Hr0) as [[B1 B2]|B]; [|simpl; auto].
              unfold t1 in B1, B2. cbn [tpush tr] in B1. rewrite reason_push in B2 by (rewrite (ti_vd t HT); auto).
              destruct (Nat.eqb_spec (lvar l) (lvar other)) as [Ev|Ev].
              ** inversion B2. right. simpl. auto.
              ** apply in_app_or in B1. destruct B1 as [B1|[<-|[]]]; [auto|congruence].
Qed.
