Require Import List Arith Bool NArith ZArith Lia.
Require Import Verif.Base Verif.CNFModel Verif.CNFProofs Verif.Outcome Verif.TrailModel Verif.TrailSpec Verif.TrailProofs Verif.TrailLemmas.
Require Import Verif.HeapModel Verif.HeapProofs Verif.BranchModel Verif.BranchSpec.
Import ListNotations.

(** ** The trail *)
Lemma TI_assume ls t : TI t -> TI (setAssumptions ls t).
Proof. intros [H1 H2 H3 H4 H5 H6 H7 H8 H9]. constructor; assumption. Qed.
Lemma TI_flag v x t : TI t -> TI (setDecisionVar v x t).
Proof. intros [H1 H2 H3 H4 H5 H6 H7 H8 H9]. constructor; assumption. Qed.

Definition free (t : trail_t) (v : var) : Prop := v < nvt t /\ isDecisionVar v t = true /\ vvalue t v = None.

Definition BI (ph : phase) (t : trail_t) (h : heap_t) (n : nat) : Prop :=
  TI t /\ length (dec t) = nvt t /\ WF h /\ n <= length (idx h) /\
  (forall v, In v (hp h) -> v < n /\ v < nvt t) /\ (ph <> Stale -> nvt t <= n) /\
  (ph = Full -> forall v, v < nvt t -> isDecisionVar v t = true -> In v (hp h)) /\
  (ph = Search -> forall v, free t v -> In v (hp h)).

Lemma BI_free ph t h n v : BI ph t h n -> ph <> Stale -> free t v -> In v (hp h).
Proof.
  intros (H1 & H2 & H3 & H4 & H5 & H6 & H7 & H8) Hp Hf. destruct ph; [congruence|apply H7; auto; apply Hf|auto].
Qed.

Lemma set_vd_asg v x t : asg (set_vd v x t) = asg t. Proof. reflexivity. Qed.

Lemma exec_shape o t t' : trail_exec o t = Ok t' ->
  match o with
  | OpInit n => nvt t' = max n (nvt t)
  | OpBacktrack _ | OpReset => nvt t' = nvt t /\ dec t' = dec t
  | _ => nvt t' = nvt t /\ dec t' = dec t /\ forall v, vvalue t' v = None -> vvalue t v = None
  end.
Proof.
  assert (Hsv : forall l t t', set_value l t = Ok t' ->
    nvt t' = nvt t /\ dec t' = dec t /\ forall v, vvalue t' v = None -> vvalue t v = None).
  { intros l u u'. unfold set_value. destruct (length (tr u) <? nvt u); [|discriminate].
    intros E. inversion E; subst; clear E. cbn [nvt dec]. split; [auto|]. split; [auto|].
    intros v. unfold vvalue. cbn [asg]. rewrite nth_set_nth. destruct ((v =? lvar l) && _); [discriminate|auto]. }
  destruct o as [n| |l|l c|l|k|]; cbn [trail_exec].
  - intros E. inversion E; subst. unfold trail_init. destruct (Nat.ltb_spec (nvt t) n); cbn; lia.
  - intros E. inversion E; subst. cbn. auto.
  - unfold decide. intros E. apply bind_ok in E. destruct E as (u & E1 & E). inversion E; subst.
    apply Hsv in E1. exact E1.
  - intros E. apply bind_ok in E. destruct E as ([f u] & E1 & E). inversion E; subst. unfold tpropagate in E1.
    destruct (is_false (value t l)); [inversion E1; subst; auto|].
    apply bind_ok in E1. destruct E1 as (w & E1 & E2). inversion E2; subst. apply Hsv in E1. exact E1.
  - intros E. apply bind_ok in E. destruct E as ([f u] & E1 & E). inversion E; subst. unfold fact in E1.
    destruct (is_false (value t l)); [inversion E1; subst; auto|].
    destruct (is_true _); [inversion E1; subst; auto|].
    apply bind_ok in E1. destruct E1 as (w & E1 & E2). inversion E2; subst. apply Hsv in E1. exact E1.
  - intros E. inversion E; subst. unfold backtrack. destruct (k <? dlevel t); cbn; auto.
  - intros E. inversion E; subst. cbn. auto.
Qed.

Lemma BI_trail ph t h n o t' : BI ph t h n -> trail_legal o t -> trail_exec o t = Ok t' -> BI (after_op o ph) t' h n.
Proof.
  intros (H1 & H2 & H3 & H4 & H5 & H6 & H7 & H8) HL HE.
  destruct (exec_TI o t H1 HL) as (t2 & E2 & HT). rewrite HE in E2. inversion E2; subst t2; clear E2.
  assert (Hdec : length (dec t') = nvt t').
  { destruct o as [k| |l|l c|l|k|]; pose proof (exec_shape _ _ _ HE) as HS; cbn in HS;
    try (destruct HS as (-> & -> & ?); auto; fail); try (destruct HS as (-> & ->); auto; fail).
    cbn in HE. inversion HE; subst. unfold trail_init. destruct (Nat.ltb_spec (nvt t) k); auto. cbn.
    rewrite resize_length; lia. }
  pose proof (exec_shape _ _ _ HE) as HS.
  assert (Hn : nvt t <= nvt t').
  { destruct o; cbn in HS; try lia; destruct HS as (-> & _); lia. }
  split; [auto|]. split; [auto|]. split; [auto|]. split; [auto|].
  split; [intros v Hv; destruct (H5 v Hv); lia|].
  destruct ph.
  - destruct o; cbn; (split; [congruence|split; discriminate]).
  - destruct o; cbn; cbn in HS; try (split; [congruence|split; discriminate]);
    destruct HS as (EN & ED); try destruct ED as (ED & _); unfold isDecisionVar in *; rewrite ?EN, ?ED in *;
    (split; [intros _; apply H6; congruence|]; split; [auto|discriminate]).
  - destruct o; cbn; cbn in HS; try (split; [congruence|split; discriminate]);
    destruct HS as (EN & ED & HV); unfold free, isDecisionVar in *; rewrite ?EN, ?ED in *;
    (split; [intros _; apply H6; congruence|]; split; [discriminate|]); intros _ v (F1 & F2 & F3); apply H8; auto.
Qed.

Lemma BI_new : BI Stale trail_new (mkHeap [] []) 0.
Proof.
  split; [apply TI_new|]. split; [reflexivity|]. split; [|].
  { intros i x. cbn. destruct i, x; cbn; split; discriminate. }
  split; [cbn; lia|]. split; [intros v []|]. split; [congruence|]. split; discriminate.
Qed.

Lemma BI_assume ph t h n ls : BI ph t h n -> BI ph (setAssumptions ls t) h n.
Proof.
  intros (H1 & H2 & H3 & H4 & H5 & H6 & H7 & H8). split; [apply TI_assume; auto|]. auto 10.
Qed.

Lemma flag_dec v x t w : isDecisionVar w (setDecisionVar v x t) = true -> x = true \/ isDecisionVar w t = true.
Proof.
  unfold isDecisionVar, setDecisionVar. cbn [dec]. rewrite nth_set_nth.
  destruct ((w =? v) && _); auto. 
Qed.

Lemma BI_flag ph t h n v (x : bool) : BI ph t h n -> BI (if x then Stale else ph) (setDecisionVar v x t) h n.
Proof.
  intros (H1 & H2 & H3 & H4 & H5 & H6 & H7 & H8). split; [apply TI_flag; auto|].
  split; [cbn; rewrite set_nth_length; auto|]. split; [auto|]. split; [auto|]. split; [auto|].
  destruct x; [split; [congruence|split; discriminate]|]. split; [auto|]. split.
  - intros E w Hw Hd. apply H7; auto. apply flag_dec in Hd. destruct Hd; [discriminate|auto].
  - intros E w (F1 & F2 & F3). apply H8; auto. apply flag_dec in F2. destruct F2; [discriminate|]. split; auto.
Qed.

Lemma BI_stale ph t h n : BI ph t h n -> BI Stale t h n.
Proof.
  intros (H1 & H2 & H3 & H4 & H5 & H6 & H7 & H8). split; [auto|]. split; [auto|]. split; [auto|]. split; [auto|].
  split; [auto|]. split; [congruence|]. split; discriminate.
Qed.

Lemma decision_vars_in t v : In v (decision_vars t) <-> v < nvt t /\ isDecisionVar v t = true.
Proof. unfold decision_vars. rewrite filter_In, in_seq. split; intros [H1 H2]; split; auto; lia. Qed.

Lemma BI_reset ph t h n lt : BI ph t h n -> nvt t <= n ->
  exists h', hbuild lt (decision_vars t) h = Some h' /\ BI Full t h' n /\ (SWO lt -> HO lt (hp h')).
Proof.
  intros (H1 & H2 & H3 & H4 & H5 & H6 & H7 & H8) Hn.
  destruct (hbuild_spec lt (decision_vars t) h) as (h' & E & W & L & I & O); auto.
  - unfold decision_vars. apply NoDup_filter, seq_NoDup.
  - intros x Hx. apply decision_vars_in in Hx. lia.
  - exists h'. split; [auto|]. split; [|auto]. split; [auto|]. split; [auto|]. split; [auto|]. split; [lia|].
    split. { intros v Hv. apply I, decision_vars_in in Hv. lia. }
    split; [auto|]. split; [|discriminate]. intros _ v Hv Hd. apply I, decision_vars_in. auto.
Qed.

Lemma BI_grow ph t h n : BI ph t h n -> BI Stale t (hgrow (nvt t) h) (max n (nvt t)).
Proof.
  intros (H1 & H2 & H3 & H4 & H5 & H6 & H7 & H8). destruct (hgrow_spec (nvt t) h H3) as (W & E & L).
  split; [auto|]. split; [auto|]. split; [auto|]. split; [lia|].
  split. { intros v. rewrite E. intros Hv. destruct (H5 v Hv). lia. }
  split; [congruence|]. split; discriminate.
Qed.

Lemma BI_clear ph t h n : BI ph t h n -> exists h', hclear h = Some h' /\ BI Stale trail_new h' 0.
Proof.
  intros (H1 & H2 & H3 & H4 & H5 & H6 & H7 & H8). destruct (hclear_spec h H3) as (h' & E & W & E0 & L & _).
  exists h'. split; [auto|]. split; [apply TI_new|]. split; [auto|]. split; [auto|]. split; [lia|].
  split; [rewrite E0; intros v []|]. split; [congruence|]. split; discriminate.
Qed.

(** ** pickBranchLit *)
Lemma hempty_iff h : hempty h = true <-> hp h = [].
Proof. unfold hempty. rewrite Nat.eqb_eq. destruct (hp h); cbn; split; congruence. Qed.

Definition pickable (t : trail_t) (v : var) : Prop := vvalue t v = None /\ isDecisionVar v t = true.

Lemma WF_length h h' x : WF h -> WF h' -> In x (hp h) -> (forall y, In y (hp h') <-> In y (hp h) /\ y <> x) ->
  length (hp h') < length (hp h).
Proof.
  intros W W' Hx HI. pose proof (WF_NoDup h W) as N. pose proof (WF_NoDup h' W') as N'.
  assert (NoDup (x :: hp h')).
  { constructor; auto. intros H. apply HI in H. tauto. }
  assert (length (x :: hp h') <= length (hp h)).
  { apply NoDup_incl_length; auto. intros y [<-|Hy]; auto. apply HI in Hy. tauto. }
  cbn in *. lia.
Qed.

Lemma pick_loop_spec fuel lt t : forall h, WF h -> length (hp h) < fuel ->
  exists r h', pick_loop fuel lt t h = Ok (r, h') /\ WF h' /\ length (idx h') = length (idx h) /\
    (forall y, In y (hp h') -> In y (hp h)) /\
    (SWO lt -> HO lt (hp h) -> HO lt (hp h')) /\
    match r with
    | None => forall v, In v (hp h) -> ~ pickable t v
    | Some x => In x (hp h) /\ pickable t x /\ (forall v, In v (hp h) -> pickable t v -> v = x \/ In v (hp h')) /\
                (SWO lt -> HO lt (hp h) -> forall v, In v (hp h) -> pickable t v -> lt v x = false)
    end.
Proof.
  induction fuel as [|f IH]; intros h W HL; [lia|]. cbn [pick_loop].
  destruct (hempty h) eqn:EE.
  - apply hempty_iff in EE. exists None, h. split; [auto|]. split; [auto|]. split; [auto|]. split; [auto|]. split; [auto|].
    rewrite EE. intros v [].
  - assert (Hne : hp h <> []) by (intros E; apply hempty_iff in E; congruence).
    destruct (removeMin_spec lt h W Hne) as (x & h1 & E1 & W1 & L1 & Hx & I1 & O1). rewrite E1. cbn [oget bind].
    destruct (is_undef (vvalue t x) && isDecisionVar x t) eqn:EP.
    + apply andb_true_iff in EP. destruct EP as [EP1 EP2].
      assert (PX : pickable t x) by (split; auto; destruct (vvalue t x); [discriminate|auto]).
      exists (Some x), h1. split; [auto|]. split; [auto|]. split; [auto|].
      split; [intros y Hy; apply I1 in Hy; tauto|]. split; [intros HS HH; apply O1; auto|].
      split; [auto|]. split; [auto|]. split.
      * intros v Hv _. destruct (Nat.eq_dec v x); auto. right. apply I1. auto.
      * intros HS HH v Hv _. apply O1; auto.
    + assert (NX : ~ pickable t x).
      { intros [P1 P2]. rewrite P1, P2 in EP. discriminate. }
      pose proof (WF_length h h1 x W W1 Hx I1) as HLt.
      destruct (IH h1 W1 ltac:(lia)) as (r & h' & E2 & W2 & L2 & I2 & O2 & R2).
      exists r, h'. split; [auto|]. split; [auto|]. split; [congruence|].
      split; [intros y Hy; apply I2, I1 in Hy; tauto|]. split; [intros HS HH; apply O2; auto; apply O1; auto|].
      assert (Hback : forall v, In v (hp h) -> pickable t v -> In v (hp h1)).
      { intros v Hv HP. apply I1. split; auto. intros ->. auto. }
      destruct r as [y|].
      * destruct R2 as (R1 & R2 & R3 & R4). split; [apply I1 in R1; tauto|]. split; [auto|]. split; [auto|].
        intros HS HH v Hv HP. apply R4; auto. apply O1; auto.
      * intros v Hv HP. apply (R2 v); auto.
Qed.

Lemma value_var t p : value t p = None <-> vvalue t (lvar p) = None.
Proof. unfold value. destruct (vvalue t (lvar p)); cbn; split; congruence. Qed.

Lemma pick_BI ph t h n lt : BI ph t h n -> ph <> Stale ->
  exists r h', pick_loop (S (hsize h)) lt t h = Ok (r, h') /\
    match r with
    | None => BI Search t h' n /\ forall v, ~ free t v
    | Some x => x < n /\ free t x /\
        (forall s t', decide (mkLit x s) (newDecisionLevel t) = Ok t' -> BI Search t' h' n) /\
        (SWO lt -> HO lt (hp h) -> forall v, free t v -> lt v x = false)
    end /\ (SWO lt -> HO lt (hp h) -> HO lt (hp h')).
Proof.
  intros HB Hp. pose proof HB as (H1 & H2 & H3 & H4 & H5 & H6 & H7 & H8).
  destruct (pick_loop_spec (S (hsize h)) lt t h H3 ltac:(unfold hsize; lia)) as (r & h' & E & W & L & I & O & R).
  exists r, h'. split; [auto|]. split; [|auto]. destruct r as [x|].
  - destruct R as (R1 & (R2a & R2b) & R3 & R4). destruct (H5 x R1) as [Hx1 Hx2].
    split; [auto|]. split; [split; auto|]. split.
    + intros s t' HD.
      assert (HB' : BI (after_op (OpDecide (mkLit x s)) (after_op OpNewLevel Search)) t' h n).
      { apply BI_trail with (t := newDecisionLevel t); auto.
        - apply BI_trail with (t := t) (o := OpNewLevel); [|exact Logic.I|reflexivity].
          split; [auto|]. split; [auto|]. split; [auto|]. split; [auto|]. split; [auto|].
          split; [intros _; auto|]. split; [discriminate|]. intros _ v Hv. apply (BI_free ph t h n); auto.
        - cbn [trail_legal]. rewrite lvar_mk. split; [exact Hx2|]. apply value_var. rewrite lvar_mk. exact R2a. }
      cbn in HB'. destruct HB' as (G1 & G2 & G3 & G4 & G5 & G6 & G7 & G8).
      split; [auto|]. split; [auto|]. split; [auto|]. split; [lia|].
      split; [intros v Hv; apply G5; auto|]. split; [auto|]. split; [discriminate|].
      intros _ v HF. pose proof (G8 eq_refl v HF) as Hin. destruct HF as (F1 & F2 & F3).
      destruct (exec_shape (OpDecide (mkLit x s)) _ _ HD) as (EN & ED & HV).
      assert (HP : pickable t v).
      { split; [apply HV in F3; exact F3|]. unfold isDecisionVar in *. rewrite ED in F2. exact F2. }
      destruct (R3 v Hin HP) as [->|]; auto. exfalso.
      unfold decide in HD. apply bind_ok in HD. destruct HD as (u & HD & HE). inversion HE; subst t'. clear HE.
      unfold set_value in HD. destruct (_ <? _) in HD; [|discriminate]. inversion HD; subst u. clear HD.
      unfold vvalue in F3. cbn [asg set_vd newDecisionLevel] in F3. rewrite lvar_mk, nth_set_nth_same in F3; [discriminate|].
      rewrite (ti_asg t H1). auto.
    + intros HS HH v HF. apply R4; auto; [apply (BI_free ph t h n); auto|]. destruct HF as (F1 & F2 & F3). split; auto.
  - split.
    + split; [auto|]. split; [auto|]. split; [auto|]. split; [lia|]. split; [intros v Hv; apply H5; auto|].
      split; [intros _; auto|]. split; [discriminate|]. intros _ v HF. exfalso.
      pose proof (BI_free _ _ _ _ _ HB Hp HF) as Hin. destruct HF as (F1 & F2 & F3). apply (R v Hin). split; auto.
    + intros v HF. pose proof (BI_free _ _ _ _ _ HB Hp HF) as Hin. destruct HF as (F1 & F2 & F3). apply (R v Hin). split; auto.
Qed.

(** ** Conflicts *)
Lemma trail_from_some lev t : lev < dlevel t -> trail_from lev t = Ok (skipn (nth lev (lim t) 0) (tr t)).
Proof. intros H. unfold trail_from. apply Nat.ltb_lt in H. unfold dlevel in H. rewrite H. reflexivity. Qed.

Lemma in_skipn {A} (l : list A) n x : In x (skipn n l) -> In x l.
Proof. intros H. rewrite <- (firstn_skipn n l). apply in_or_app. auto. Qed.

(** refilling the heap with the variables that are about to be unassigned, then backtracking *)
Lemma BI_backtrack ph t h n bl h' : BI ph t h n -> ph <> Stale -> bl < dlevel t ->
  WF h' -> length (idx h') = length (idx h) ->
  (forall y, In y (hp h') <-> In y (hp h) \/ (In y (map lvar (skipn (nth bl (lim t) 0) (tr t))) /\ isDecisionVar y t = true)) ->
  BI Search (backtrack bl t) h' n.
Proof.
  intros HB Hp Hbl W L I. pose proof HB as (H1 & H2 & H3 & H4 & H5 & H6 & H7 & H8).
  destruct (backtrack_fields bl t Hbl) as (E1 & E2 & E3 & E4 & E5 & E6 & E7).
  split; [apply TI_backtrack; auto|]. split; [congruence|]. split; [auto|]. split; [lia|]. rewrite E3.
  split.
  { intros v Hv. apply I in Hv. destruct Hv as [Hv|[Hv _]]; [auto|].
    apply in_map_iff in Hv. destruct Hv as (l & <- & Hl). apply in_skipn in Hl. apply (ti_range t H1) in Hl.
    specialize (H6 Hp). lia. }
  split; [intros _; auto|]. split; [discriminate|].
  intros _ v (F1 & F2 & F3). rewrite E3 in F1. unfold isDecisionVar in F2. rewrite E5 in F2. fold (isDecisionVar v t) in F2.
  apply I. unfold backtrack in F3. apply Nat.ltb_lt in Hbl. rewrite Hbl in F3. unfold vvalue in F3. cbn [asg] in F3.
  rewrite unassign_nth in F3. destruct (in_dec _ _ _) as [Hi|Hi] in F3; [right; auto|].
  left. apply (BI_free ph t h n); auto. split; auto.
Qed.

Section Numbers.
Variable A : arith.

Lemma upd_some {B} (l : list B) i x : i < length l -> upd l i x = Some (set_nth i x l).
Proof. intros H. unfold upd. apply Nat.ltb_lt in H. rewrite H. reflexivity. Qed.

Section Ord.
Variables (pos dcy : F A -> Prop).
Hypothesis OR : ordered A pos dcy.

Lemma order_swo act : SWO (order A act).
Proof.
  unfold order. constructor; intros; [apply (gt_irrefl A pos dcy OR)|eapply (gt_trans A pos dcy OR); eauto|eapply (gt_incomp A pos dcy OR); eauto].
Qed.

Lemma order_scale act x y : x < length act -> y < length act ->
  order A act x y = false -> order A (map (f_scale A) act) x y = false.
Proof.
  unfold order. intros Hx Hy H.
  rewrite (nth_indep (map (f_scale A) act) (f_zero A) (f_scale A (f_zero A))) by (rewrite map_length; auto).
  rewrite (nth_indep (map (f_scale A) act) (f_zero A) (f_scale A (f_zero A)) (n := y)) by (rewrite map_length; auto).
  rewrite !map_nth. apply (scale_mono A pos dcy OR). auto.
Qed.
End Ord.

Lemma vs_bump_spec amount v b : WF (vs_heap A b) -> v < length (vs_act A b) ->
  exists b', vs_bump A amount v b = Ok b' /\ WF (vs_heap A b') /\
    length (idx (vs_heap A b')) = length (idx (vs_heap A b)) /\
    (forall y, In y (hp (vs_heap A b')) <-> In y (hp (vs_heap A b))) /\
    length (vs_act A b') = length (vs_act A b) /\ vs_pol A b' = vs_pol A b /\ vs_decay A b' = vs_decay A b /\
    (forall pos dcy, ordered A pos dcy -> (forall w i, pos i -> pos (amount w i)) -> pos (vs_inc A b) ->
      (forall y, In y (hp (vs_heap A b)) -> y < length (vs_act A b)) ->
      HO (order A (vs_act A b)) (hp (vs_heap A b)) ->
      pos (vs_inc A b') /\ HO (order A (vs_act A b')) (hp (vs_heap A b'))).
Proof.
  intros W Hv. unfold vs_bump. rewrite upd_some by auto. cbn [oget bind].
  set (a := set_nth v _ (vs_act A b)).
  assert (La : length a = length (vs_act A b)) by apply set_nth_length.
  set (big := f_big A (nth v a (f_zero A))).
  set (a1 := if big then map (f_scale A) a else a).
  assert (La1 : length a1 = length (vs_act A b)) by (unfold a1; destruct big; rewrite ?map_length; auto).
  (* the order before the bump, scaled *)
  set (a0 := if big then map (f_scale A) (vs_act A b) else vs_act A b).
  assert (Hag : forall y, y <> v -> nth y a1 (f_zero A) = nth y a0 (f_zero A)).
  { intros y Hy. unfold a1, a0, a. destruct big.
    - destruct (Nat.lt_ge_cases y (length (vs_act A b))).
      + rewrite (nth_indep _ (f_zero A) (f_scale A (f_zero A))) by (rewrite map_length, set_nth_length; auto).
        rewrite (nth_indep (map _ (vs_act A b)) (f_zero A) (f_scale A (f_zero A))) by (rewrite map_length; auto).
        rewrite !map_nth. f_equal. apply nth_set_nth_other; auto.
      + rewrite !nth_overflow; auto; rewrite map_length, ?set_nth_length; auto.
    - apply nth_set_nth_other; auto. }
  assert (H0 : forall pos dcy, ordered A pos dcy -> (forall y, In y (hp (vs_heap A b)) -> y < length (vs_act A b)) ->
      HO (order A (vs_act A b)) (hp (vs_heap A b)) -> HO (order A a0) (hp (vs_heap A b))).
  { intros pos dcy OR Hr HH j x y Hj Hk Hx Hy. specialize (HH j x y Hj Hk Hx Hy). unfold a0. destruct big; auto.
    apply (order_scale pos dcy OR); auto; apply Hr; eapply nth_error_In; eauto. }
  assert (Hup : forall pos dcy, ordered A pos dcy -> (forall w i, pos i -> pos (amount w i)) -> pos (vs_inc A b) ->
      forall y, order A a0 y v = false -> order A a1 y v = false).
  { intros pos dcy OR Ham Hpos y. destruct (Nat.eq_dec y v) as [->|Hy]; [intros _; apply (gt_irrefl A pos dcy OR)|].
    unfold order. rewrite (Hag y Hy). unfold a0, a1. destruct big.
    - rewrite (nth_indep (map _ a) (f_zero A) (f_scale A (f_zero A))) by (rewrite map_length; lia).
      destruct (Nat.lt_ge_cases y (length (vs_act A b))) as [Hyl|Hyl].
      + rewrite (nth_indep (map _ (vs_act A b)) (f_zero A) (f_scale A (f_zero A)) (n := v)) by (rewrite map_length; auto).
        rewrite !map_nth. unfold a. rewrite nth_set_nth_same by auto. intros H.
        apply (gt_incomp A pos dcy OR _ _ _ H). apply (scale_mono A pos dcy OR).
        apply (add_up A pos dcy OR); [auto|apply (gt_irrefl A pos dcy OR)].
      + rewrite (nth_overflow (map _ (vs_act A b)) (n := y)) by (rewrite map_length; auto).
        rewrite (nth_indep (map _ (vs_act A b)) (f_zero A) (f_scale A (f_zero A)) (n := v)) by (rewrite map_length; auto).
        rewrite !map_nth. unfold a. rewrite nth_set_nth_same by auto. intros H.
        apply (gt_incomp A pos dcy OR _ _ _ H). apply (scale_mono A pos dcy OR).
        apply (add_up A pos dcy OR); [auto|apply (gt_irrefl A pos dcy OR)].
    - unfold a. rewrite nth_set_nth_same by auto. intros H. apply (add_up A pos dcy OR); auto. }
  destruct (inHeap (vs_heap A b) v) eqn:EI.
  - apply inHeap_spec in EI; auto.
    destruct (decrease_spec (order A a0) (order A a1) v (vs_heap A b) W EI) as (h2 & E2 & W2 & L2 & I2 & O2).
    rewrite E2. cbn [oget bind]. eexists. split; [reflexivity|]. cbn [vs_heap vs_act vs_pol vs_inc vs_decay].
    split; [auto|]. split; [auto|]. split; [auto|]. split; [auto|]. split; [auto|]. split; [auto|].
    intros pos dcy OR Ham Hpos Hr HH. split; [destruct big; auto; apply (pos_scale A pos dcy OR); auto|].
    apply O2; try apply (order_swo pos dcy OR); eauto.
    intros x y Hx Hy. unfold order. rewrite !Hag by auto. reflexivity.
  - cbn [bind]. eexists. split; [reflexivity|]. cbn [vs_heap vs_act vs_pol vs_inc vs_decay].
    split; [auto|]. split; [auto|]. split; [tauto|]. split; [auto|]. split; [auto|]. split; [auto|].
    intros pos dcy OR Ham Hpos Hr HH. split; [destruct big; auto; apply (pos_scale A pos dcy OR); auto|].
    intros j x y Hj Hk Hx Hy.
    assert (x <> v /\ y <> v) as [Nx Ny].
    { split; intros ->; apply not_true_iff_false in EI; apply EI; apply inHeap_spec; auto; eapply nth_error_In; eauto. }
    unfold order. rewrite !Hag by auto. apply (H0 pos dcy OR Hr HH j x y Hj Hk Hx Hy).
Qed.

Definition same_shape (b b' : vsids A) : Prop :=
  WF (vs_heap A b') /\ length (idx (vs_heap A b')) = length (idx (vs_heap A b)) /\
  (forall y, In y (hp (vs_heap A b')) <-> In y (hp (vs_heap A b))) /\
  length (vs_act A b') = length (vs_act A b) /\ vs_pol A b' = vs_pol A b /\ vs_decay A b' = vs_decay A b.

Lemma vs_bump_all_spec amount ls : forall st b, WF (vs_heap A b) -> (forall l, In l ls -> lvar l < length (vs_act A b)) ->
  exists b', vs_bump_all A amount ls st b = Ok b' /\ same_shape b b' /\
    (forall pos dcy, ordered A pos dcy -> (forall w i, pos i -> pos (amount w i)) -> pos (vs_inc A b) ->
      (forall y, In y (hp (vs_heap A b)) -> y < length (vs_act A b)) ->
      HO (order A (vs_act A b)) (hp (vs_heap A b)) ->
      pos (vs_inc A b') /\ HO (order A (vs_act A b')) (hp (vs_heap A b'))).
Proof.
  induction ls as [|l r IH]; intros st b W Hr; cbn [vs_bump_all].
  - exists b. split; [auto|]. split; [|auto]. unfold same_shape. split; [auto|]. split; [auto|]. split; [tauto|]. auto.
  - destruct (st (lvar l)); [apply IH; auto; intros; apply Hr; right; auto|].
    destruct (vs_bump_spec amount (lvar l) b W (Hr l (or_introl eq_refl))) as (b1 & -> & W1 & L1 & I1 & A1 & P1 & D1 & O1).
    cbn [bind]. destruct (IH (vadd (lvar l) st) b1 W1) as (b2 & -> & (W2 & L2 & I2 & A2 & P2 & D2) & O2).
    { intros m Hm. rewrite A1. apply Hr. right; auto. }
    exists b2. split; [auto|]. split.
    + unfold same_shape. split; [auto|]. split; [congruence|]. split; [intros y; rewrite I2; auto|].
      split; [congruence|]. split; congruence.
    + intros pos dcy OR Ham Hp Hy HH. destruct (O1 pos dcy OR Ham Hp Hy HH) as [Q1 Q2].
      apply (O2 pos dcy OR Ham Q1); auto. intros y H. rewrite A1. apply Hy, I1. auto.
Qed.

Lemma vs_refill_spec t ls : forall b, WF (vs_heap A b) -> length (vs_pol A b) = length (vs_act A b) ->
  length (vs_act A b) <= length (idx (vs_heap A b)) ->
  (forall l, In l ls -> lvar l < length (vs_act A b)) ->
  exists b', vs_refill A t ls b = Ok b' /\ WF (vs_heap A b') /\
    length (idx (vs_heap A b')) = length (idx (vs_heap A b)) /\
    (forall y, In y (hp (vs_heap A b')) <-> In y (hp (vs_heap A b)) \/ (In y (map lvar ls) /\ isDecisionVar y t = true)) /\
    vs_act A b' = vs_act A b /\ length (vs_pol A b') = length (vs_pol A b) /\ vs_inc A b' = vs_inc A b /\ vs_decay A b' = vs_decay A b /\
    (SWO (order A (vs_act A b)) -> HO (order A (vs_act A b)) (hp (vs_heap A b)) ->
     HO (order A (vs_act A b')) (hp (vs_heap A b'))).
Proof.
  induction ls as [|l r IH]; intros b W LP LI Hr; cbn [vs_refill].
  - exists b. split; [auto|]. split; [auto|]. split; [auto|]. split; [cbn; tauto|]. auto 10.
  - rewrite upd_some by (rewrite LP; apply Hr; left; auto). cbn [oget bind].
    set (p := set_nth (lvar l) (lsign l) (vs_pol A b)).
    assert (Lp : length p = length (vs_pol A b)) by apply set_nth_length.
    assert (Hstep : exists h, (if negb (inHeap (vs_heap A b) (lvar l)) && isDecisionVar (lvar l) t
              then oget (hinsert (order A (vs_act A b)) (lvar l) (vs_heap A b)) else Ok (vs_heap A b)) = Ok h /\
      WF h /\ length (idx h) = length (idx (vs_heap A b)) /\
      (forall y, In y (hp h) <-> In y (hp (vs_heap A b)) \/ (y = lvar l /\ isDecisionVar y t = true)) /\
      (SWO (order A (vs_act A b)) -> HO (order A (vs_act A b)) (hp (vs_heap A b)) -> HO (order A (vs_act A b)) (hp h))).
    { destruct (inHeap (vs_heap A b) (lvar l)) eqn:EI; cbn [negb andb].
      - apply inHeap_spec in EI; auto. eexists. split; [reflexivity|]. split; [auto|]. split; [auto|]. split; [|auto].
        intros y. split; [auto|]. intros [?|[-> _]]; auto.
      - assert (NI : ~ In (lvar l) (hp (vs_heap A b))).
        { intros H. apply not_true_iff_false in EI. apply EI. apply inHeap_spec; auto. }
        destruct (isDecisionVar (lvar l) t) eqn:ED.
        + destruct (hinsert_spec (order A (vs_act A b)) (lvar l) (vs_heap A b) W) as (h & E & Wh & Lh & Ih & Oh); auto.
          { apply (Nat.lt_le_trans _ (length (vs_act A b))); auto. apply Hr. left; auto. }
          rewrite E. exists h. split; [reflexivity|]. split; [auto|]. split; [auto|]. split; [|auto].
          intros y. rewrite Ih. split; [intros [->|?]; auto|]. intros [?|[-> _]]; auto.
        + eexists. split; [reflexivity|]. split; [auto|]. split; [auto|]. split; [|auto].
          intros y. split; [auto|]. intros [?|[-> ?]]; auto. congruence. }
    destruct Hstep as (h & -> & Wh & Lh & Ih & Oh). cbn [bind].
    destruct (IH (mkVS A h (vs_act A b) p (vs_inc A b) (vs_decay A b))) as (b' & E & W' & L' & I' & A' & P' & N' & D' & O');
      cbn [vs_heap vs_act vs_pol vs_inc vs_decay] in *; auto.
    { congruence. } { lia. } { intros m Hm. apply Hr. right; auto. }
    exists b'. split; [auto|]. split; [auto|]. split; [congruence|]. split.
    { intros y. rewrite I', Ih. cbn [map In]. split; [intros [[?|[-> ?]]|[? ?]]; auto|].
      intros [?|[[<-|?] ?]]; auto. }
    split; [auto|]. split; [congruence|]. auto.
Qed.

Lemma vs_conflict_spec ph t amount step involved bl b :
  BI ph t (vs_heap A b) (length (vs_act A b)) -> length (vs_pol A b) = length (vs_act A b) -> ph <> Stale ->
  bl < dlevel t -> (forall c l, In c involved -> In l c -> lvar l < nvt t) ->
  exists b', vs_conflict A amount step false involved bl t b = Ok b' /\
    BI Search (backtrack bl t) (vs_heap A b') (length (vs_act A b')) /\
    length (vs_pol A b') = length (vs_act A b') /\
    (forall pos dcy, ordered A pos dcy -> (forall w i, pos i -> pos (amount w i)) -> pos (vs_inc A b) -> dcy (vs_decay A b) ->
      HO (order A (vs_act A b)) (hp (vs_heap A b)) ->
      pos (vs_inc A b') /\ dcy (vs_decay A b') /\ HO (order A (vs_act A b')) (hp (vs_heap A b'))).
Proof.
  intros HB LP Hp Hbl Hinv. pose proof HB as (H1 & H2 & H3 & H4 & H5 & H6 & H7 & H8). specialize (H6 Hp).
  unfold vs_conflict.
  set (b0 := mkVS A _ _ _ _ _).
  destruct (vs_bump_all_spec amount (concat involved) vempty b0) as (b1 & -> & (W1 & L1 & I1 & A1 & P1 & D1) & O1); auto.
  { intros l Hl. apply in_concat in Hl. destruct Hl as (c & Hc & Hl). specialize (Hinv c l Hc Hl). cbn. lia. }
  cbn [bind]. rewrite (trail_from_some bl t Hbl). cbn [bind].
  set (ls := skipn _ (tr t)).
  set (b2 := mkVS A (vs_heap A b1) _ _ _ _).
  cbn [b0 vs_heap vs_act vs_pol vs_inc vs_decay] in *.
  assert (Hls : forall l, In l ls -> lvar l < length (vs_act A b2)).
  { intros l Hl. apply in_skipn in Hl. apply (ti_range t H1) in Hl. cbn. lia. }
  destruct (vs_refill_spec t ls b2) as (b' & -> & W' & L' & I' & A' & P' & N' & D' & O'); auto; cbn [b2 vs_heap vs_act vs_pol vs_inc vs_decay] in *.
  { congruence. } { lia. }
  exists b'. split; [auto|]. split.
  { rewrite A', A1. apply (BI_backtrack ph t (vs_heap A b) (length (vs_act A b)) bl); auto; [congruence|].
    intros y. rewrite I', I1. reflexivity. }
  split; [congruence|].
  intros pos dcy OR Ham Hpos Hd HH. destruct (O1 pos dcy OR Ham Hpos) as [Q1 Q2]; auto.
  { intros y Hy. apply H5; auto. }
  assert (Hd1 : dcy (vs_decay A b1)).
  { rewrite D1. destruct step; auto. apply (dec_step A pos dcy OR). auto. }
  split; [|split].
  - rewrite N'. apply (pos_decay A pos dcy OR); auto.
  - rewrite D'. auto.
  - apply O'; auto. apply (order_swo pos dcy OR).
Qed.

Lemma vs_init_spec ph t occ b : BI ph t (vs_heap A b) (length (vs_act A b)) -> length (vs_pol A b) = length (vs_act A b) ->
  exists b', vs_init A occ t b = Ok b' /\ BI Full t (vs_heap A b') (length (vs_act A b')) /\
    length (vs_pol A b') = length (vs_act A b') /\ nvt t <= length (vs_act A b') /\
    vs_inc A b' = vs_inc A b /\ vs_decay A b' = vs_decay A b /\
    (SWO (order A (vs_act A b')) -> HO (order A (vs_act A b')) (hp (vs_heap A b'))).
Proof.
  intros HB LP. unfold vs_init.
  set (b1 := if length (vs_act A b) <? nvt t then _ else b).
  assert (B1 : BI Stale t (vs_heap A b1) (length (vs_act A b1)) /\ length (vs_pol A b1) = length (vs_act A b1) /\
    nvt t <= length (vs_act A b1) /\ vs_inc A b1 = vs_inc A b /\ vs_decay A b1 = vs_decay A b).
  { unfold b1. destruct (Nat.ltb_spec (length (vs_act A b)) (nvt t)) as [Hl|Hl]; cbn [vs_heap vs_act vs_pol vs_inc vs_decay].
    - rewrite !resize_length by lia. split; [|auto]. pose proof (BI_grow _ _ _ _ HB) as HG. rewrite Nat.max_r in HG by lia. auto.
    - split; [apply (BI_stale _ _ _ _ HB)|]. auto. }
  clearbody b1. destruct B1 as (B1 & LP1 & Hn & EI & ED).
  set (b2 := match occ with None => b1 | Some o => _ end).
  assert (B2 : vs_heap A b2 = vs_heap A b1 /\ length (vs_act A b2) = length (vs_act A b1) /\
    length (vs_pol A b2) = length (vs_act A b1) /\ vs_inc A b2 = vs_inc A b /\ vs_decay A b2 = vs_decay A b).
  { unfold b2. destruct occ; cbn [vs_heap vs_act vs_pol vs_inc vs_decay]; auto.
    rewrite !app_length, !map_length, !skipn_length, !seq_length. rewrite LP1.
    split; [auto|]. split; [lia|]. split; [lia|]. auto. }
  clearbody b2. destruct B2 as (Eh & La & Lp & EI2 & ED2). unfold vs_reset.
  destruct (BI_reset Stale t (vs_heap A b2) (length (vs_act A b2)) (order A (vs_act A b2))) as (h' & E & HB' & HO'); try lia.
  { rewrite Eh, La. auto. }
  rewrite E. cbn [oget bind]. eexists. split; [reflexivity|]. cbn [vs_heap vs_act vs_pol vs_inc vs_decay].
  split; [auto|]. split; [congruence|]. split; [lia|]. auto.
Qed.

Definition VI (ph : phase) (t : trail_t) (b : vsids A) : Prop :=
  BI ph t (vs_heap A b) (length (vs_act A b)) /\ length (vs_pol A b) = length (vs_act A b).

Lemma vs_pick_spec ph t b : VI ph t b -> ph <> Stale ->
  exists r b', vs_pick A t b = Ok (r, b') /\ good_pick t r /\
    (vs_act A b' = vs_act A b /\ vs_pol A b' = vs_pol A b /\ vs_inc A b' = vs_inc A b /\ vs_decay A b' = vs_decay A b) /\
    match r with
    | None => VI Search t b'
    | Some p => nth_error (vs_pol A b) (lvar p) = Some (lsign p) /\
        (forall q t', lvar q = lvar p -> decide q (newDecisionLevel t) = Ok t' -> VI Search t' b') /\
        (forall pos dcy, ordered A pos dcy -> HO (order A (vs_act A b)) (hp (vs_heap A b)) ->
         forall v, free t v -> order A (vs_act A b) v (lvar p) = false)
    end /\
    (forall pos dcy, ordered A pos dcy -> HO (order A (vs_act A b)) (hp (vs_heap A b)) -> HO (order A (vs_act A b')) (hp (vs_heap A b'))).
Proof.
  intros [HB LP] Hp. unfold vs_pick.
  destruct (pick_BI ph t (vs_heap A b) (length (vs_act A b)) (order A (vs_act A b)) HB Hp) as (r & h' & -> & R & O).
  cbn [bind]. destruct r as [x|].
  - destruct R as (R1 & R2 & R3 & R4).
    destruct (nth_error (vs_pol A b) x) as [s|] eqn:ES; [|apply nth_error_None in ES; lia].
    cbn [oget bind]. eexists; eexists. split; [reflexivity|]. cbn [vs_heap vs_act vs_pol vs_inc vs_decay].
    destruct R2 as (F1 & F2 & F3). split.
    { cbn [good_pick]. rewrite lvar_mk. split; [auto|]. split; [|auto]. apply value_var. rewrite lvar_mk. auto. }
    split; [auto|]. split.
    { rewrite lvar_mk, lsign_mk. split; [auto|]. split.
      - intros q t' Hq HD. split; [|auto]. cbn [vs_heap vs_act]. rewrite (lit_eta q), Hq in HD. apply (R3 (lsign q) t' HD).
      - intros pos dcy OR HH v Hv. apply R4; auto. apply (order_swo pos dcy OR). }
    intros pos dcy OR HH. apply O; auto. apply (order_swo pos dcy OR).
  - destruct R as (R1 & R2). eexists; eexists. split; [reflexivity|]. cbn [vs_heap vs_act vs_pol vs_inc vs_decay].
    split. { cbn [good_pick]. intros v Hv Hd E. apply (R2 v). split; auto. }
    split; [auto|]. split; [split; auto|].
    intros pos dcy OR HH. apply O; auto. apply (order_swo pos dcy OR).
Qed.

Lemma vs_reach_inv ext okamt d0 ph t b : vs_reach A ext okamt d0 ph t b -> VI ph t b.
Proof.
  induction 1 as [|ph t b b' H IH E|ph t b o t' H IH HL HE|ph t b ls H IH|ph t b v x H IH|ph t b occ b' H IH E|
    ph t b b' H IH Hn E|ph t b v x b' H IH _ E|ph t b v x b' H IH E|ph t b p q b' t' H IH Hp E Hq HD|ph t b b' H IH Hp E|
    ph t b amount step involved bl b' H IH Hp Ho Hbl Hinv E].
  - split; [apply BI_new|reflexivity].
  - destruct IH as [HB LP]. destruct (BI_clear _ _ _ _ HB) as (h' & Eh & HB'). unfold vs_clear in E. rewrite Eh in E.
    cbn in E. inversion E; subst. split; auto.
  - destruct IH as [HB LP]. split; auto. eapply BI_trail; eauto.
  - destruct IH as [HB LP]. split; auto. apply BI_assume; auto.
  - destruct IH as [HB LP]. split; auto. apply BI_flag; auto.
  - destruct IH as [HB LP]. destruct (vs_init_spec ph t occ b HB LP) as (b2 & E2 & HB' & LP' & _). rewrite E in E2.
    inversion E2; subst. split; auto.
  - destruct IH as [HB LP]. unfold vs_reset in E.
    destruct (BI_reset ph t (vs_heap A b) (length (vs_act A b)) (order A (vs_act A b)) HB Hn) as (h' & Eh & HB' & _).
    rewrite Eh in E. cbn in E. inversion E; subst. split; auto.
  - destruct IH as [HB LP]. unfold vs_setActivity, upd in E. destruct (Nat.ltb_spec v (length (vs_act A b))); [|discriminate].
    cbn in E. inversion E; subst. split; cbn [vs_heap vs_act vs_pol]; rewrite set_nth_length; auto.
  - destruct IH as [HB LP]. unfold vs_setPolarity, upd in E. destruct (Nat.ltb_spec v (length (vs_pol A b))); [|discriminate].
    cbn in E. inversion E; subst. split; cbn [vs_heap vs_act vs_pol]; rewrite ?set_nth_length; auto.
  - destruct (vs_pick_spec ph t b IH Hp) as (r & b2 & E2 & _ & _ & R & _). rewrite E in E2. inversion E2; subst.
    destruct R as (_ & R & _). apply (R q); auto.
  - destruct (vs_pick_spec ph t b IH Hp) as (r & b2 & E2 & _ & _ & R & _). rewrite E in E2. inversion E2; subst. auto.
  - destruct IH as [HB LP].
    destruct (vs_conflict_spec ph t amount step involved bl b HB LP Hp Hbl Hinv) as (b2 & E2 & HB' & LP' & _).
    rewrite E in E2. inversion E2; subst. split; auto.
Qed.

Lemma vs_pick_good ext okamt d0 ph t b : vs_reach A ext okamt d0 ph t b -> ph <> Stale ->
  exists r b', vs_pick A t b = Ok (r, b') /\ good_pick t r /\
    forall p, r = Some p -> nth_error (vs_pol A b) (lvar p) = Some (lsign p).
Proof.
  intros H Hp. destruct (vs_pick_spec ph t b (vs_reach_inv _ _ _ _ _ _ H) Hp) as (r & b' & E & G & _ & R & _).
  exists r, b'. split; [auto|]. split; [auto|]. intros p ->. apply R.
Qed.

Definition okpos (pos : F A -> Prop) (amount : var -> F A -> F A) : Prop := forall v i, pos i -> pos (amount v i).

Lemma vs_reach_order pos dcy d0 ph t b : ordered A pos dcy -> dcy d0 ->
  vs_reach A false (okpos pos) d0 ph t b ->
  pos (vs_inc A b) /\ dcy (vs_decay A b) /\ (ph <> Stale -> HO (order A (vs_act A b)) (hp (vs_heap A b))).
Proof.
  intros OR Hd0. induction 1 as [|ph t b b' H IH E|ph t b o t' H IH HL HE|ph t b ls H IH|ph t b v x H IH|ph t b occ b' H IH E|
    ph t b b' H IH Hn E|ph t b v x b' H IH Hx E|ph t b v x b' H IH E|ph t b p q b' t' H IH Hp E Hq HD|ph t b b' H IH Hp E|
    ph t b amount step involved bl b' H IH Hp Ho Hbl Hinv E]; try destruct IH as (P & D & HH).
  - split; [apply (pos_one A pos dcy OR)|]. split; [auto|congruence].
  - apply vs_reach_inv in H. destruct H as [HB LP]. destruct (BI_clear _ _ _ _ HB) as (h' & Eh & HB'). unfold vs_clear in E. rewrite Eh in E.
    cbn in E. inversion E; subst. cbn. split; [auto|]. split; [auto|congruence].
  - split; [auto|]. split; [auto|]. intros Hn. apply HH. intros ->. destruct o; cbn in Hn; congruence.
  - auto.
  - split; [auto|]. split; [auto|]. intros Hn. apply HH. destruct x; congruence.
  - apply vs_reach_inv in H. destruct H as [HB LP]. destruct (vs_init_spec ph t occ b HB LP) as (b2 & E2 & _ & _ & _ & EI & ED & O2).
    rewrite E in E2. inversion E2; subst. rewrite EI, ED. split; [auto|]. split; [auto|]. intros _. apply O2. apply (order_swo pos dcy OR).
  - apply vs_reach_inv in H. destruct H as [HB LP]. unfold vs_reset in E.
    destruct (BI_reset ph t (vs_heap A b) (length (vs_act A b)) (order A (vs_act A b)) HB Hn) as (h' & Eh & HB' & O').
    rewrite Eh in E. cbn in E. inversion E; subst. cbn. split; [auto|]. split; [auto|]. intros _. apply O'. apply (order_swo pos dcy OR).
  - discriminate.
  - unfold vs_setPolarity, upd in E. destruct (Nat.ltb_spec v (length (vs_pol A b))); [|discriminate].
    cbn in E. inversion E; subst. cbn. auto.
  - apply vs_reach_inv in H. destruct (vs_pick_spec ph t b H Hp) as (r & b2 & E2 & _ & (Ea & Eb & Ec & Ed) & _ & O). rewrite E in E2. inversion E2; subst.
    rewrite Ec, Ed. split; [auto|]. split; [auto|]. intros _. apply (O pos dcy OR). auto.
  - apply vs_reach_inv in H. destruct (vs_pick_spec ph t b H Hp) as (r & b2 & E2 & _ & (Ea & Eb & Ec & Ed) & _ & O). rewrite E in E2. inversion E2; subst.
    rewrite Ec, Ed. split; [auto|]. split; [auto|]. intros _. apply (O pos dcy OR). auto.
  - apply vs_reach_inv in H. destruct H as [HB LP].
    destruct (vs_conflict_spec ph t amount step involved bl b HB LP Hp Hbl Hinv) as (b2 & E2 & _ & _ & O).
    rewrite E in E2. inversion E2; subst. destruct (O pos dcy OR Ho P D (HH Hp)) as (Q1 & Q2 & Q3). auto.
Qed.

Lemma vs_pick_max pos dcy d0 ph t b p b' : ordered A pos dcy -> dcy d0 ->
  vs_reach A false (okpos pos) d0 ph t b -> ph <> Stale -> vs_pick A t b = Ok (Some p, b') ->
  forall v, v < nvt t -> isDecisionVar v t = true -> vvalue t v = None ->
  f_gt A (nth v (vs_act A b) (f_zero A)) (nth (lvar p) (vs_act A b) (f_zero A)) = false.
Proof.
  intros OR Hd H Hp E v Hv Hdv Hvv. destruct (vs_reach_order pos dcy d0 ph t b OR Hd H) as (_ & _ & HH).
  destruct (vs_pick_spec ph t b (vs_reach_inv _ _ _ _ _ _ H) Hp) as (r & b2 & E2 & _ & _ & R & _). rewrite E in E2. inversion E2; subst.
  destruct R as (_ & _ & R). apply (R pos dcy OR (HH Hp) v). split; auto.
Qed.

Lemma vs_defined ext okamt d0 ph t b : vs_reach A ext okamt d0 ph t b ->
  (exists b', vs_clear A b = Ok b') /\ (forall occ, exists b', vs_init A occ t b = Ok b') /\
  (nvt t <= length (vs_act A b) -> exists b', vs_reset A t b = Ok b') /\
  (ph <> Stale -> nvt t <= length (vs_act A b)) /\
  (ph <> Stale -> forall amount step involved bl, bl < dlevel t ->
     (forall c l, In c involved -> In l c -> lvar l < nvt t) ->
     exists b', vs_conflict A amount step false involved bl t b = Ok b').
Proof.
  intros H. apply vs_reach_inv in H. destruct H as [HB LP]. split; [|split; [|split; [|split]]].
  - destruct (BI_clear _ _ _ _ HB) as (h' & Eh & HB'). unfold vs_clear. rewrite Eh. cbn. eauto.
  - intros occ. destruct (vs_init_spec ph t occ b HB LP) as (b2 & E2 & _). eauto.
  - intros Hn. unfold vs_reset.
    destruct (BI_reset ph t (vs_heap A b) (length (vs_act A b)) (order A (vs_act A b)) HB Hn) as (h' & Eh & HB' & O').
    rewrite Eh. cbn. eauto.
  - apply HB.
  - intros Hp amount step involved bl Hbl Hinv.
    destruct (vs_conflict_spec ph t amount step involved bl b HB LP Hp Hbl Hinv) as (b2 & E2 & _). eauto.
Qed.

Lemma vs_extra amount step involved bl t b : exists e, vs_conflict A amount step true involved bl t b = Err e.
Proof.
  unfold vs_conflict. destruct (vs_bump_all A amount _ vempty _); cbn [bind]; [|eauto].
  unfold trail_from. rewrite Nat.ltb_irrefl. cbn. eauto.
Qed.

End Numbers.
