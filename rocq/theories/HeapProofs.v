Require Import List Arith Bool Lia Verif.CNFModel Verif.CNFProofs Verif.HeapModel.
Import ListNotations.

(** ** Structure: heap and index arrays are inverse to each other *)
Definition WF (h : heap_t) : Prop :=
  forall i x, nth_error (hp h) i = Some x <-> nth_error (idx h) x = Some (Some i).

Lemma set_nth_same {A} (l : list A) i x : i < length l -> nth_error (set_nth i x l) i = Some x.
Proof. intros H. rewrite set_nth_nth, Nat.eqb_refl. apply Nat.ltb_lt in H. rewrite H. reflexivity. Qed.
Lemma set_nth_other {A} (l : list A) i j x : j <> i -> nth_error (set_nth i x l) j = nth_error l j.
Proof. intros H. rewrite set_nth_nth. apply Nat.eqb_neq in H. rewrite H. reflexivity. Qed.
Lemma nth_error_lt {A} (l : list A) i x : nth_error l i = Some x -> i < length l.
Proof. intros H. apply nth_error_Some. congruence. Qed.
Lemma set_nth_id {A} (l : list A) i x : nth_error l i = Some x -> set_nth i x l = l.
Proof.
  revert l. induction i as [|i IH]; intros [|y l] H; simpl in *; try discriminate; unfold set_nth in *; simpl.
  - congruence.
  - f_equal. apply (IH l H).
Qed.

Lemma nth_nth_error (l : list (option nat)) n i : nth n l None = Some i <-> nth_error l n = Some (Some i).
Proof.
  revert n; induction l as [|x l IH]; intros [|n]; simpl; try (split; congruence). apply IH.
Qed.

Lemma inHeap_spec h n : WF h -> (inHeap h n = true <-> In n (hp h)).
Proof.
  intros HW. unfold inHeap. rewrite andb_true_iff, Nat.ltb_lt. split.
  - intros [H1 H2]. destruct (nth n (idx h) None) as [i|] eqn:E; [|discriminate].
    apply nth_nth_error in E. apply HW in E. eapply nth_error_In; eauto.
  - intros H. apply In_nth_error in H. destruct H as (i & H). apply HW in H.
    pose proof (nth_error_lt _ _ _ H). apply nth_nth_error in H. rewrite H. auto.
Qed.

Lemma WF_NoDup h : WF h -> NoDup (hp h).
Proof.
  intros HW. apply NoDup_nth_error. intros i j Hi Hij.
  destruct (nth_error (hp h) i) as [x|] eqn:E; [|apply nth_error_Some in Hi; congruence].
  symmetry in Hij. apply HW in E, Hij. congruence.
Qed.

Lemma place_some h i x : i < length (hp h) -> x < length (idx h) ->
  place h i x = Some (mkHeap (set_nth i x (hp h)) (set_nth x (Some i) (idx h))).
Proof.
  intros H1 H2. unfold place, upd. apply Nat.ltb_lt in H1, H2. rewrite H1, H2. reflexivity.
Qed.

(** [x] is held outside the array and belongs to position [i]. *)
Definition WFh (i x : nat) (h : heap_t) : Prop :=
  i < length (hp h) /\ x < length (idx h) /\
  WF (mkHeap (set_nth i x (hp h)) (set_nth x (Some i) (idx h))).

(** moving the content [y] of position [p] into the hole at [i] *)
Lemma WFh_move i p x y h : WFh i x h -> p <> i -> nth_error (hp h) p = Some y ->
  exists h', place h i y = Some h' /\ WFh p x h' /\ length (hp h') = length (hp h) /\
    length (idx h') = length (idx h) /\
    hp h' = set_nth i y (hp h) /\
    (forall z, In z (set_nth p x (hp h')) <-> In z (set_nth i x (hp h))).
Proof.
  intros (Hi & Hx & HW) Hp Hy.
  pose proof (nth_error_lt _ _ _ Hy) as Hpl.
  assert (Hiy : nth_error (idx h) y = Some (Some p) /\ y <> x).
  { assert (H1 : nth_error (set_nth i x (hp h)) p = Some y) by (rewrite set_nth_other; auto).
    apply HW in H1. cbn [idx] in H1.
    destruct (Nat.eq_dec y x) as [->|Hn].
    - rewrite set_nth_same in H1 by auto. congruence.
    - rewrite set_nth_other in H1 by auto. auto. }
  destruct Hiy as [Hiy Hyx]. pose proof (nth_error_lt _ _ _ Hiy) as Hyl.
  eexists. split; [apply place_some; auto|]. cbn [hp idx]. rewrite !set_nth_length.
  assert (HW' : WF (mkHeap (set_nth p x (set_nth i y (hp h))) (set_nth x (Some p) (set_nth y (Some i) (idx h))))).
  { intros j z. cbn [hp idx].
    specialize (HW j z). cbn [hp idx] in HW.
    destruct (Nat.eq_dec z x) as [->|Hzx].
    - rewrite set_nth_same by (rewrite set_nth_length; auto).
      rewrite set_nth_same in HW by auto.
      destruct (Nat.eq_dec j p) as [->|Hjp].
      + rewrite set_nth_same by (rewrite set_nth_length; auto). tauto.
      + rewrite (set_nth_other _ p) by auto. destruct (Nat.eq_dec j i) as [->|Hji].
        * rewrite set_nth_same by auto. split; congruence.
        * rewrite set_nth_other in * by auto. split; [|congruence].
          intros H. apply HW in H. congruence.
    - rewrite (set_nth_other _ x) by auto. rewrite (set_nth_other _ x) in HW by auto.
      destruct (Nat.eq_dec z y) as [->|Hzy].
      + rewrite set_nth_same by auto.
        destruct (Nat.eq_dec j p) as [->|Hjp].
        * rewrite set_nth_same by (rewrite set_nth_length; auto). split; congruence.
        * rewrite (set_nth_other _ p) by auto. destruct (Nat.eq_dec j i) as [->|Hji].
          -- rewrite set_nth_same by auto. tauto.
          -- rewrite set_nth_other in * by auto. rewrite HW, Hiy. split; congruence.
      + rewrite (set_nth_other _ y) by auto.
        destruct (Nat.eq_dec j p) as [->|Hjp].
        * rewrite set_nth_same by (rewrite set_nth_length; auto).
          rewrite set_nth_other in HW by auto. rewrite <- HW, Hy. split; congruence.
        * rewrite (set_nth_other _ p) by auto. destruct (Nat.eq_dec j i) as [->|Hji].
          -- rewrite set_nth_same in * by auto. rewrite <- HW. split; congruence.
          -- rewrite set_nth_other in * by auto. auto. }
  split; [split; [|split]; cbn [hp idx]; rewrite ?set_nth_length; auto|].
  split; [auto|]. split; [auto|]. split; [auto|].
  intros z. split; intros Hz; apply In_nth_error in Hz; destruct Hz as (j & Hj).
  - destruct (Nat.eq_dec j p) as [->|Hjp].
    + rewrite set_nth_same in Hj by (rewrite set_nth_length; auto). inversion Hj; subst.
      apply (nth_error_In _ i). apply set_nth_same; auto.
    + rewrite (set_nth_other _ p) in Hj by auto. destruct (Nat.eq_dec j i) as [->|Hji].
      * rewrite set_nth_same in Hj by auto. inversion Hj; subst. apply (nth_error_In _ p).
        rewrite set_nth_other; auto.
      * rewrite set_nth_other in Hj by auto. apply (nth_error_In _ j). rewrite set_nth_other; auto.
  - destruct (Nat.eq_dec j i) as [->|Hji].
    + rewrite set_nth_same in Hj by auto. inversion Hj; subst. apply (nth_error_In _ p).
      apply set_nth_same. rewrite set_nth_length; auto.
    + rewrite set_nth_other in Hj by auto. destruct (Nat.eq_dec j p) as [->|Hjp].
      * apply (nth_error_In _ i). rewrite set_nth_other by auto. rewrite set_nth_same by auto. congruence.
      * apply (nth_error_In _ j). rewrite !set_nth_other; auto.
Qed.

(** ** Order *)
Record SWO (lt : nat -> nat -> bool) : Prop := {
  swo_irrefl : forall x, lt x x = false;
  swo_trans : forall x y z, lt x y = true -> lt y z = true -> lt x z = true;
  swo_negtrans : forall x y z, lt x y = false -> lt y z = false -> lt x z = false }.

Lemma swo_asym lt : SWO lt -> forall x y, lt x y = true -> lt y x = false.
Proof.
  intros [H1 H2 _] x y H. destruct (lt y x) eqn:E; auto.
  rewrite <- (H1 x). symmetry. eauto.
Qed.

(** nodes whose parent is at least [k] respect the order *)
Definition HOfrom (lt : nat -> nat -> bool) (k : nat) (L : list nat) : Prop :=
  forall j x y, 0 < j -> k <= parent j ->
    nth_error L j = Some x -> nth_error L (parent j) = Some y -> lt x y = false.
Definition HO lt L := HOfrom lt 0 L.

Definition UPI lt (i : nat) (L : list nat) : Prop :=
  (forall j x y, 0 < j -> j <> i ->
    nth_error L j = Some x -> nth_error L (parent j) = Some y -> lt x y = false) /\
  (forall j x y, 0 < j -> parent j = i -> 0 < i ->
    nth_error L j = Some x -> nth_error L (parent i) = Some y -> lt x y = false).

Definition DNI lt (k i : nat) (L : list nat) : Prop :=
  (forall j x y, 0 < j -> k <= parent j -> parent j <> i ->
    nth_error L j = Some x -> nth_error L (parent j) = Some y -> lt x y = false) /\
  (forall j x y, 0 < j -> parent j = i -> 0 < i -> k <= parent i ->
    nth_error L j = Some x -> nth_error L (parent i) = Some y -> lt x y = false).

Lemma parent_lt i : 0 < i -> parent i < i.
Proof. intros H. unfold parent. apply Nat.div_lt_upper_bound; lia. Qed.

Lemma parent_children i j : 0 < j -> (parent j = i <-> j = left i \/ j = right i).
Proof.
  intros H. unfold parent, left, right.
  pose proof (Nat.div_mod (j - 1) 2 ltac:(lia)). pose proof (Nat.mod_upper_bound (j - 1) 2 ltac:(lia)).
  split; intros; lia.
Qed.

Lemma UPI_step lt i x y (M : list nat) : SWO lt ->
  0 < i -> i < length M -> nth_error M (parent i) = Some y -> lt x y = true ->
  UPI lt i (set_nth i x M) -> UPI lt (parent i) (set_nth (parent i) x (set_nth i y M)).
Proof.
  intros HS Hi Hl Hy Hlt (U1 & U2).
  pose proof (parent_lt i Hi) as Hp. assert (Hpi : parent i <> i) by lia.
  set (p := parent i) in *. pose proof (nth_error_lt _ _ _ Hy) as Hpl.
  assert (Lp : nth_error (set_nth p x (set_nth i y M)) p = Some x) by (apply set_nth_same; rewrite set_nth_length; auto).
  assert (Li : nth_error (set_nth p x (set_nth i y M)) i = Some y).
  { rewrite set_nth_other by auto. apply set_nth_same; auto. }
  assert (Lo : forall j, j <> i -> j <> p -> nth_error (set_nth p x (set_nth i y M)) j = nth_error M j).
  { intros j H1 H2. rewrite !set_nth_other; auto. }
  assert (Oi : nth_error (set_nth i x M) i = Some x) by (apply set_nth_same; auto).
  assert (Oo : forall j, j <> i -> nth_error (set_nth i x M) j = nth_error M j).
  { intros j H1. rewrite set_nth_other; auto. }
  generalize dependent (set_nth p x (set_nth i y M)). intros L' Lp Li Lo.
  generalize dependent (set_nth i x M). intros L U1 U2 Oi Oo.
  split.
  - intros j a b Hj Hjp Ha Hb. pose proof (parent_lt j Hj) as Hpj.
    destruct (Nat.eq_dec j i) as [->|Hji].
    + fold p in Hb. rewrite Lp in Hb. rewrite Li in Ha. inversion Ha; inversion Hb; subst.
      apply swo_asym; auto.
    + rewrite Lo in Ha by auto.
      destruct (Nat.eq_dec (parent j) i) as [Hpe|Hpi'].
      * rewrite Hpe, Li in Hb. inversion Hb; subst b. apply (U2 j); auto; try rewrite Oo; auto.
      * destruct (Nat.eq_dec (parent j) p) as [Hpe|Hpp].
        -- rewrite Hpe, Lp in Hb. inversion Hb; subst b.
           assert (lt a y = false).
           { apply (U1 j); auto; rewrite Oo; auto; congruence. }
           destruct (lt a x) eqn:E; auto. rewrite <- H. symmetry. eapply swo_trans; eauto.
        -- rewrite Lo in Hb by auto. apply (U1 j); auto; rewrite Oo; auto.
  - intros j a b Hj Hpj Hp0 Ha Hb. pose proof (parent_lt p Hp0) as Hpp.
    rewrite Lo in Hb by lia. pose proof (parent_lt j Hj).
    assert (Hyb : lt y b = false).
    { apply (U1 p); auto; rewrite Oo; auto; lia. }
    destruct (Nat.eq_dec j i) as [->|Hji].
    + rewrite Li in Ha. inversion Ha; subst. auto.
    + rewrite Lo in Ha by lia. apply (swo_negtrans _ HS a y b); auto.
      apply (U1 j); auto; rewrite Oo; auto; congruence.
Qed.

Lemma UPI_exit lt i x y L :
  nth_error L i = Some x -> nth_error L (parent i) = Some y -> lt x y = false -> UPI lt i L -> HO lt L.
Proof.
  intros H1 H2 Hlt (U1 & U2) j a b Hj _ Ha Hb. destruct (Nat.eq_dec j i) as [->|]; eauto. congruence.
Qed.

Lemma up_loop_spec lt fuel : forall i x h, i < fuel -> WFh i x h ->
  exists h2, up_loop lt fuel i x h = Some h2 /\ WF h2 /\ length (hp h2) = length (hp h) /\
    length (idx h2) = length (idx h) /\
    (forall y, In y (hp h2) <-> In y (set_nth i x (hp h))) /\
    (SWO lt -> UPI lt i (set_nth i x (hp h)) -> HO lt (hp h2)).
Proof.
  induction fuel as [|f IH]; intros i x h Hf HW; [lia|]. simpl.
  pose proof HW as (Hi & Hx & HW0).
  assert (Hplace : (SWO lt -> UPI lt i (set_nth i x (hp h)) -> HO lt (set_nth i x (hp h))) ->
    exists h2, place h i x = Some h2 /\ WF h2 /\ length (hp h2) = length (hp h) /\
    length (idx h2) = length (idx h) /\
    (forall y, In y (hp h2) <-> In y (set_nth i x (hp h))) /\
    (SWO lt -> UPI lt i (set_nth i x (hp h)) -> HO lt (hp h2))).
  { intros HH. eexists. split; [apply place_some; auto|]. cbn [hp idx]. rewrite !set_nth_length.
    repeat split; auto; apply HW0. }
  destruct (Nat.eqb_spec i 0) as [->|Hi0].
  - apply Hplace. intros _ (U1 & U2) j a b Hj _ Ha Hb. eapply U1; eauto. lia.
  - pose proof (parent_lt i ltac:(lia)) as Hp.
    destruct (nth_error (hp h) (parent i)) as [y|] eqn:Ey; [|apply nth_error_None in Ey; lia].
    destruct (lt x y) eqn:Elt.
    + destruct (WFh_move i (parent i) x y h HW ltac:(lia) Ey) as (h1 & -> & HW1 & L1 & L2 & E1 & I1).
      destruct (IH (parent i) x h1 ltac:(lia) HW1) as (h2 & -> & HW2 & L3 & L4 & I2 & O2).
      exists h2. split; [reflexivity|]. split; [auto|]. split; [lia|]. split; [lia|].
      split; [intros z; rewrite I2; auto|].
      intros HS HU. apply O2; auto. rewrite E1. apply UPI_step; auto. lia.
    + apply Hplace. intros _ HU. eapply UPI_exit; eauto.
      * apply set_nth_same; auto.
      * rewrite set_nth_other by lia. eauto.
Qed.

Lemma WF_WFh h i x : WF h -> nth_error (hp h) i = Some x -> WFh i x h.
Proof.
  intros HW Hx. pose proof Hx as Hix. apply HW in Hix.
  split; [eapply nth_error_lt; eauto|]. split; [eapply nth_error_lt; eauto|].
  rewrite (set_nth_id _ _ _ Hx), (set_nth_id _ _ _ Hix). destruct h; auto.
Qed.

Lemma percolateUp_spec lt i h : WF h -> i < length (hp h) ->
  exists h2, percolateUp lt i h = Some h2 /\ WF h2 /\ length (hp h2) = length (hp h) /\
    length (idx h2) = length (idx h) /\
    (forall y, In y (hp h2) <-> In y (hp h)) /\
    (SWO lt -> UPI lt i (hp h) -> HO lt (hp h2)).
Proof.
  intros HW Hi. unfold percolateUp.
  destruct (nth_error (hp h) i) as [x|] eqn:Ex; [|apply nth_error_None in Ex; lia].
  destruct (up_loop_spec lt (S i) i x h ltac:(lia) (WF_WFh _ _ _ HW Ex)) as (h2 & H).
  rewrite (set_nth_id _ _ _ Ex) in H. exists h2. exact H.
Qed.

(** ** percolateDown *)
Lemma DNI_step lt k i c x y (M : list nat) : SWO lt ->
  i < length M -> nth_error M c = Some y -> lt y x = true -> k <= i ->
  (c = left i \/ c = right i) ->
  (forall o z, (o = left i \/ o = right i) -> o <> c -> nth_error M o = Some z -> lt z y = false) ->
  DNI lt k i (set_nth i x M) -> DNI lt k c (set_nth c x (set_nth i y M)).
Proof.
  intros HS Hl Hy Hlt Hki Hc Ho (D1 & D2).
  assert (Hcp : 0 < c) by (unfold left, right in Hc; lia).
  assert (Hpc : parent c = i) by (apply parent_children; auto).
  assert (Hci : c <> i) by (unfold left, right in Hc; lia).
  pose proof (nth_error_lt _ _ _ Hy) as Hcl.
  assert (Lp : nth_error (set_nth c x (set_nth i y M)) c = Some x) by (apply set_nth_same; rewrite set_nth_length; auto).
  assert (Li : nth_error (set_nth c x (set_nth i y M)) i = Some y).
  { rewrite set_nth_other by auto. apply set_nth_same; auto. }
  assert (Lo : forall j, j <> i -> j <> c -> nth_error (set_nth c x (set_nth i y M)) j = nth_error M j).
  { intros j H1 H2. rewrite !set_nth_other; auto. }
  assert (Oi : nth_error (set_nth i x M) i = Some x) by (apply set_nth_same; auto).
  assert (Oo : forall j, j <> i -> nth_error (set_nth i x M) j = nth_error M j).
  { intros j H1. rewrite set_nth_other; auto. }
  generalize dependent (set_nth c x (set_nth i y M)). intros L' Lp Li Lo.
  generalize dependent (set_nth i x M). intros L D1 D2 Oi Oo.
  split.
  - intros j a b Hj Hk Hpj Ha Hb. pose proof (parent_lt j Hj) as Hpl.
    destruct (Nat.eq_dec j i) as [->|Hji].
    + rewrite Li in Ha. inversion Ha; subst a. rewrite Lo in Hb by lia.
      apply (D2 c); auto; rewrite Oo; auto; lia.
    + destruct (Nat.eq_dec (parent j) i) as [Hpe|Hpi].
      * rewrite Hpe, Li in Hb. inversion Hb; subst b.
        destruct (Nat.eq_dec j c) as [->|Hjc].
        -- rewrite Lp in Ha. inversion Ha; subst a. apply swo_asym; auto.
        -- rewrite Lo in Ha by auto. apply (Ho j); auto. apply parent_children; auto.
      * assert (j <> c) by congruence. rewrite Lo in Ha, Hb by auto.
        apply (D1 j); auto; rewrite Oo; auto.
  - intros j a b Hj Hpj _ Hk Ha Hb. rewrite Hpc, Li in Hb. inversion Hb; subst b.
    pose proof (parent_lt j Hj). assert (i < c) by (unfold left, right in Hc; lia).
    rewrite Lo in Ha by lia. apply (D1 j); auto; try rewrite Oo; auto; try lia. congruence.
Qed.

Lemma down_loop_spec lt k fuel : forall i x h, length (hp h) < fuel + i -> k <= i -> WFh i x h ->
  exists h2, down_loop lt fuel i x h = Some h2 /\ WF h2 /\ length (hp h2) = length (hp h) /\
    length (idx h2) = length (idx h) /\
    (forall y, In y (hp h2) <-> In y (set_nth i x (hp h))) /\
    (SWO lt -> DNI lt k i (set_nth i x (hp h)) -> HOfrom lt k (hp h2)).
Proof.
  induction fuel as [|f IH]; intros i x h Hf Hk HW; [destruct HW; lia|]. cbn [down_loop].
  pose proof HW as (Hi & Hx & HW0).
  assert (Hplace : (SWO lt -> DNI lt k i (set_nth i x (hp h)) -> HOfrom lt k (set_nth i x (hp h))) ->
    exists h2, place h i x = Some h2 /\ WF h2 /\ length (hp h2) = length (hp h) /\
    length (idx h2) = length (idx h) /\
    (forall y, In y (hp h2) <-> In y (set_nth i x (hp h))) /\
    (SWO lt -> DNI lt k i (set_nth i x (hp h)) -> HOfrom lt k (hp h2))).
  { intros HH. eexists. split; [apply place_some; auto|]. cbn [hp idx]. rewrite !set_nth_length.
    repeat split; auto; apply HW0. }
  destruct (Nat.ltb_spec (left i) (length (hp h))) as [Hl|Hl].
  - destruct (nth_error (hp h) (left i)) as [l|] eqn:El; [|apply nth_error_None in El; lia].
    set (child := if right i <? length (hp h) then _ else _).
    assert (Hchild : (child = left i \/ child = right i) /\ exists c, nth_error (hp h) child = Some c /\
      (SWO lt -> forall o z, (o = left i \/ o = right i) -> o <> child -> nth_error (hp h) o = Some z -> lt z c = false)).
    { unfold child. destruct (Nat.ltb_spec (right i) (length (hp h))) as [Hr|Hr].
      - destruct (nth_error (hp h) (right i)) as [r|] eqn:Er; [|apply nth_error_None in Er; lia].
        destruct (lt r l) eqn:Erl.
        + split; auto. exists r. split; auto. intros HS o z [->| ->] Ho Hz; [|congruence].
          rewrite El in Hz; inversion Hz; subst. apply swo_asym; auto.
        + split; auto. exists l. split; auto. intros HS o z [->| ->] Ho Hz; [congruence|]. congruence.
      - split; auto. exists l. split; auto. intros HS o z [->| ->] Ho Hz; [congruence|].
        apply nth_error_lt in Hz. lia. }
    destruct Hchild as (Hc & c & Ec & Hmin). clearbody child. rewrite Ec.
    assert (Hci : i < child) by (unfold left, right in Hc; lia).
    destruct (lt c x) eqn:Ecx.
    + destruct (WFh_move i child x c h HW ltac:(lia) Ec) as (h1 & -> & HW1 & L1 & L2 & E1 & I1).
      destruct (IH child x h1 ltac:(lia) ltac:(lia) HW1) as (h2 & -> & HW2 & L3 & L4 & I2 & O2).
      exists h2. split; [reflexivity|]. split; [auto|]. split; [lia|]. split; [lia|].
      split; [intros z; rewrite I2; auto|].
      intros HS HU. apply O2; auto. rewrite E1. apply (DNI_step lt k i); auto. apply Hmin; auto.
    + apply Hplace. intros HS (D1 & D2) j a b Hj Hkj Ha Hb.
      destruct (Nat.eq_dec (parent j) i) as [Hpe|Hpi]; [|eapply D1; eauto].
      rewrite Hpe, set_nth_same in Hb by auto. inversion Hb; subst b.
      pose proof (parent_lt j Hj). rewrite set_nth_other in Ha by lia.
      destruct (Nat.eq_dec j child) as [->|Hjc]; [congruence|].
      apply (swo_negtrans _ HS a c x); auto. apply (Hmin HS j); auto. apply parent_children; auto.
  - apply Hplace. intros HS (D1 & D2) j a b Hj Hkj Ha Hb.
    destruct (Nat.eq_dec (parent j) i) as [Hpe|Hpi]; [|eapply D1; eauto].
    apply parent_children in Hpe; auto. apply nth_error_lt in Ha. rewrite set_nth_length in Ha.
    unfold left, right in *. lia.
Qed.

Lemma percolateDown_spec lt k i h : WF h -> i < length (hp h) -> k <= i ->
  exists h2, percolateDown lt i h = Some h2 /\ WF h2 /\ length (hp h2) = length (hp h) /\
    length (idx h2) = length (idx h) /\
    (forall y, In y (hp h2) <-> In y (hp h)) /\
    (SWO lt -> DNI lt k i (hp h) -> HOfrom lt k (hp h2)).
Proof.
  intros HW Hi Hk. unfold percolateDown.
  destruct (nth_error (hp h) i) as [x|] eqn:Ex; [|apply nth_error_None in Ex; lia].
  destruct (down_loop_spec lt k (S (length (hp h))) i x h ltac:(lia) Hk (WF_WFh _ _ _ HW Ex)) as (h2 & H).
  rewrite (set_nth_id _ _ _ Ex) in H. exists h2. exact H.
Qed.

(** ** Public operations *)
Lemma HO_root lt L x y : SWO lt -> HO lt L -> nth_error L 0 = Some x -> In y L -> lt y x = false.
Proof.
  intros HS HO' Hx Hy. apply In_nth_error in Hy. destruct Hy as (j & Hj). revert y Hj.
  induction j as [j IH] using lt_wf_ind. intros y Hj. destruct (Nat.eq_dec j 0) as [->|Hj0].
  - rewrite Hx in Hj. inversion Hj; subst. apply HS.
  - pose proof (parent_lt j ltac:(lia)) as Hp.
    destruct (nth_error L (parent j)) as [z|] eqn:Ez;
      [|apply nth_error_None in Ez; apply nth_error_lt in Hj; lia].
    apply (swo_negtrans _ HS y z x).
    + apply (HO' j); auto; lia.
    + eapply IH; eauto.
Qed.

Lemma idx_lookup h n : WF h -> In n (hp h) -> exists i, nth n (idx h) None = Some i /\
  nth_error (hp h) i = Some n /\ i < length (hp h).
Proof.
  intros HW H. apply In_nth_error in H. destruct H as (i & H). exists i.
  pose proof (nth_error_lt _ _ _ H). repeat split; auto. apply nth_nth_error. apply HW; auto.
Qed.

(** [lt'] agrees with [lt] on pairs without [n] *)
Definition agree_except (n : nat) (lt lt' : nat -> nat -> bool) : Prop :=
  forall x y, x <> n -> y <> n -> lt' x y = lt x y.

Lemma HO_UPI lt lt' n i L : SWO lt -> NoDup L -> nth_error L i = Some n ->
  agree_except n lt lt' -> (forall y, lt y n = false -> lt' y n = false) ->
  HO lt L -> UPI lt' i L.
Proof.
  intros HS Hnd Hn Ha Hdec HO'.
  assert (Hne : forall j x, nth_error L j = Some x -> j <> i -> x <> n).
  { intros j x Hj Hji ->. apply Hji. eapply NoDup_nth_error; eauto; [eapply nth_error_lt; eauto | congruence]. }
  split.
  - intros j x y Hj Hji Hx Hy. assert (lt x y = false) by (eapply HO'; eauto; lia).
    destruct (Nat.eq_dec (parent j) i) as [He|He].
    + rewrite He in Hy. rewrite Hn in Hy. inversion Hy; subst. auto.
    + rewrite Ha; eauto.
  - intros j x y Hj Hp Hi Hx Hy. pose proof (parent_lt j Hj). pose proof (parent_lt i Hi).
    rewrite Ha by (eapply Hne; eauto; lia).
    apply (swo_negtrans _ HS x n y); [apply (HO' j)|apply (HO' i)]; auto; try lia; congruence.
Qed.

Lemma HO_DNI lt lt' n i L : SWO lt -> NoDup L -> nth_error L i = Some n ->
  agree_except n lt lt' -> (forall y, lt n y = false -> lt' n y = false) ->
  HO lt L -> DNI lt' 0 i L.
Proof.
  intros HS Hnd Hn Ha Hdec HO'.
  assert (Hne : forall j x, nth_error L j = Some x -> j <> i -> x <> n).
  { intros j x Hj Hji ->. apply Hji. eapply NoDup_nth_error; eauto; [eapply nth_error_lt; eauto | congruence]. }
  split.
  - intros j x y Hj _ Hji Hx Hy. assert (lt x y = false) by (eapply HO'; eauto; lia).
    destruct (Nat.eq_dec j i) as [He|He].
    + subst j. rewrite Hn in Hx. inversion Hx; subst. auto.
    + rewrite Ha; eauto.
  - intros j x y Hj Hp Hi _ Hx Hy. pose proof (parent_lt j Hj). pose proof (parent_lt i Hi).
    rewrite Ha by (eapply Hne; eauto; lia).
    apply (swo_negtrans _ HS x n y); [apply (HO' j)|apply (HO' i)]; auto; try lia; congruence.
Qed.

Lemma decrease_spec lt lt' n h : WF h -> In n (hp h) ->
  exists h2, decrease lt' n h = Some h2 /\ WF h2 /\ length (idx h2) = length (idx h) /\
    (forall y, In y (hp h2) <-> In y (hp h)) /\
    (SWO lt -> SWO lt' -> HO lt (hp h) -> agree_except n lt lt' ->
     (forall y, lt y n = false -> lt' y n = false) -> HO lt' (hp h2)).
Proof.
  intros HW Hn. destruct (idx_lookup h n HW Hn) as (i & E & Ei & Hi). unfold decrease. rewrite E.
  destruct (percolateUp_spec lt' i h HW Hi) as (h2 & -> & W2 & L1 & L2 & I2 & O2).
  exists h2. split; [reflexivity|]; split; [exact W2|]; split; [congruence|]; split; [exact I2|].
  intros HS HS' HO' Ha Hd. apply O2; auto. apply (HO_UPI lt lt' n i); auto using WF_NoDup.
Qed.

Lemma increase_spec lt lt' n h : WF h -> In n (hp h) ->
  exists h2, increase lt' n h = Some h2 /\ WF h2 /\ length (idx h2) = length (idx h) /\
    (forall y, In y (hp h2) <-> In y (hp h)) /\
    (SWO lt -> SWO lt' -> HO lt (hp h) -> agree_except n lt lt' ->
     (forall y, lt n y = false -> lt' n y = false) -> HO lt' (hp h2)).
Proof.
  intros HW Hn. destruct (idx_lookup h n HW Hn) as (i & E & Ei & Hi). unfold increase. rewrite E.
  destruct (percolateDown_spec lt' 0 i h HW Hi ltac:(lia)) as (h2 & -> & W2 & L1 & L2 & I2 & O2).
  exists h2. split; [reflexivity|]; split; [exact W2|]; split; [congruence|]; split; [exact I2|].
  intros HS HS' HO' Ha Hd. apply O2; auto. apply (HO_DNI lt lt' n i); auto using WF_NoDup.
Qed.

Lemma hgrow_spec n h : WF h -> WF (hgrow n h) /\ hp (hgrow n h) = hp h /\
  length (idx (hgrow n h)) = max n (length (idx h)).
Proof.
  intros HW. unfold hgrow. destruct (Nat.ltb_spec (length (idx h)) n); cbn [hp idx].
  - split; [|split; [auto|rewrite app_length, repeat_length; lia]].
    intros i x. cbn [hp idx]. rewrite (HW i x). destruct (Nat.lt_ge_cases x (length (idx h))).
    + rewrite nth_error_app1 by auto. reflexivity.
    + rewrite nth_error_app2 by auto. rewrite (proj2 (nth_error_None (idx h) x)) by auto.
      split; [discriminate|]. intros H1. apply nth_error_In, repeat_spec in H1. discriminate.
  - split; auto. split; auto. lia.
Qed.

Lemma hinsert_spec lt n h : WF h -> n < length (idx h) -> ~ In n (hp h) ->
  exists h2, hinsert lt n h = Some h2 /\ WF h2 /\ length (idx h2) = length (idx h) /\
    (forall y, In y (hp h2) <-> y = n \/ In y (hp h)) /\
    (SWO lt -> HO lt (hp h) -> HO lt (hp h2)).
Proof.
  intros HW Hn Hni. unfold hinsert.
  destruct (inHeap h n) eqn:Ein; [apply inHeap_spec in Ein; auto; contradiction|].
  unfold upd. rewrite (proj2 (Nat.ltb_lt _ _) Hn).
  set (h0 := mkHeap (hp h ++ [n]) (set_nth n (Some (length (hp h))) (idx h))).
  assert (HW0 : WF h0).
  { intros i x. unfold h0; cbn [hp idx]. specialize (HW i x).
    destruct (Nat.eq_dec x n) as [->|Hx].
    - rewrite set_nth_same by auto. destruct (Nat.lt_trichotomy i (length (hp h))) as [H|[->|H]].
      + rewrite nth_error_app1 by auto. split; [|intros H1; inversion H1; lia].
        intros H1. exfalso. apply Hni. eapply nth_error_In; eauto.
      + rewrite nth_error_app2, Nat.sub_diag by lia. simpl. tauto.
      + rewrite nth_error_app2 by lia. destruct (i - length (hp h)) as [|[|k]] eqn:Ek; simpl; try lia; split; try congruence.
        all: intros H1; inversion H1; lia.
    - rewrite set_nth_other by auto. rewrite <- HW. destruct (Nat.lt_ge_cases i (length (hp h))).
      + rewrite nth_error_app1 by auto. reflexivity.
      + rewrite nth_error_app2 by auto. rewrite (proj2 (nth_error_None (hp h) i)) by auto.
        split; [|discriminate]. destruct (i - length (hp h)) as [|[|k]]; simpl; congruence. }
  destruct (percolateUp_spec lt (length (hp h)) h0 HW0) as (h2 & -> & W2 & L1 & L2 & I2 & O2).
  { unfold h0; cbn [hp]. rewrite app_length. simpl. lia. }
  exists h2. unfold h0 in *; cbn [hp idx] in *. rewrite set_nth_length in L2.
  split; [auto|]. split; [auto|]. split; [auto|]. split.
  - intros y. rewrite I2, in_app_iff. simpl. intuition.
  - intros HS HO'. apply O2; auto.
    assert (Hlt : forall j x, nth_error (hp h ++ [n]) j = Some x -> j <> length (hp h) -> nth_error (hp h) j = Some x).
    { intros j x Hj Hne. pose proof (nth_error_lt _ _ _ Hj) as Hjl. rewrite app_length in Hjl. simpl in Hjl.
      rewrite nth_error_app1 in Hj by lia. auto. }
    split.
    + intros j x y Hj Hji Hx Hy. apply Hlt in Hx; auto. pose proof (nth_error_lt _ _ _ Hx).
      pose proof (parent_lt j Hj). apply Hlt in Hy; [|lia]. eapply HO'; eauto. lia.
    + intros j x y Hj Hp Hl Hx Hy. pose proof (parent_lt j Hj). apply nth_error_lt in Hx.
      rewrite app_length in Hx. simpl in Hx. lia.
Qed.

Lemma hupdate_spec lt lt' n h : WF h -> n < length (idx h) ->
  exists h2, hupdate lt' n h = Some h2 /\ WF h2 /\ length (idx h2) = length (idx h) /\
    (forall y, In y (hp h2) <-> y = n \/ In y (hp h)) /\
    (SWO lt -> SWO lt' -> HO lt (hp h) -> agree_except n lt lt' -> HO lt' (hp h2)).
Proof.
  intros HW Hn. unfold hupdate. destruct (inHeap h n) eqn:Ein.
  - apply inHeap_spec in Ein; auto. destruct (idx_lookup h n HW Ein) as (i & E & Ei & Hi). rewrite E.
    assert (Hcase : (SWO lt -> SWO lt' -> HO lt (hp h) -> agree_except n lt lt' -> UPI lt' i (hp h) \/ DNI lt' 0 i (hp h))).
    { intros HS HS' HO' Ha.
      (* n either does not precede its parent, or does not follow any child *)
      destruct (Nat.eq_dec i 0) as [->|Hi0].
      - right. split; [|intros; lia]. intros j x y Hj _ Hp Hx Hy.
        assert (Hne : forall j x, nth_error (hp h) j = Some x -> j <> 0 -> x <> n).
        { intros j' x' Hj' Hn' ->. apply Hn'. eapply NoDup_nth_error; eauto using WF_NoDup; [eapply nth_error_lt; eauto|congruence]. }
        rewrite Ha; [|eapply Hne; eauto; lia|eapply Hne; eauto]. eapply HO'; eauto. lia.
      - pose proof (parent_lt i ltac:(lia)) as Hpi.
        destruct (nth_error (hp h) (parent i)) as [p|] eqn:Ep; [|apply nth_error_None in Ep; lia].
        assert (Hne : forall j x, nth_error (hp h) j = Some x -> j <> i -> x <> n).
        { intros j' x' Hj' Hn' ->. apply Hn'. eapply NoDup_nth_error; eauto using WF_NoDup; [eapply nth_error_lt; eauto|congruence]. }
        assert (Hcp : forall j x, 0 < j -> parent j = i -> nth_error (hp h) j = Some x -> lt' x p = false).
        { intros j x Hj Hp Hx. pose proof (parent_lt j Hj).
          rewrite Ha; [|eapply Hne; eauto; lia|eapply Hne; eauto; lia].
          apply (swo_negtrans _ HS x n p); [apply (HO' j)|apply (HO' i)]; auto; try lia; congruence. }
        destruct (lt' n p) eqn:Enp.
        + left. split.
          * intros j x y Hj Hji Hx Hy. destruct (Nat.eq_dec (parent j) i) as [He|He].
            -- rewrite He, Ei in Hy. inversion Hy; subst y.
               destruct (lt' x n) eqn:Exn; auto.
               rewrite <- (Hcp j x Hj He Hx). symmetry. eapply swo_trans; eauto.
            -- rewrite Ha; [|eauto|eauto]. eapply HO'; eauto. lia.
          * intros j x y Hj Hp _ Hx Hy. rewrite Ep in Hy. inversion Hy; subst. eauto.
        + right. split.
          * intros j x y Hj _ Hp Hx Hy. destruct (Nat.eq_dec j i) as [->|He].
            -- congruence.
            -- rewrite Ha; [|eauto|eauto]. eapply HO'; eauto. lia.
          * intros j x y Hj Hp _ _ Hx Hy. rewrite Ep in Hy. inversion Hy; subst. eauto. }
    destruct (percolateUp_spec lt' i h HW Hi) as (h1 & E1 & W1 & L1 & L2 & I1 & O1).
    rewrite E1.
    destruct (idx_lookup h1 n W1 (proj2 (I1 n) Ein)) as (j & Ej & Ejn & Hj). rewrite Ej.
    destruct (percolateDown_spec lt' 0 j h1 W1 Hj ltac:(lia)) as (h2 & -> & W2 & L3 & L4 & I2 & O2).
    exists h2. split; [auto|]. split; [auto|]. split; [lia|]. split.
    { intros y. rewrite I2, I1. split; auto. intros [->|]; auto. }
    intros HS HS' HO' Ha. apply O2; auto.
    destruct (Hcase HS HS' HO' Ha) as [HU|HD].
    + specialize (O1 HS' HU). apply (HO_DNI lt' lt' n j); auto using WF_NoDup. intros ? ? ? ?; auto.
    + (* percolateUp does nothing: n does not precede its parent *)
      assert (Hsame : h1 = h \/ HO lt' (hp h1)).
      { destruct (Nat.eq_dec i 0) as [->|Hi0].
        - left. unfold percolateUp in E1. rewrite Ei in E1. simpl in E1.
          rewrite place_some in E1 by (auto; lia). inversion E1.
          rewrite (set_nth_id _ _ _ Ei), (set_nth_id (idx h) n (Some 0)). destruct h; auto.
          apply HW; auto.
        - destruct (nth_error (hp h) (parent i)) as [p|] eqn:Ep;
            [|apply nth_error_None in Ep; pose proof (parent_lt i ltac:(lia)); lia].
          destruct (lt' n p) eqn:Enp.
          + (* then the up-invariant holds as well *)
            right. apply O1; auto. destruct HD as (D1 & D2). split.
            * intros j' x y Hj' Hji Hx Hy. destruct (Nat.eq_dec (parent j') i) as [He|He].
              -- rewrite He, Ei in Hy. inversion Hy; subst y. destruct (lt' x n) eqn:Exn; auto.
                 assert (lt' x p = false) by (apply (D2 j' x p); auto; lia).
                 rewrite <- H. symmetry; eapply swo_trans; eauto.
              -- apply (D1 j'); auto. lia.
            * intros j' x y Hj' Hp' Hi' Hx Hy. apply (D2 j'); auto. lia.
          + left. unfold percolateUp in E1. rewrite Ei in E1. cbn [up_loop] in E1.
            apply Nat.eqb_neq in Hi0. rewrite Hi0, Ep, Enp in E1.
            rewrite place_some in E1 by (auto; lia). inversion E1.
            rewrite (set_nth_id _ _ _ Ei), (set_nth_id (idx h) n (Some i)). destruct h; auto.
            apply HW; auto. }
      destruct Hsame as [->|Hho].
      * assert (j = i) by congruence. subst. auto.
      * apply (HO_DNI lt' lt' n j); auto using WF_NoDup. intros ? ? ? ?; auto.
  - assert (Hni : ~ In n (hp h)).
    { intros H. apply inHeap_spec in H; auto. congruence. }
    destruct (hinsert_spec lt' n h HW Hn Hni) as (h2 & -> & W2 & L2 & I2 & O2).
    exists h2. split; [reflexivity|]; split; [exact W2|]; split; [congruence|]; split; [exact I2|].
    intros HS HS' HO' Ha. apply O2; auto. intros i x y Hi _ Hx Hy.
    rewrite Ha; [eapply HO'; eauto; lia| |]; intros ->; apply Hni; eapply nth_error_In; eauto.
Qed.

Lemma removelast_nth {A} (l : list A) i : S i < length l -> nth_error (removelast l) i = nth_error l i.
Proof.
  intros H. revert i H. induction l as [|x [|y l] IH]; intros i H; simpl in *; try lia.
  destruct i; auto. apply IH. simpl. lia.
Qed.
Lemma removelast_length {A} (l : list A) : length (removelast l) = pred (length l).
Proof. induction l as [|x [|y l] IH]; simpl in *; auto. Qed.
Lemma last_nth_error (l : list nat) : l <> [] -> nth_error l (pred (length l)) = Some (List.last l 0).
Proof.
  induction l as [|x [|y l] IH]; intros H; [congruence|reflexivity|].
  change (List.last (x :: y :: l) 0) with (List.last (y :: l) 0). rewrite <- IH by discriminate. reflexivity.
Qed.

Lemma removeMin_spec lt h : WF h -> hp h <> [] ->
  exists x h2, removeMin lt h = Some (x, h2) /\ WF h2 /\ length (idx h2) = length (idx h) /\
    In x (hp h) /\ (forall y, In y (hp h2) <-> In y (hp h) /\ y <> x) /\
    (SWO lt -> HO lt (hp h) -> HO lt (hp h2) /\ forall y, In y (hp h) -> lt y x = false).
Proof.
  intros HW Hne. unfold removeMin. destruct (hp h) as [|x r] eqn:Eh; [congruence|]. rewrite <- Eh in *.
  set (b := List.last (hp h) 0). set (n := pred (length (hp h))).
  assert (Hx : nth_error (hp h) 0 = Some x) by (rewrite Eh; auto).
  assert (Hb : nth_error (hp h) n = Some b) by (apply last_nth_error; auto).
  pose proof (proj1 (HW _ _) Hx) as Hix. pose proof (proj1 (HW _ _) Hb) as Hib.
  pose proof (nth_error_lt _ _ _ Hix) as Hxl. pose proof (nth_error_lt _ _ _ Hib) as Hbl.
  assert (Hlen : length (hp h) = S n) by (unfold n; rewrite Eh; simpl; lia).
  unfold upd. rewrite (proj2 (Nat.ltb_lt _ _) Hbl), set_nth_length, (proj2 (Nat.ltb_lt _ _) Hxl).
  set (h1 := mkHeap (removelast (set_nth 0 b (hp h))) (set_nth x None (set_nth b (Some 0) (idx h)))).
  assert (Hl1 : length (hp h1) = n) by (unfold h1; cbn [hp]; rewrite removelast_length, set_nth_length; lia).
  assert (Hnth : forall i, i < n -> nth_error (hp h1) i = if i =? 0 then Some b else nth_error (hp h) i).
  { intros i Hi. unfold h1; cbn [hp]. rewrite removelast_nth by (rewrite set_nth_length; lia).
    rewrite set_nth_nth. replace (0 <? length (hp h)) with true by (symmetry; apply Nat.ltb_lt; lia).
    rewrite andb_true_r. reflexivity. }
  assert (Hnone : forall i, n <= i -> nth_error (hp h1) i = None) by (intros; apply nth_error_None; lia).
  assert (HW1 : WF h1).
  { intros i z. destruct (Nat.lt_ge_cases i n) as [Hi|Hi].
    - rewrite Hnth by auto. cbn [hp idx h1]. destruct (Nat.eqb_spec i 0) as [->|Hi0].
      + assert (b <> x) by (intros ->; rewrite Hix in Hib; inversion Hib; lia).
        destruct (Nat.eq_dec z x) as [->|Hzx].
        * rewrite set_nth_same by (rewrite set_nth_length; auto). split; congruence.
        * rewrite (set_nth_other _ x) by auto. destruct (Nat.eq_dec z b) as [->|Hzb].
          -- rewrite set_nth_same by auto. tauto.
          -- rewrite set_nth_other by auto. rewrite <- (HW 0 z), Hx. split; congruence.
      + rewrite (HW i z). destruct (Nat.eq_dec z x) as [->|Hzx].
        * rewrite set_nth_same by (rewrite set_nth_length; auto). rewrite Hix. split; congruence.
        * rewrite (set_nth_other _ x) by auto. destruct (Nat.eq_dec z b) as [->|Hzb].
          -- rewrite set_nth_same by auto. rewrite Hib. split; intros H1; inversion H1; lia.
          -- rewrite set_nth_other by auto. tauto.
    - rewrite Hnone by auto. cbn [idx h1]. split; [discriminate|].
      destruct (Nat.eq_dec z x) as [->|Hzx].
      + rewrite set_nth_same by (rewrite set_nth_length; auto). congruence.
      + rewrite (set_nth_other _ x) by auto. destruct (Nat.eq_dec z b) as [->|Hzb].
        * rewrite set_nth_same by auto. intros H1; injection H1 as H1; subst.
          exfalso. assert (Hn0 : n = 0) by lia. rewrite Hn0 in Hb. rewrite Hx in Hb. inversion Hb. congruence.
        * rewrite set_nth_other by auto. rewrite <- (HW i z). intros H1. pose proof (nth_error_lt _ _ _ H1).
          assert (i = n) by lia. subst i. congruence. }
  assert (Hin1 : forall y, In y (hp h1) <-> In y (hp h) /\ y <> x).
  { pose proof (WF_NoDup _ HW) as Hnd. intros y. split.
    - intros Hy. apply In_nth_error in Hy. destruct Hy as (i & Hi). pose proof (nth_error_lt _ _ _ Hi) as Hil.
      rewrite Hl1 in Hil. rewrite Hnth in Hi by auto. destruct (Nat.eqb_spec i 0) as [Hi0|Hi0].
      + inversion Hi; subst y. split; [eapply nth_error_In; eauto|].
        intros ->. rewrite Hix in Hib. inversion Hib. lia.
      + split; [eapply nth_error_In; eauto|]. intros ->.
        assert (i = 0); [|lia]. eapply NoDup_nth_error; eauto; [lia|congruence].
    - intros [Hy Hyx]. apply In_nth_error in Hy. destruct Hy as (i & Hi). pose proof (nth_error_lt _ _ _ Hi) as Hil.
      assert (i <> 0) by congruence.
      destruct (Nat.eq_dec i n) as [->|].
      + rewrite Hb in Hi. inversion Hi; subst y. apply (nth_error_In _ 0). rewrite Hnth by lia. reflexivity.
      + apply (nth_error_In _ i). rewrite Hnth by lia. destruct (Nat.eqb_spec i 0); [lia|auto]. }
  assert (Hdni : SWO lt -> HO lt (hp h) -> DNI lt 0 0 (hp h1)).
  { intros HS HO'. split; [|intros; lia]. intros j a c Hj _ Hp Ha Hc.
    pose proof (nth_error_lt _ _ _ Ha) as Hjl. rewrite Hl1 in Hjl. pose proof (parent_lt j Hj).
    rewrite Hnth in Ha, Hc by lia. destruct (Nat.eqb_spec j 0); [lia|].
    destruct (Nat.eqb_spec (parent j) 0); [lia|]. eapply HO'; eauto. lia. }
  assert (Hmin : SWO lt -> HO lt (hp h) -> forall y, In y (hp h) -> lt y x = false).
  { intros HS HO' y Hy. eapply HO_root; eauto. }
  rewrite Hl1. destruct (Nat.ltb_spec 1 n) as [H1n|H1n].
  - destruct (percolateDown_spec lt 0 0 h1 HW1 ltac:(lia) ltac:(lia)) as (h2 & -> & W2 & L2 & L3 & I2 & O2).
    exists x, h2. split; [auto|]. split; [auto|]. split; [rewrite L3; unfold h1; cbn [idx]; rewrite !set_nth_length; auto|].
    split; [eapply nth_error_In; eauto|]. split; [intros y; rewrite I2; auto|].
    intros HS HO'. split; auto. apply O2; auto.
  - exists x, h1. split; [auto|]. split; [auto|]. split; [unfold h1; cbn [idx]; rewrite !set_nth_length; auto|].
    split; [eapply nth_error_In; eauto|]. split; [auto|].
    intros HS HO'. split; auto. intros j a c Hj _ Ha Hc. apply nth_error_lt in Ha. lia.
Qed.

Lemma clear_idx_spec l : forall ix, (forall x, In x l -> x < length ix) ->
  exists ix', clear_idx l ix = Some ix' /\ length ix' = length ix /\
    forall x, nth_error ix' x = if in_dec Nat.eq_dec x l then Some None else nth_error ix x.
Proof.
  induction l as [|y l IH]; intros ix H; simpl.
  - eauto.
  - unfold upd. rewrite (proj2 (Nat.ltb_lt _ _) (H y (or_introl eq_refl))).
    destruct (IH (set_nth y None ix)) as (ix' & -> & L & N).
    { intros x Hx. rewrite set_nth_length. apply H. simpl; auto. }
    exists ix'. rewrite set_nth_length in L. repeat split; auto.
    intros x. rewrite N. destruct (in_dec Nat.eq_dec x l) as [Hi|Hi].
    + destruct (Nat.eq_dec y x); auto.
    + destruct (Nat.eq_dec y x) as [->|Hn].
      * rewrite set_nth_same; auto. apply H; simpl; auto.
      * rewrite set_nth_other; auto.
Qed.

Lemma hclear_spec h : WF h -> exists h2, hclear h = Some h2 /\ WF h2 /\ hp h2 = [] /\
  length (idx h2) = length (idx h) /\ forall x i, nth_error (idx h2) x <> Some (Some i).
Proof.
  intros HW. unfold hclear.
  destruct (clear_idx_spec (hp h) (idx h)) as (ix & -> & L & N).
  { intros x Hx. apply In_nth_error in Hx. destruct Hx as (i & Hi). apply HW in Hi. eapply nth_error_lt; eauto. }
  eexists. split; [reflexivity|]. cbn [hp idx].
  assert (Hn : forall x i, nth_error ix x <> Some (Some i)).
  { intros x i. rewrite N. destruct (in_dec Nat.eq_dec x (hp h)) as [H|H]; [discriminate|].
    intros H1. apply HW in H1. apply H. eapply nth_error_In; eauto. }
  repeat split; auto.
  - cbn [hp]. destruct i; discriminate.
  - cbn [hp idx]. intros H. exfalso. eapply Hn; eauto.
Qed.

Lemma fill_idx_spec l : forall k ix, (forall x, In x l -> x < length ix) -> NoDup l ->
  exists ix', fill_idx k l ix = Some ix' /\ length ix' = length ix /\
    (forall i x, nth_error l i = Some x -> nth_error ix' x = Some (Some (k + i))) /\
    (forall x, ~ In x l -> nth_error ix' x = nth_error ix x).
Proof.
  induction l as [|y l IH]; intros k ix H Hnd; simpl.
  - exists ix. repeat split; auto. intros [|i]; discriminate.
  - inversion Hnd; subst. unfold upd. rewrite (proj2 (Nat.ltb_lt _ _) (H y (or_introl eq_refl))).
    destruct (IH (S k) (set_nth y (Some k) ix)) as (ix' & -> & L & N1 & N2); auto.
    { intros x Hx. rewrite set_nth_length. apply H. simpl; auto. }
    rewrite set_nth_length in L. exists ix'. repeat split; auto.
    + intros [|i] x Hx; simpl in Hx.
      * inversion Hx; subst. rewrite N2 by auto. rewrite set_nth_same by (apply H; simpl; auto). f_equal. f_equal. lia.
      * rewrite (N1 i x Hx). f_equal. f_equal. lia.
    + intros x Hx. rewrite N2 by tauto. rewrite set_nth_other; auto; tauto.
Qed.

Lemma heapify_spec lt n : forall h, WF h -> n <= length (hp h) ->
  exists h2, heapify lt n h = Some h2 /\ WF h2 /\ length (hp h2) = length (hp h) /\
    length (idx h2) = length (idx h) /\ (forall y, In y (hp h2) <-> In y (hp h)) /\
    (SWO lt -> HOfrom lt n (hp h) -> HO lt (hp h2)).
Proof.
  induction n as [|n IH]; intros h HW Hn.
  - exists h. simpl. split; [auto|]. split; [auto|]. split; [auto|]. split; [auto|]. split; [tauto|]. auto.
  - simpl. destruct (percolateDown_spec lt n n h HW ltac:(lia) ltac:(lia)) as (h1 & -> & W1 & L1 & L2 & I1 & O1).
    destruct (IH h1 W1 ltac:(lia)) as (h2 & -> & W2 & L3 & L4 & I2 & O2).
    exists h2. split; [auto|]. split; [auto|]. split; [lia|]. split; [lia|]. split; [intros y; rewrite I2; auto|].
    intros HS Hf. apply O2; auto. apply O1; auto. split.
    + intros j x y Hj Hk Hp Hx Hy. eapply Hf; eauto. lia.
    + intros j x y Hj Hp H0 Hk Hx Hy. pose proof (parent_lt n H0). lia.
Qed.

Lemma hbuild_spec lt ns h : WF h -> NoDup ns -> (forall x, In x ns -> x < length (idx h)) ->
  exists h2, hbuild lt ns h = Some h2 /\ WF h2 /\ length (idx h2) = length (idx h) /\
    (forall y, In y (hp h2) <-> In y ns) /\ (SWO lt -> HO lt (hp h2)).
Proof.
  intros HW Hnd Hns. unfold hbuild.
  destruct (hclear_spec h HW) as (h0 & -> & W0 & E0 & L0 & N0).
  destruct (fill_idx_spec ns 0 (idx h0)) as (ix & -> & L & N1 & N2); auto.
  { intros x Hx. rewrite L0. auto. }
  set (h1 := mkHeap ns ix).
  assert (W1 : WF h1).
  { intros i x. unfold h1; cbn [hp idx]. split; [apply N1|].
    intros H. destruct (in_dec Nat.eq_dec x ns) as [Hx|Hx].
    - apply In_nth_error in Hx. destruct Hx as (j & Hj). rewrite (N1 _ _ Hj) in H. simpl in H. congruence.
    - rewrite N2 in H by auto. exfalso. eapply N0; eauto. }
  assert (Hhalf : length ns / 2 <= length ns) by (apply Nat.div_le_upper_bound; lia).
  destruct (heapify_spec lt (length ns / 2) h1 W1 Hhalf) as (h2 & -> & W2 & L1 & L2 & I2 & O2).
  exists h2. cbn [hp idx h1] in *. split; [auto|]. split; [auto|]. split; [lia|]. split; [auto|].
  intros HS. apply O2; auto. intros j x y Hj Hk Hx Hy. exfalso.
  apply nth_error_lt in Hx.
  pose proof (Nat.div_mod (length ns) 2 ltac:(lia)). pose proof (Nat.mod_upper_bound (length ns) 2 ltac:(lia)).
  unfold parent in Hk. pose proof (Nat.div_mod (j - 1) 2 ltac:(lia)). pose proof (Nat.mod_upper_bound (j - 1) 2 ltac:(lia)). lia.
Qed.

(** ** Client histories *)
Require Import Verif.HeapSpec.

Lemma swo_of lt : strict_weak_order lt -> SWO lt.
Proof. intros [A B C]. constructor; auto. Qed.

Definition Inv cap lt (S : nat -> Prop) h : Prop :=
  strict_weak_order lt /\ WF h /\ length (idx h) = cap /\ HO lt (hp h) /\ forall y, In y (hp h) <-> S y.

Lemma uses_inv cap lt S h : uses cap lt S h -> Inv cap lt S h.
Proof.
  induction 1 as
    [lt HS | cap lt S h n U IH | cap lt S h n h' U IH Hn Hni E | cap lt S h n lt' h' U IH Hn HS' Ho Hd E
    | cap lt S h n lt' h' U IH Hn HS' Ho Hd E | cap lt S h n lt' h' U IH Hn HS' Ho E
    | cap lt S h lt' U IH HS' Hr | cap lt S h x h' U IH E | cap lt S h lt' ns h' U IH HS' Hnd Hns E
    | cap lt S h h' U IH E ]; try destruct IH as (HS & HW & Hc & HO' & HI).
  - split; [auto|]. split; [intros [|i] [|x]; simpl; split; discriminate|]. split; [auto|].
    split; [intros j x y Hj _ Hx; destruct j; discriminate|]. simpl; tauto.
  - destruct (hgrow_spec n h HW) as (W & Eh & L). split; [auto|]. split; [auto|]. split; [lia|].
    rewrite Eh. auto.
  - destruct (hinsert_spec lt n h HW) as (h2 & E2 & W & L & I & O); [lia|rewrite HI; auto|].
    rewrite E2 in E. inversion E; subst. split; [auto|]. split; [auto|]. split; [auto|].
    split; [apply O; auto using swo_of|]. intros y. rewrite I, HI. tauto.
  - destruct (decrease_spec lt lt' n h HW) as (h2 & E2 & W & L & I & O); [apply HI; auto|].
    rewrite E2 in E. inversion E; subst. split; [auto|]. split; [auto|]. split; [auto|].
    split; [apply O; auto using swo_of|]. intros y. rewrite I, HI. tauto.
  - destruct (increase_spec lt lt' n h HW) as (h2 & E2 & W & L & I & O); [apply HI; auto|].
    rewrite E2 in E. inversion E; subst. split; [auto|]. split; [auto|]. split; [auto|].
    split; [apply O; auto using swo_of|]. intros y. rewrite I, HI. tauto.
  - destruct (hupdate_spec lt lt' n h HW) as (h2 & E2 & W & L & I & O); [lia|].
    rewrite E2 in E. inversion E; subst. split; [auto|]. split; [auto|]. split; [auto|].
    split; [apply O; auto using swo_of|]. intros y. rewrite I, HI. tauto.
  - split; [auto|]. split; [auto|]. split; [auto|]. split; [|auto].
    intros j x y Hj Hk Hx Hy. apply Hr; try (apply HI; eapply nth_error_In; eauto). eapply HO'; eauto.
  - destruct (hp h) as [|z r] eqn:Eh; [unfold removeMin in E; rewrite Eh in E; discriminate|]. rewrite <- Eh in *.
    destruct (removeMin_spec lt h HW) as (x2 & h2 & E2 & W & L & Hx & I & O); [congruence|].
    rewrite E2 in E. inversion E; subst. split; [auto|]. split; [auto|]. split; [auto|].
    split; [apply O; auto using swo_of|]. intros y. rewrite I, HI. tauto.
  - destruct (hbuild_spec lt' ns h HW Hnd) as (h2 & E2 & W & L & I & O); [intros; rewrite Hc; auto|].
    rewrite E2 in E. inversion E; subst. split; [auto|]. split; [auto|]. split; [auto|].
    split; [apply O; auto using swo_of|]. intros y. rewrite I. tauto.
  - destruct (hclear_spec h HW) as (h2 & E2 & W & E0 & L & _).
    rewrite E2 in E. inversion E; subst. split; [auto|]. split; [auto|]. split; [auto|].
    rewrite E0. split; [intros j x y Hj _ Hx; destruct j; discriminate|]. simpl; tauto.
Qed.

Lemma uses_member cap lt S h n : uses cap lt S h -> (inHeap h n = true <-> S n).
Proof. intros U. destruct (uses_inv _ _ _ _ U) as (_ & HW & _ & _ & HI). rewrite inHeap_spec; auto. Qed.

Lemma uses_size cap lt S h : uses cap lt S h ->
  exists l, NoDup l /\ (forall x, In x l <-> S x) /\ hsize h = length l.
Proof.
  intros U. destruct (uses_inv _ _ _ _ U) as (_ & HW & _ & _ & HI).
  exists (hp h). split; [apply WF_NoDup; auto|]. split; auto.
Qed.

Lemma uses_removeMin cap lt S h y : uses cap lt S h -> S y ->
  exists x h', removeMin lt h = Some (x, h') /\ S x /\ forall z, S z -> lt z x = false.
Proof.
  intros U Hy. destruct (uses_inv _ _ _ _ U) as (HS & HW & _ & HO' & HI).
  destruct (removeMin_spec lt h HW) as (x & h2 & E2 & W & L & Hx & I & O).
  { intros E. apply HI in Hy. rewrite E in Hy. auto. }
  exists x, h2. split; auto. split; [apply HI; auto|].
  intros z Hz. apply O; auto using swo_of. apply HI; auto.
Qed.

Lemma uses_defined cap lt S h n lt' ns : uses cap lt S h ->
  (n < cap -> ~ S n -> hinsert lt n h <> None) /\
  (S n -> decrease lt' n h <> None) /\
  (S n -> increase lt' n h <> None) /\
  (n < cap -> hupdate lt' n h <> None) /\
  (NoDup ns -> (forall x, In x ns -> x < cap) -> hbuild lt' ns h <> None) /\
  hclear h <> None.
Proof.
  intros U. destruct (uses_inv _ _ _ _ U) as (HS & HW & Hc & HO' & HI).
  split; [|split; [|split; [|split; [|split]]]].
  - intros H1 H2. destruct (hinsert_spec lt n h HW) as (h2 & E2 & _); [lia|rewrite HI; auto|congruence].
  - intros H1. destruct (decrease_spec lt lt' n h HW) as (h2 & E2 & _); [apply HI; auto|congruence].
  - intros H1. destruct (increase_spec lt lt' n h HW) as (h2 & E2 & _); [apply HI; auto|congruence].
  - intros H1. destruct (hupdate_spec lt lt' n h HW) as (h2 & E2 & _); [lia|congruence].
  - intros H1 H2. destruct (hbuild_spec lt' ns h HW H1) as (h2 & E2 & _); [intros; rewrite Hc; auto|congruence].
  - destruct (hclear_spec h HW) as (h2 & E2 & _). congruence.
Qed.
