(** The subsumption test (C26). *)
Require Import List Arith Bool NArith Lia Permutation.
Require Import Verif.Base Verif.CNFModel Verif.CNFProofs Verif.SimpModel Verif.PropProofs.
Import ListNotations.

Lemma abstraction_bit ls : forall a k,
  N.testbit (fold_left (fun a l => N.lor a (N.shiftl 1 (N.of_nat (lvar l) mod 64))) ls a) k = true <->
  N.testbit a k = true \/ exists l, In l ls /\ k = (N.of_nat (lvar l) mod 64)%N.
Proof.
  induction ls as [|x r IH]; intros a k; cbn [fold_left In].
  - split; [auto|]. intros [H|(l & [] & _)]; auto.
  - rewrite IH, N.lor_spec, orb_true_iff, N.shiftl_1_l, N.pow2_bits_eqb, N.eqb_eq. split.
    + intros [[H|H]|(l & H1 & H2)]; auto; right; [exists x|exists l]; auto.
    + intros [H|(l & [->|H1] & H2)]; auto. right. eauto.
Qed.

Lemma abstraction_incl cs ds : (forall l, In l cs -> In (lvar l) (map lvar ds)) ->
  N.ldiff (abstraction cs) (abstraction ds) = 0%N.
Proof.
  intros H. apply N.bits_inj. intros k. rewrite N.bits_0, N.ldiff_spec.
  destruct (N.testbit (abstraction cs) k) eqn:E; auto. simpl. apply negb_false_iff.
  unfold abstraction in *. apply abstraction_bit in E. apply abstraction_bit.
  destruct E as [E|(l & Hl & ->)]; [rewrite N.bits_0 in E; discriminate|].
  right. specialize (H l Hl). apply in_map_iff in H. destruct H as (m & Em & Hm). exists m. rewrite Em. auto.
Qed.

Lemma sub_find_some ds : NoDup (map lvar ds) -> forall c ret,
  match sub_find ret c ds with
  | None => ~ In c ds /\ (ret = None -> ~ In (lneg c) ds)
  | Some r => (In c ds /\ r = ret) \/ (ret = None /\ In (lneg c) ds /\ r = Some c)
  end.
Proof.
  induction ds as [|d r IH]; intros Hn c ret; simpl.
  - split; auto.
  - inversion Hn as [|? ? Hd Hr]; subst. destruct (Nat.eqb_spec c d) as [->|Hc]; [left; auto|].
    specialize (IH Hr c ret). destruct ret as [l|].
    + destruct (sub_find (Some l) c r) as [o|].
      * destruct IH as [[H1 H2]|[H1 _]]; [left; auto|discriminate].
      * destruct IH as [H1 _]. split; [intros [E|E]; auto|discriminate].
    + destruct (Nat.eqb_spec c (lneg d)) as [Hcd|Hcd].
      * right. split; auto. split; auto. left. subst c. apply eq_sym, lneg_invol.
      * destruct (sub_find None c r) as [o|].
        -- destruct IH as [[H1 H2]|(_ & H1 & H2)]; [left|right]; auto.
        -- destruct IH as [H1 H2]. split; [intros [E|E]; auto|]. intros _ [E|E]; [|apply H2; auto].
           apply Hcd. rewrite E. apply eq_sym, lneg_invol.
Qed.

Definition flipped (l : lit) (cs ds : list lit) : Prop :=
  In l cs /\ In (lneg l) ds /\ forall m, In m cs -> m <> l -> In m ds.

Lemma nodup_no_compl ds m : NoDup (map lvar ds) -> In m ds -> In (lneg m) ds -> False.
Proof.
  intros H H1 H2. apply (lneg_neq m). apply (nodup_var_neq ds); auto. apply lvar_neg.
Qed.

Lemma sub_loop_spec ds : NoDup (map lvar ds) -> forall cs ret, NoDup (map lvar cs) ->
  match sub_loop ret cs ds with
  | SUndef => ret = None /\ incl cs ds
  | SLit l => (ret = Some l /\ incl cs ds) \/ (ret = None /\ flipped l cs ds)
  | SError => ~ incl cs ds /\ (ret = None -> forall l, ~ flipped l cs ds)
  end.
Proof.
  intros Hd. induction cs as [|c r IH]; intros ret Hc; simpl.
  - destruct ret; [left|]; split; auto; intros x [].
  - inversion Hc as [|? ? Hi Hr]; subst.
    assert (Hcr : forall m, In m r -> m <> c) by (intros m Hm ->; apply Hi, in_map; auto).
    pose proof (sub_find_some ds Hd c ret) as Hf. destruct (sub_find ret c ds) as [ret'|].
    + specialize (IH ret' Hr). destruct Hf as [[H1 ->]|(-> & H1 & ->)].
      * destruct (sub_loop ret r ds) as [| |l].
        -- destruct IH as [I1 I2]. split; [intros H; apply I1; intros x Hx; apply H; simpl; auto|].
           intros Hn l (L1 & L2 & L3). destruct (Nat.eq_dec l c) as [->|Hlc].
           ++ apply (nodup_no_compl ds c); auto.
           ++ apply (I2 Hn l). destruct L1 as [L1|L1]; [congruence|]. split; auto. split; auto.
              intros m Hm. apply L3. simpl; auto.
        -- destruct IH as [I1 I2]. split; auto. intros x [<-|Hx]; auto.
        -- destruct IH as [[I1 I2]|(I1 & L1 & L2 & L3)]; [left|right]; split; auto.
           ++ intros x [<-|Hx]; auto.
           ++ split; [simpl; auto|]. split; auto. intros m [<-|Hm]; auto.
      * destruct (sub_loop (Some c) r ds) as [| |l].
        -- destruct IH as [I1 _]. split.
           ++ intros H. apply I1. intros x Hx. apply H; simpl; auto.
           ++ intros _ l (L1 & L2 & L3). destruct (Nat.eq_dec l c) as [->|Hlc].
              ** apply I1. intros x Hx. apply L3; simpl; auto.
              ** apply (nodup_no_compl ds c); auto. apply L3; simpl; auto.
        -- destruct IH as [I1 _]; discriminate.
        -- destruct IH as [[I1 I2]|[I1 _]]; [|discriminate]. inversion I1; subst. right. split; auto.
           split; [simpl; auto|]. split; auto. intros m [<-|Hm] Hn; [congruence|auto].
    + destruct Hf as [H1 H2]. split.
      * intros H. apply H1. apply H. simpl; auto.
      * intros Hn l (L1 & L2 & L3). destruct (Nat.eq_dec l c) as [->|Hlc]; [apply H2; auto|].
        apply H1. apply L3; simpl; auto.
Qed.

Lemma subsumes_spec cs ds : NoDup (map lvar cs) -> NoDup (map lvar ds) ->
  match subsumes cs ds with
  | SUndef => incl cs ds
  | SLit l => flipped l cs ds
  | SError => ~ incl cs ds /\ forall l, ~ flipped l cs ds
  end.
Proof.
  intros Hc Hd. unfold subsumes.
  assert (Hv : incl cs ds \/ (exists l, flipped l cs ds) -> forall m, In m cs -> In (lvar m) (map lvar ds)).
  { intros [H|(l & L1 & L2 & L3)] m Hm; [apply in_map; auto|]. destruct (Nat.eq_dec m l) as [->|Hn].
    - rewrite <- lvar_neg. apply in_map; auto.
    - apply in_map; auto. }
  destruct ((N.ldiff (abstraction cs) (abstraction ds) =? 0)%N && (length cs <=? length ds)) eqn:E.
  - pose proof (sub_loop_spec ds Hd cs None Hc) as H. destruct (sub_loop None cs ds).
    + destruct H as [H1 H2]. split; auto.
    + apply H.
    + destruct H as [[H _]|[_ H]]; [discriminate|auto].
  - assert (HF : ~ (forall m, In m cs -> In (lvar m) (map lvar ds))).
    { intros H. rewrite (abstraction_incl _ _ H) in E. simpl in E. apply Nat.leb_gt in E.
      assert (length (map lvar cs) <= length (map lvar ds)).
      { apply NoDup_incl_length; auto. intros v Hm. apply in_map_iff in Hm. destruct Hm as (m & <- & Hm). auto. }
      rewrite !map_length in *. lia. }
    split; [intros H; apply HF, Hv; auto|]. intros l H. apply HF, Hv; eauto.
Qed.

Lemma flipped_unique l m cs ds : NoDup (map lvar ds) -> flipped l cs ds -> flipped m cs ds -> l = m.
Proof.
  intros Hd (L1 & L2 & L3) (M1 & M2 & M3). destruct (Nat.eq_dec l m) as [|Hn]; auto. exfalso.
  apply (nodup_no_compl ds l); auto.
Qed.
Lemma flipped_not_incl l cs ds : NoDup (map lvar ds) -> flipped l cs ds -> ~ incl cs ds.
Proof. intros Hd (L1 & L2 & _) H. apply (nodup_no_compl ds l); auto. Qed.

Lemma subsumes_undef cs ds : NoDup (map lvar cs) -> NoDup (map lvar ds) -> (subsumes cs ds = SUndef <-> incl cs ds).
Proof.
  intros Hc Hd. pose proof (subsumes_spec cs ds Hc Hd) as H. destruct (subsumes cs ds); split; intros; try congruence; auto; exfalso.
  - tauto.
  - eapply flipped_not_incl; eauto.
Qed.
Lemma subsumes_lit cs ds l : NoDup (map lvar cs) -> NoDup (map lvar ds) ->
  (subsumes cs ds = SLit l <-> flipped l cs ds).
Proof.
  intros Hc Hd. pose proof (subsumes_spec cs ds Hc Hd) as H. destruct (subsumes cs ds) as [| |m]; split; intros H1; try congruence; auto; try solve [exfalso; firstorder].
  - exfalso. eapply flipped_not_incl; eauto.
  - f_equal. eapply flipped_unique; eauto.
Qed.
Lemma subsumes_error cs ds : NoDup (map lvar cs) -> NoDup (map lvar ds) ->
  (subsumes cs ds = SError <-> ~ incl cs ds /\ forall l, ~ flipped l cs ds).
Proof.
  intros Hc Hd. pose proof (subsumes_spec cs ds Hc Hd) as H. destruct (subsumes cs ds) as [| |m]; split; intros H1; try congruence; auto; exfalso; firstorder.
Qed.

(** the result of resolving on the reported literal is the shortened clause *)
Lemma flipped_resolve a l cs ds : NoDup (map lvar cs) -> flipped l cs ds -> sat_clause a cs -> sat_clause a ds ->
  sat_clause a (filter (fun x => negb (x =? lneg l)) ds).
Proof.
  intros Hn (L1 & L2 & L3) (x & X1 & X2) (y & Y1 & Y2).
  destruct (lit_holds_dec a l) as [Hl|Hl].
  - exists y. split; auto. apply filter_In. split; auto. apply negb_true_iff, Nat.eqb_neq. intros ->.
    apply lit_holds_neg in Y2. auto.
  - exists x. assert (x <> l) by (intros ->; auto). split; auto. apply filter_In. split; auto.
    apply negb_true_iff, Nat.eqb_neq. intros ->. apply (nodup_no_compl cs l); auto.
Qed.
