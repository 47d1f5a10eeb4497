(** Proofs about the filter of the advice (RSARHeuristicsFilter.h). *)
Require Import List Arith Bool NArith ZArith Lia Permutation.
Require Import Verif.Base Verif.Outcome Verif.CNFModel Verif.BranchModel Verif.HeurModel.
Import ListNotations.
Open Scope nat_scope.

(** removal by moving the last element *)
Definition rm {A} (d : A) (i : nat) (l : list A) : list A :=
  let n := length l in
  if (1 <? n) && negb (S i =? n) then firstn (n - 1) (set_nth i (nth (n - 1) l d) l) else firstn (n - 1) l.
Fixpoint rloop {A} (d : A) (f : A -> bool) (k : nat) (l : list A) : list A :=
  match k with 0 => l | S i => rloop d f i (if f (nth i l d) then rm d i l else l) end.

Lemma last_split {A} (d : A) (l : list A) : l <> [] -> l = firstn (length l - 1) l ++ [nth (length l - 1) l d].
Proof.
  intros H. destruct (exists_last H) as (b & x & ->). rewrite app_length. cbn [length]. replace (length b + 1 - 1) with (length b + 0) by lia.
  rewrite firstn_app_2. cbn [firstn]. rewrite app_nil_r. f_equal. rewrite app_nth2 by lia. replace (length b + 0 - length b) with 0 by lia. auto.
Qed.
(** what [rm] leaves: [l = a ++ x :: b], [i = length a] *)
Lemma rm_last {A} (d : A) a x : rm d (length a) (a ++ [x]) = a.
Proof.
  unfold rm. rewrite app_length. cbn [length]. replace (S (length a) =? length a + 1) with true by (symmetry; apply Nat.eqb_eq; lia). cbn [negb]. rewrite andb_false_r.
  replace (length a + 1 - 1) with (length a + 0) by lia. rewrite firstn_app_2. cbn [firstn]. apply app_nil_r.
Qed.
Lemma rm_mid {A} (d : A) a x b y : rm d (length a) (a ++ x :: b ++ [y]) = a ++ y :: b.
Proof.
  unfold rm. rewrite !app_length. cbn [length]. rewrite app_length. cbn [length].
  replace (1 <? length a + S (length b + 1)) with true by (symmetry; apply Nat.ltb_lt; lia).
  replace (S (length a) =? length a + S (length b + 1)) with false by (symmetry; apply Nat.eqb_neq; lia). cbn [negb andb].
  assert (E : nth (length a + S (length b + 1) - 1) (a ++ x :: b ++ [y]) d = y).
  { rewrite app_nth2 by lia. replace (length a + S (length b + 1) - 1 - length a) with (S (length b)) by lia. cbn [nth]. rewrite app_nth2 by lia. rewrite Nat.sub_diag. auto. }
  rewrite E. unfold set_nth. rewrite skipn_app, skipn_all, Nat.sub_diag. cbn [skipn app].
  replace (firstn (length a) (a ++ x :: b ++ [y])) with a; [|replace (length a) with (length a + 0) at 1 by lia; rewrite firstn_app_2; cbn [firstn]; rewrite app_nil_r; auto].
  replace (length a + S (length b + 1) - 1) with (length a + S (length b)) by lia. rewrite firstn_app_2. f_equal. cbn [firstn]. f_equal.
  replace (length b) with (length b + 0) by lia. rewrite firstn_app_2. cbn [firstn]. apply app_nil_r.
Qed.
Lemma nth_split_at {A} (d : A) l i : i < length l -> exists a b, l = a ++ nth i l d :: b /\ length a = i.
Proof. intros H. destruct (nth_split l d H) as (a & b & E & L). exists a, b. auto. Qed.
Lemma rm_ok {A} (d : A) (f : A -> bool) l i : i < length l -> f (nth i l d) = true -> (forall j, i < j < length l -> f (nth j l d) = false) ->
  Permutation (nth i l d :: rm d i l) l /\ (forall j, i <= j < length (rm d i l) -> f (nth j (rm d i l) d) = false).
Proof.
  intros H F G. destruct (nth_split_at d l i H) as (a & b & E & L). set (x := nth i l d) in *. clearbody x. subst i.
  destruct b as [|b0 br].
  - rewrite E, rm_last. split; [apply Permutation_cons_append|]. intros j Hj. lia.
  - destruct (@exists_last _ (b0 :: br) ltac:(discriminate)) as (b & y & EB). rewrite EB in E. rewrite E, rm_mid. split.
    + apply Permutation_trans with (x :: a ++ b ++ [y]); [|apply Permutation_middle]. constructor. apply Permutation_app_head. apply Permutation_cons_append.
    + rewrite E in G. rewrite !app_length in *. cbn [length] in *. rewrite app_length in G. cbn [length] in G. intros j Hj. rewrite app_nth2 by lia.
      destruct (j - length a) as [|k] eqn:EJ; cbn [nth].
      * specialize (G (length a + S (length b))). rewrite app_nth2 in G by lia. replace (length a + S (length b) - length a) with (S (length b)) in G by lia. cbn [nth] in G.
        rewrite app_nth2 in G by lia. rewrite Nat.sub_diag in G. apply G. lia.
      * specialize (G j). rewrite app_nth2 in G by lia. rewrite EJ in G. cbn [nth] in G. rewrite app_nth1 in G by lia. apply G. lia.
Qed.
Lemma perm_filter {A} (f : A -> bool) l l' : Permutation l l' -> Permutation (filter f l) (filter f l').
Proof.
  induction 1 as [|x l l' P IH|x y l|l l' l'' P1 I1 P2 I2]; cbn [filter]; auto.
  - destruct (f x); auto.
  - destruct (f x), (f y); auto. apply perm_swap.
  - eapply Permutation_trans; eauto.
Qed.
Lemma rloop_ok {A} (d : A) (f : A -> bool) : forall k l, k <= length l -> (forall j, k <= j < length l -> f (nth j l d) = false) ->
  Permutation (rloop d f k l) (filter (fun x => negb (f x)) l).
Proof.
  induction k as [|k IH]; intros l HL G; cbn [rloop].
  - assert (E : filter (fun x => negb (f x)) l = l); [|rewrite E; auto]. assert (H : forall x, In x l -> f x = false).
    { intros x Hx. apply (In_nth _ _ d) in Hx. destruct Hx as (j & Hj & <-). apply G. lia. }
    clear -H. induction l as [|x l IH]; auto. cbn [filter]. rewrite (H x) by (left; auto). cbn [negb]. f_equal. apply IH. intros y Hy. apply H. right. auto.
  - destruct (f (nth k l d)) eqn:F.
    + destruct (rm_ok d f l k HL F) as (P & Q); [intros j Hj; apply G; lia|].
      assert (LR : length l = S (length (rm d k l))) by (rewrite <- (Permutation_length P); auto).
      eapply Permutation_trans; [apply IH; auto; lia|]. eapply Permutation_trans; [|apply (perm_filter _ _ _ P)]. cbn [filter]. rewrite F. cbn [negb]. auto.
    + apply IH; [lia|]. intros j Hj. destruct (Nat.eq_dec j k) as [->|N]; auto. apply G. lia.
Qed.

Lemma combine_firstn_l {A B} : forall n (l : list A) (m : list B), combine (firstn n l) m = firstn n (combine l m).
Proof. induction n as [|n IH]; intros [|x l] [|y m]; cbn; auto. f_equal. auto. Qed.
Lemma combine_set {A B} : forall i (l : list A) (m : list B) x y, i < length l -> i < length m -> combine (set_nth i x l) (set_nth i y m) = set_nth i (x, y) (combine l m).
Proof.
  induction i as [|i IH]; intros [|a l] [|b m] x y H1 H2; cbn in *; try lia; auto. unfold set_nth in *. cbn [firstn skipn app combine]. f_equal. apply IH; lia.
Qed.
Lemma combine_nth' {A B} (d : A) (e : B) : forall i (l : list A) (m : list B), i < length l -> i < length m -> nth i (combine l m) (d, e) = (nth i l d, nth i m e).
Proof. induction i as [|i IH]; intros [|a l] [|b m] H1 H2; cbn in *; try lia; auto. apply IH; lia. Qed.
Lemma set_nth_len {A} i (x : A) l : length (set_nth i x l) = length l.
Proof. unfold set_nth. rewrite app_length, firstn_length. pose proof (skipn_length i l) as H. destruct (skipn i l) as [|y r]; cbn [length] in *; lia. Qed.

Lemma removeLiteral_lits i a : a_lits (removeLiteral i a) = rm (A := lit) 0 i (a_lits a).
Proof.
  unfold removeLiteral, rm. cbv zeta. change (@length nat (a_lits a)) with (@length lit (a_lits a)).
  destruct ((1 <? length (a_lits a)) && negb (S i =? length (a_lits a))); reflexivity.
Qed.
Lemma removeLiteral_bb i a : a_bb (removeLiteral i a) = a_bb a.
Proof. unfold removeLiteral. destruct ((1 <? length (a_lits a)) && negb (S i =? length (a_lits a))); reflexivity. Qed.
Lemma removeLiteral_buds i a b : a_bud a = Some b -> i < length (a_lits a) <= length b ->
  exists b', a_bud (removeLiteral i a) = Some b' /\ length b' = length b /\ combine (a_lits (removeLiteral i a)) b' = rm (A := lit * Z) (0, 0%Z) i (combine (a_lits a) b).
Proof.
  intros E (H1 & H2). unfold removeLiteral, rm. assert (LC : length (combine (a_lits a) b) = length (a_lits a)) by (rewrite combine_length; lia). rewrite LC.
  destruct ((1 <? length (a_lits a)) && negb (S i =? length (a_lits a))) eqn:C; cbn [a_lits a_bud].
  - rewrite E. cbn [option_map]. eexists. split; [reflexivity|]. split; [apply set_nth_len|]. rewrite combine_firstn_l. f_equal. rewrite combine_set by lia. rewrite combine_nth' by lia. auto.
  - exists b. split; auto. split; auto. apply combine_firstn_l.
Qed.
Lemma rm_len {A} (d : A) i l : length (rm d i l) = length l - 1.
Proof. unfold rm. destruct ((1 <? length l) && negb (S i =? length l)); rewrite firstn_length; rewrite ?set_nth_len; lia. Qed.

Section F.
Variable hs : list (var -> bool -> bool).
Lemma filter_lits_lits : forall k a, a_bb (filter_lits hs k a) = a_bb a /\ a_lits (filter_lits hs k a) = rloop (A := lit) 0 (fun l => any_probe hs (lvar l) (a_bb a)) k (a_lits a).
Proof.
  induction k as [|k IH]; intros a; cbn [filter_lits rloop]; auto.
  destruct (any_probe hs (lvar (nth k (a_lits a) 0)) (a_bb a)); [|apply IH]. destruct (IH (removeLiteral k a)) as (I1 & I2). rewrite I1, I2, removeLiteral_bb, removeLiteral_lits. auto.
Qed.
Lemma filter_lits_buds : forall k a b, a_bud a = Some b -> k <= length (a_lits a) <= length b ->
  exists b', a_bud (filter_lits hs k a) = Some b' /\ length b' = length b /\
    combine (a_lits (filter_lits hs k a)) b' = rloop (A := lit * Z) (0, 0%Z) (fun e => any_probe hs (lvar (fst e)) (a_bb a)) k (combine (a_lits a) b).
Proof.
  induction k as [|k IH]; intros a b E H; cbn [filter_lits rloop]; [exists b; auto|].
  rewrite combine_nth' by lia. cbn [fst]. destruct (any_probe hs (lvar (nth k (a_lits a) 0)) (a_bb a)); [|apply IH; auto; lia].
  destruct (removeLiteral_buds k a b E) as (b1 & E1 & L1 & C1); [lia|]. destruct (IH (removeLiteral k a) b1 E1) as (b2 & E2 & L2 & C2).
  { rewrite removeLiteral_lits, rm_len. lia. }
  exists b2. split; auto. split; [congruence|]. rewrite C2, C1, removeLiteral_bb. auto.
Qed.
Lemma filter_nth : forall m onlyBackbone v k a, nth_error m k = Some a -> nth_error (filter_advice hs onlyBackbone v m) k =
  Some (if negb onlyBackbone || a_bb a then filter_entry hs (k + v) a else a).
Proof.
  induction m as [|x m IH]; intros ob v [|k] a E; cbn in E; try discriminate; cbn [filter_advice nth_error].
  - injection E as ->. auto.
  - rewrite (IH ob (S v) k a E). replace (k + S v) with (S k + v) by lia. auto.
Qed.
Lemma filter_len : forall m ob v, length (filter_advice hs ob v m) = length m.
Proof. induction m as [|a m IH]; intros ob v; cbn; auto. Qed.
Lemma filter_spec m ob v a : nth_error m v = Some a -> exists r, nth_error (filter_advice hs ob 0 m) v = Some r /\ a_bb r = a_bb a /\
  (ob = true -> a_bb a = false -> r = a) /\
  ((ob = false \/ a_bb a = true) ->
    (any_probe hs v (a_bb a) = true -> a_lits r = []) /\
    (any_probe hs v (a_bb a) = false ->
      Permutation (a_lits r) (filter (fun l => negb (any_probe hs (lvar l) (a_bb a))) (a_lits a)) /\
      forall b, a_bud a = Some b -> length (a_lits a) <= length b -> exists b', a_bud r = Some b' /\
        Permutation (combine (a_lits r) b') (filter (fun e => negb (any_probe hs (lvar (fst e)) (a_bb a))) (combine (a_lits a) b)))).
Proof.
  intros E. rewrite (filter_nth m ob 0 v a E). rewrite Nat.add_0_r. eexists. split; [reflexivity|].
  assert (Z : a_bb (filter_entry hs v a) = a_bb a).
  { unfold filter_entry. destruct (length (a_lits a) =? 0); auto. destruct (any_probe hs v (a_bb a)); auto. apply filter_lits_lits. }
  split; [destruct (negb ob || a_bb a); auto|]. split; [intros -> ->; auto|]. intros H.
  assert (C : negb ob || a_bb a = true) by (destruct H as [->| ->]; auto; apply orb_true_r). rewrite C. unfold filter_entry.
  destruct (Nat.eqb_spec (length (a_lits a)) 0) as [L|L].
  - assert (N : a_lits a = []) by (destruct (a_lits a); auto; cbn in L; lia). rewrite N. cbn. split; auto. intros _. split; auto. intros b Eb _. exists b. auto.
  - split; intros P; rewrite P; [auto|]. split.
    + destruct (filter_lits_lits (length (a_lits a)) a) as (_ & ->). apply rloop_ok; auto. intros j Hj. lia.
    + intros b Eb Lb. destruct (filter_lits_buds (length (a_lits a)) a b Eb) as (b' & E' & _ & C'); [lia|]. exists b'. split; auto. rewrite C'.
      replace (length (a_lits a)) with (length (combine (a_lits a) b)) by (rewrite combine_length; lia). apply rloop_ok; auto. intros j Hj. lia.
Qed.
End F.
