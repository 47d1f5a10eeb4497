(** The search of the betweenness algorithm: lemmas for C61. *)
From Coq Require Import List Arith Bool Lia QArith Permutation.
Import ListNotations.
From Verif Require Import Base Outcome GraphModel GraphSpec BetweenWalks BetweenDep.
Open Scope nat_scope.

Lemma upd_same {A} (f : nat -> A) i x : upd f i x i = x.
Proof. unfold upd. rewrite Nat.eqb_refl. reflexivity. Qed.
Lemma upd_other {A} (f : nat -> A) i x j : j <> i -> upd f i x j = f j.
Proof. intros H. unfold upd. destruct (j =? i) eqn:E; auto. apply Nat.eqb_eq in E. contradiction. Qed.

Lemma memb_false x l : memb x l = false <-> ~ In x l.
Proof. rewrite <- memb_In. destruct (memb x l); split; congruence. Qed.

Lemma list_sum_incl (f : nat -> nat) l m : NoDup l -> NoDup m -> incl m l ->
  (forall x, In x l -> ~ In x m -> f x = 0) -> list_sum (map f l) = list_sum (map f m).
Proof.
  revert m. induction l as [|a l IH]; intros m Hl Hm Hi Hz.
  - destruct m as [|b m]; auto. destruct (Hi b (or_introl eq_refl)).
  - inversion Hl; subst. destruct (in_dec Nat.eq_dec a m) as [Ha|Ha].
    + destruct (in_split a m Ha) as (m1 & m2 & ->).
      simpl. rewrite (IH (m1 ++ m2)); auto.
      * rewrite !map_app, !list_sum_app. simpl. lia.
      * apply (NoDup_remove_1 m1 m2 a Hm).
      * intros x Hx. destruct (Hi x) as [<-|Hx2]; auto.
        -- apply in_or_app. apply in_app_or in Hx. destruct Hx; simpl; auto.
        -- exfalso. apply (NoDup_remove_2 m1 m2 a Hm). exact Hx.
      * intros x Hx Hn. apply Hz; [right; auto|]. intros Hx2. apply Hn. apply in_or_app.
        apply in_app_or in Hx2. destruct Hx2 as [|[->|]]; auto. contradiction.
    + simpl. rewrite (Hz a); auto; [|left; auto]. rewrite (IH m); auto.
      * intros x Hx. destruct (Hi x Hx) as [->|]; auto. contradiction.
      * intros x Hx Hn. apply Hz; [right; auto|auto].
Qed.

Section Bfs.
Variables (n : nat) (adj : nat -> list nat) (s : nat).
Hypothesis range : forall u v, u < n -> In v (adj u) -> v < n.
Hypothesis nodup : forall u, u < n -> NoDup (adj u).
Hypothesis src : s < n.
Notation W := (W adj).
Notation isdist := (isdist adj).

(** The loop over the neighbours. *)
Lemma bfsVisit_spec v ns : forall b, NoDup ns -> (forall w, In w ns -> w < n) -> b_d b v < n ->
  exists b', bfsVisit n v b ns = Ok b' /\
    (forall w, b_d b' w = if memb w ns && (b_d b w =? S n) then S (b_d b v) else b_d b w) /\
    b_Q b' = b_Q b ++ filter (fun w => b_d b w =? S n) ns /\
    b_S b' = b_S b /\
    (forall w, b_sp b' w = if memb w ns && (b_d b' w =? S (b_d b v)) then b_sp b w + b_sp b v else b_sp b w) /\
    (forall w, b_P b' w = if memb w ns && (b_d b' w =? S (b_d b v)) then b_P b w ++ [v] else b_P b w).
Proof.
  induction ns as [|w r IH]; intros b Hn Hr Hv.
  - exists b. split; [reflexivity|]. simpl. split; auto. split; [rewrite app_nil_r; auto|]. split; auto.
  - inversion Hn as [|? ? Hw Hn']; subst. simpl bfsVisit.
    assert (Hwn : w < n) by (apply Hr; left; auto). apply Nat.ltb_lt in Hwn. rewrite Hwn. apply Nat.ltb_lt in Hwn.
    set (b1 := if b_d b w =? S n then mkBfs (b_sp b) (upd (b_d b) w (S (b_d b v))) (b_P b) (b_Q b ++ [w]) (b_S b) else b).
    set (b2 := if b_d b1 w =? S (b_d b1 v) then _ else b1).
    assert (Hd1 : forall x, b_d b1 x = if (x =? w) && (b_d b x =? S n) then S (b_d b v) else b_d b x).
    { intros x. unfold b1. destruct (b_d b w =? S n) eqn:E; simpl.
      - unfold upd. destruct (x =? w) eqn:Ex; simpl; auto. apply Nat.eqb_eq in Ex. subst x. rewrite E. auto.
      - destruct (x =? w) eqn:Ex; simpl; auto. apply Nat.eqb_eq in Ex. subst x. rewrite E. auto. }
    assert (Hd1v : b_d b1 v = b_d b v).
    { rewrite Hd1. destruct (v =? w); simpl; auto. destruct (b_d b v =? S n) eqn:E; auto.
      apply Nat.eqb_eq in E. lia. }
    assert (Hd2 : forall x, b_d b2 x = b_d b1 x) by (intros x; unfold b2; destruct (b_d b1 w =? S (b_d b1 v)); auto).
    assert (Hq2 : b_Q b2 = b_Q b ++ (if b_d b w =? S n then [w] else [])).
    { unfold b2. destruct (b_d b1 w =? S (b_d b1 v)); simpl; unfold b1; destruct (b_d b w =? S n); simpl; auto;
      rewrite app_nil_r; auto. }
    assert (Hs2 : b_S b2 = b_S b).
    { unfold b2. destruct (b_d b1 w =? S (b_d b1 v)); simpl; unfold b1; destruct (b_d b w =? S n); simpl; auto. }
    assert (Hsp1 : forall x, b_sp b1 x = b_sp b x) by (intros; unfold b1; destruct (b_d b w =? S n); auto).
    assert (HP1 : forall x, b_P b1 x = b_P b x) by (intros; unfold b1; destruct (b_d b w =? S n); auto).
    assert (Hsp2 : forall x, b_sp b2 x = if (x =? w) && (b_d b1 x =? S (b_d b v)) then b_sp b x + b_sp b v else b_sp b x).
    { intros x. unfold b2. rewrite Hd1v. destruct (b_d b1 w =? S (b_d b v)) eqn:E; simpl.
      - unfold upd. destruct (x =? w) eqn:Ex; simpl; [|apply Hsp1]. apply Nat.eqb_eq in Ex. subst x. rewrite E, !Hsp1. auto.
      - destruct (x =? w) eqn:Ex; simpl; [|apply Hsp1]. apply Nat.eqb_eq in Ex. subst x. rewrite E, !Hsp1. auto. }
    assert (HP2 : forall x, b_P b2 x = if (x =? w) && (b_d b1 x =? S (b_d b v)) then b_P b x ++ [v] else b_P b x).
    { intros x. unfold b2. rewrite Hd1v. destruct (b_d b1 w =? S (b_d b v)) eqn:E; simpl.
      - unfold upd. destruct (x =? w) eqn:Ex; simpl; [|apply HP1]. apply Nat.eqb_eq in Ex. subst x. rewrite E, !HP1. auto.
      - destruct (x =? w) eqn:Ex; simpl; [|apply HP1]. apply Nat.eqb_eq in Ex. subst x. rewrite E, !HP1. auto. }
    assert (Hspv : b_sp b2 v = b_sp b v).
    { rewrite Hsp2, Hd1v. replace (b_d b v =? S (b_d b v)) with false by (symmetry; apply Nat.eqb_neq; lia).
      rewrite andb_false_r. auto. }
    destruct (IH b2) as (b' & E & H1 & H2 & H3 & H4 & H5); auto.
    { intros x Hx. apply Hr. right. auto. }
    { rewrite Hd2, Hd1v. auto. }
    exists b'. split; [exact E|]. rewrite Hd2, Hd1v in *.
    assert (Hmw : memb w r = false) by (apply memb_false; auto).
    assert (Hd' : forall x, b_d b' x = if memb x (w :: r) && (b_d b x =? S n) then S (b_d b v) else b_d b x).
    { intros x. rewrite H1, Hd2, Hd1. simpl. destruct (x =? w) eqn:Ex; simpl; [|reflexivity].
      apply Nat.eqb_eq in Ex. subst x. rewrite Hmw. reflexivity. }
    split; [exact Hd'|]. split.
    { rewrite H2, Hq2. rewrite <- app_assoc. f_equal. simpl.
      rewrite (filter_ext_in (fun x => b_d b2 x =? S n) (fun x => b_d b x =? S n)).
      - destruct (b_d b w =? S n); reflexivity.
      - intros x Hx. rewrite Hd2, Hd1. destruct (x =? w) eqn:Ex; simpl; auto.
        apply Nat.eqb_eq in Ex. subst x. contradiction. }
    split; [congruence|]. split.
    + intros x. rewrite H4, Hspv, Hsp2. simpl. destruct (x =? w) eqn:Ex; simpl; [|reflexivity].
      apply Nat.eqb_eq in Ex. subst x. rewrite Hmw. simpl. rewrite H1, Hmw, Hd2. reflexivity.
    + intros x. rewrite H5, HP2. simpl. destruct (x =? w) eqn:Ex; simpl; [|reflexivity].
      apply Nat.eqb_eq in Ex. subst x. rewrite Hmw. simpl. rewrite H1, Hmw, Hd2. reflexivity.
Qed.

(** The invariant of the search; [pop] are the nodes taken from the queue, in order. *)
Definition edgeTo (d : nat -> nat) (u w : nat) : bool := memb w (adj u) && (d w =? S (d u)).

Record inv (b : bfs) (pop : list nat) : Prop := mkInv {
  i_S : b_S b = rev pop;
  i_nodup : NoDup (pop ++ b_Q b);
  i_range : forall v, In v (pop ++ b_Q b) -> v < n;
  i_pos : forall i v, nth_error (pop ++ b_Q b) i = Some v -> b_d b v <= i;
  i_disc : forall w, In w (pop ++ b_Q b) <-> b_d b w <> S n;
  i_src : In s (pop ++ b_Q b) /\ b_d b s = 0;
  i_walk : forall v, In v (pop ++ b_Q b) -> 0 < W (b_d b v) s v;
  i_closed : forall u w, In u pop -> In w (adj u) -> In w (pop ++ b_Q b) /\ b_d b w <= S (b_d b u);
  i_sorted : forall i j u w, i < j -> nth_error (pop ++ b_Q b) i = Some u -> nth_error (pop ++ b_Q b) j = Some w ->
             b_d b u <= b_d b w;
  i_front : forall q r w, b_Q b = q :: r -> In w (pop ++ b_Q b) -> b_d b w <= S (b_d b q);
  i_sp : forall w, b_sp b w = ind (w =? s) + list_sum (map (fun u => ind (edgeTo (b_d b) u w) * b_sp b u) pop);
  i_P : forall w, b_P b w = filter (fun u => edgeTo (b_d b) u w) pop
}.

Lemma filter_NoDup' {A} (p : A -> bool) l : NoDup l -> NoDup (filter p l).
Proof. apply NoDup_filter. Qed.

Lemma NoDup_app' {A} (l m : list A) : NoDup l -> NoDup m -> (forall x, In x l -> ~ In x m) -> NoDup (l ++ m).
Proof.
  induction l as [|a l IH]; simpl; intros Hl Hm Hd; auto. inversion Hl; subst. constructor.
  - rewrite in_app_iff. intros [H|H]; [contradiction|]. apply (Hd a); auto.
  - apply IH; auto.
Qed.

Lemma inv_step b pop v q : inv b pop -> b_Q b = v :: q ->
  exists b', bfsVisit n v (mkBfs (b_sp b) (b_d b) (b_P b) q (v :: b_S b)) (adj v) = Ok b' /\ inv b' (pop ++ [v]).
Proof.
  intros I HQ.
  assert (Hvin : In v (pop ++ b_Q b)) by (rewrite HQ; apply in_or_app; right; left; auto).
  assert (Hvn : v < n) by (apply (i_range _ _ I); auto).
  assert (Hnthv : nth_error (pop ++ b_Q b) (length pop) = Some v).
  { rewrite HQ, nth_error_app2, Nat.sub_diag; auto. }
  assert (Hlen : length (pop ++ b_Q b) <= n).
  { rewrite <- (seq_length n 0). apply NoDup_incl_length. apply (i_nodup _ _ I). intros x Hx. apply in_seq.
    pose proof (i_range _ _ I x Hx). lia. }
  assert (Hdisc_lt : forall x, In x (pop ++ b_Q b) -> b_d b x < n).
  { intros x Hx. destruct (In_nth_error _ _ Hx) as (i & Hi). pose proof (i_pos _ _ I i x Hi).
    assert (i < length (pop ++ b_Q b)) by (apply nth_error_Some; congruence). lia. }
  assert (Hdv : b_d b v < n) by auto.
  destruct (bfsVisit_spec v (adj v) (mkBfs (b_sp b) (b_d b) (b_P b) q (v :: b_S b)) (nodup v Hvn)
              (fun w Hw => range v w Hvn Hw) Hdv) as (b' & E & H1 & H2 & H3 & H4 & H5).
  simpl in H1, H2, H3, H4, H5. exists b'. split; [exact E|].
  set (new := filter (fun w => b_d b w =? S n) (adj v)) in *.
  assert (Hnew : forall w, In w new <-> In w (adj v) /\ b_d b w = S n).
  { intros w. unfold new. rewrite filter_In, Nat.eqb_eq. tauto. }
  assert (Hord : (pop ++ [v]) ++ b_Q b' = (pop ++ b_Q b) ++ new).
  { rewrite H2, HQ, <- !app_assoc. reflexivity. }
  assert (Hold : forall x, In x (pop ++ b_Q b) -> b_d b' x = b_d b x).
  { intros x Hx. rewrite H1. apply (i_disc _ _ I) in Hx. apply Nat.eqb_neq in Hx. rewrite Hx, andb_false_r. auto. }
  assert (Hnewd : forall x, In x new -> b_d b' x = S (b_d b v)).
  { intros x Hx. apply Hnew in Hx. destruct Hx as (Hx & Ex). rewrite H1. apply memb_In in Hx. rewrite Hx, Ex, Nat.eqb_refl. auto. }
  assert (Hv' : b_d b' v = b_d b v) by auto.
  assert (Hfront : forall x, In x (pop ++ b_Q b) -> b_d b x <= S (b_d b v)).
  { intros x Hx. apply (i_front _ _ I v q x HQ Hx). }
  assert (Hpop_le : forall u, In u pop -> b_d b u <= b_d b v).
  { intros u Hu. destruct (In_nth_error _ _ Hu) as (i & Hi). assert (i < length pop) by (apply nth_error_Some; congruence).
    apply (i_sorted _ _ I i (length pop) u v); auto. rewrite nth_error_app1; auto. }
  assert (Hpop_in : forall u, In u pop -> In u (pop ++ b_Q b)) by (intros; apply in_or_app; auto).
  assert (Hsp_pop : forall u, In u (pop ++ [v]) -> b_sp b' u = b_sp b u).
  { intros u Hu. rewrite H4. apply in_app_or in Hu. destruct Hu as [Hu|[<-|[]]].
    - rewrite (Hold u) by auto. pose proof (Hpop_le u Hu).
      replace (b_d b u =? S (b_d b v)) with false by (symmetry; apply Nat.eqb_neq; lia). rewrite andb_false_r. auto.
    - rewrite Hv'. replace (b_d b v =? S (b_d b v)) with false by (symmetry; apply Nat.eqb_neq; lia).
      rewrite andb_false_r. auto. }
  assert (Hedge : forall u w, In u pop -> edgeTo (b_d b') u w = edgeTo (b_d b) u w).
  { intros u w Hu. unfold edgeTo. rewrite (Hold u) by auto. destruct (memb w (adj u)) eqn:Em; simpl; auto.
    rewrite (Hold w); auto. apply memb_In in Em. apply (i_closed _ _ I u w Hu Em). }
  assert (Hedgev : forall w, edgeTo (b_d b') v w = memb w (adj v) && (b_d b' w =? S (b_d b v))).
  { intros w. unfold edgeTo. rewrite Hv'. auto. }
  constructor.
  - rewrite H3, (i_S _ _ I), rev_app_distr. reflexivity.
  - rewrite Hord. apply NoDup_app'.
    + apply (i_nodup _ _ I).
    + apply filter_NoDup'. apply nodup; auto.
    + intros x Hx Hx2. apply (i_disc _ _ I) in Hx. apply Hnew in Hx2. tauto.
  - intros x. rewrite Hord, in_app_iff. intros [Hx|Hx]; [apply (i_range _ _ I); auto|].
    apply Hnew in Hx. apply (range v x); tauto.
  - intros i x. rewrite Hord. intros Hx. destruct (le_lt_dec (length (pop ++ b_Q b)) i) as [Hi|Hi].
    + rewrite nth_error_app2 in Hx by auto. apply nth_error_In in Hx. rewrite (Hnewd x Hx).
      pose proof (i_pos _ _ I _ _ Hnthv). assert (length pop < length (pop ++ b_Q b)).
      { apply nth_error_Some. congruence. } lia.
    + rewrite nth_error_app1 in Hx by auto. rewrite Hold; [apply (i_pos _ _ I i x Hx)|apply (nth_error_In _ _ Hx)].
  - intros x. rewrite Hord, in_app_iff. split.
    + intros [Hx|Hx]; [rewrite (Hold x Hx); apply (i_disc _ _ I); auto|rewrite (Hnewd x Hx); lia].
    + intros Hx. rewrite H1 in Hx. destruct (memb x (adj v)) eqn:Em; simpl in Hx.
      * destruct (b_d b x =? S n) eqn:Ex.
        -- right. apply Hnew. apply memb_In in Em. apply Nat.eqb_eq in Ex. auto.
        -- left. apply (i_disc _ _ I). apply Nat.eqb_neq. auto.
      * left. apply (i_disc _ _ I). auto.
  - destruct (i_src _ _ I) as (Hs & Hs0). rewrite Hord. split; [apply in_or_app; auto|]. rewrite (Hold s Hs). auto.
  - intros x. rewrite Hord, in_app_iff. intros [Hx|Hx].
    + rewrite (Hold x Hx). apply (i_walk _ _ I x Hx).
    + rewrite (Hnewd x Hx). apply Hnew in Hx. replace (S (b_d b v)) with (b_d b v + 1) by lia.
      apply (W_add adj _ 1 s v x); [apply (i_walk _ _ I v Hvin)|apply W_edge; tauto].
  - intros u w Hu Hw. rewrite Hord. apply in_app_or in Hu. destruct Hu as [Hu|[<-|[]]].
    + destruct (i_closed _ _ I u w Hu Hw) as (Ha & Hb). split; [apply in_or_app; auto|]. rewrite (Hold w Ha), (Hold u); auto.
    + rewrite Hv'. destruct (Nat.eq_dec (b_d b w) (S n)) as [Ew|Ew].
      * assert (Hwnew : In w new) by (apply Hnew; auto). split; [apply in_or_app; auto|]. rewrite (Hnewd w Hwnew). auto.
      * assert (Hwo : In w (pop ++ b_Q b)) by (apply (i_disc _ _ I); auto). split; [apply in_or_app; auto|].
        rewrite (Hold w Hwo). auto.
  - intros i j u w Hij. rewrite Hord. intros Hu Hw.
    assert (Hule : b_d b' u <= S (b_d b v)).
    { apply nth_error_In in Hu. apply in_app_or in Hu. destruct Hu as [Hu|Hu]; [rewrite (Hold u Hu); auto|rewrite (Hnewd u Hu); auto]. }
    destruct (le_lt_dec (length (pop ++ b_Q b)) j) as [Hj|Hj].
    + rewrite nth_error_app2 in Hw by auto. apply nth_error_In in Hw. rewrite (Hnewd w Hw). exact Hule.
    + rewrite nth_error_app1 in Hw by auto. rewrite nth_error_app1 in Hu by lia.
      rewrite (Hold u (nth_error_In _ _ Hu)), (Hold w (nth_error_In _ _ Hw)). apply (i_sorted _ _ I i j u w Hij Hu Hw).
  - intros q' r' w Hq'. rewrite Hord. intros Hw.
    assert (Hwle : b_d b' w <= S (b_d b v)).
    { apply in_app_or in Hw. destruct Hw as [Hw|Hw]; [rewrite (Hold w Hw); auto|rewrite (Hnewd w Hw); auto]. }
    assert (Hqge : b_d b v <= b_d b' q').
    { rewrite H2 in Hq'. destruct q as [|q0 q1].
      - simpl in Hq'. rewrite (Hnewd q'); [lia|]. rewrite Hq'. left. auto.
      - simpl in Hq'. injection Hq' as <- _.
        assert (Hn0 : nth_error (pop ++ b_Q b) (S (length pop)) = Some q0).
        { rewrite HQ, nth_error_app2 by lia. replace (S (length pop) - length pop) with 1 by lia. reflexivity. }
        rewrite (Hold q0 (nth_error_In _ _ Hn0)). apply (i_sorted _ _ I (length pop) (S (length pop)) v q0); auto. }
    lia.
  - intros w. rewrite map_app, list_sum_app. simpl. rewrite Hedgev, H4, (i_sp _ _ I w).
    rewrite (Hsp_pop v) by (apply in_or_app; right; left; auto).
    rewrite (list_sum_ext (fun u => ind (edgeTo (b_d b') u w) * b_sp b' u) (fun u => ind (edgeTo (b_d b) u w) * b_sp b u)).
    + destruct (memb w (adj v) && (b_d b' w =? S (b_d b v))); simpl; lia.
    + intros u Hu. rewrite (Hedge u w Hu), (Hsp_pop u); auto. apply in_or_app. auto.
  - intros w. rewrite filter_app. simpl. rewrite Hedgev, H5, (i_P _ _ I w).
    rewrite (filter_ext_in (fun u => edgeTo (b_d b') u w) (fun u => edgeTo (b_d b) u w)).
    + destruct (memb w (adj v) && (b_d b' w =? S (b_d b v))); auto. rewrite app_nil_r. auto.
    + intros u Hu. apply Hedge. auto.
Qed.

Lemma bfsLoop_inv fuel : forall b pop, inv b pop -> n < fuel + length pop ->
  exists b' pop', bfsLoop fuel n adj b = Ok b' /\ inv b' pop' /\ b_Q b' = [].
Proof.
  induction fuel as [|f IH]; intros b pop I Hf.
  - exfalso. assert (Hlen : length pop <= n).
    { rewrite <- (seq_length n 0). apply NoDup_incl_length.
      - pose proof (i_nodup _ _ I) as H. clear - H. induction pop as [|a p IH]; simpl in *; [constructor|].
        inversion H; subst. constructor; auto. intros Ha. apply H2. apply in_or_app. auto.
      - intros x Hx. apply in_seq. assert (x < n) by (apply (i_range _ _ I); apply in_or_app; auto). lia. }
    simpl in Hf. lia.
  - simpl. destruct (b_Q b) as [|v q] eqn:EQ.
    + exists b, pop. auto.
    + destruct (inv_step b pop v q I EQ) as (b' & E & I'). rewrite E. simpl.
      destruct (IH b' (pop ++ [v]) I') as (b2 & pop2 & E2 & I2 & Q2).
      { rewrite app_length. simpl. lia. }
      exists b2, pop2. auto.
Qed.

Lemma bfsFrom_inv : exists b pop, bfsFrom n adj s = Ok b /\ inv b pop /\ b_Q b = [].
Proof.
  unfold bfsFrom. destruct (s <? n) eqn:E; [|apply Nat.ltb_nlt in E; lia].
  apply (bfsLoop_inv _ _ []).
  - constructor; simpl.
    + reflexivity.
    + constructor; [intros []|constructor].
    + intros v [<-|[]]. auto.
    + intros i v Hi. destruct i as [|[|i]]; simpl in Hi; try discriminate. injection Hi as <-. rewrite upd_same. lia.
    + intros w. unfold upd. destruct (w =? s) eqn:Ew.
      * apply Nat.eqb_eq in Ew. split; [lia|auto].
      * apply Nat.eqb_neq in Ew. split; [intros [H|[]]; congruence|lia].
    + split; auto. apply upd_same.
    + intros v [<-|[]]. rewrite upd_same, W_0, Nat.eqb_refl. lia.
    + intros u w [].
    + intros i j u w Hij Hi Hj. destruct j as [|[|j]]; simpl in Hj; try discriminate. lia.
    + intros q r w Hq [<-|[]]. rewrite upd_same. lia.
    + intros w. unfold upd. destruct (w =? s); auto.
    + auto.
  - simpl. lia.
Qed.

(** The result of the search. *)
Lemma bfs_final b pop : inv b pop -> b_Q b = [] ->
  (forall v, v < n -> (In v pop /\ isdist s v (b_d b v)) \/ (~ In v pop /\ (forall k, W k s v = 0) /\ b_d b v = S n)) /\
  (forall v, In v pop -> b_sp b v = W (b_d b v) s v).
Proof.
  intros I HQ.
  assert (Hpq : pop ++ b_Q b = pop) by (rewrite HQ, app_nil_r; auto).
  assert (Hcl : forall k w, 0 < W k s w -> In w pop /\ b_d b w <= k).
  { induction k as [|k IH]; intros w Hw.
    - rewrite W_0 in Hw. destruct (s =? w) eqn:E; [|lia]. apply Nat.eqb_eq in E. subst w.
      destruct (i_src _ _ I) as (Hs & H0). rewrite Hpq in Hs. split; auto. lia.
    - rewrite (W_last adj n range nodup k s w src) in Hw. apply list_sum_pos in Hw. destruct Hw as (u & Hu & Hp).
      unfold ind in Hp. destruct (memb w (adj u)) eqn:Em; [|lia]. apply memb_In in Em.
      destruct (IH u) as (Hup & Hdu); [lia|]. destruct (i_closed _ _ I u w Hup Em) as (Ha & Hb).
      rewrite Hpq in Ha. split; auto. lia. }
  assert (Hdist : forall v, In v pop -> isdist s v (b_d b v)).
  { intros v Hv. split; [apply (i_walk _ _ I); rewrite Hpq; auto|]. intros j Hj. destruct (W j s v) eqn:E; auto.
    destruct (Hcl j v) as (_ & H); lia. }
  split.
  - intros v Hv. destruct (in_dec Nat.eq_dec v pop) as [Hi|Hi]; [left; auto|right]. split; auto. split.
    + intros k. destruct (W k s v) eqn:E; auto. exfalso. apply Hi. apply (Hcl k v). lia.
    + destruct (Nat.eq_dec (b_d b v) (S n)) as [|H]; auto. apply (i_disc _ _ I) in H. rewrite Hpq in H. contradiction.
  - assert (Hind : forall k v, b_d b v = k -> In v pop -> b_sp b v = W k s v).
    { induction k as [k IH] using lt_wf_ind. intros v Hk Hv. rewrite (i_sp _ _ I v).
      destruct (Hdist v Hv) as (Hw & Hz). destruct k as [|k].
      - rewrite Hk, W_0 in Hw. destruct (s =? v) eqn:E; [|lia]. apply Nat.eqb_eq in E. subst v.
        rewrite Nat.eqb_refl. rewrite W_0, Nat.eqb_refl. simpl. rewrite list_sum_0; auto.
        intros u _. unfold edgeTo. rewrite Hk. simpl. rewrite andb_false_r. reflexivity.
      - assert (Hvs : v <> s). { intros ->. rewrite (proj2 (i_src _ _ I)) in Hk. lia. }
        apply Nat.eqb_neq in Hvs. rewrite Hvs. simpl ind. rewrite (W_last adj n range nodup k s v src).
        rewrite (list_sum_incl _ (seq 0 n) pop).
        + apply list_sum_ext. intros u Hu. unfold edgeTo. rewrite Hk.
          destruct (memb v (adj u)) eqn:Em; simpl; [|rewrite Nat.mul_0_r; auto].
          destruct (k =? b_d b u) eqn:Ek; simpl.
          * apply Nat.eqb_eq in Ek. rewrite (IH k) with (v := u); auto. lia.
          * apply Nat.eqb_neq in Ek. rewrite Nat.mul_1_r. destruct (W k s u) eqn:E; auto. exfalso.
            destruct (Hcl k u) as (_ & H1); [lia|]. apply memb_In in Em.
            destruct (i_closed _ _ I u v Hu Em) as (_ & H2). lia.
        + apply seq_NoDup.
        + pose proof (i_nodup _ _ I) as H. rewrite Hpq in H. exact H.
        + intros x Hx. apply in_seq. assert (x < n) by (apply (i_range _ _ I); rewrite Hpq; auto). lia.
        + intros x _ Hx. destruct (W k s x) eqn:E; auto. exfalso. apply Hx. apply (Hcl k x). lia. }
    intros v Hv. apply Hind; auto.
Qed.

(** ** The stack *)

Lemma accPreds_spec b w : NoDup (b_P b w) -> ~ In w (b_P b w) -> forall delta v,
  (accPreds b w delta v == delta v + (if memb v (b_P b w) then (qnat (b_sp b v) / qnat (b_sp b w)) * (1 + delta w) else 0))%Q.
Proof.
  unfold accPreds. induction (b_P b w) as [|x l IH]; intros Hn Hw delta v; simpl.
  - ring.
  - inversion Hn as [|? ? Hx Hn2]; subst. rewrite IH; auto.
    2:{ intros H. apply Hw. right. auto. }
    rewrite (upd_other delta x _ w) by (intros ->; apply Hw; left; auto).
    unfold upd. destruct (v =? x) eqn:Ev; simpl.
    + apply Nat.eqb_eq in Ev. subst v. replace (memb x l) with false by (symmetry; apply memb_false; auto). ring.
    + fold (memb v l). destruct (memb v l); ring.
Qed.

Lemma qsum_filter_perm (f : nat -> Q) (p : nat -> bool) l m : NoDup l -> NoDup m ->
  (forall x, In x m <-> In x l /\ p x = true) ->
  (qsum (map (fun x => if p x then f x else 0) l) == qsum (map f m))%Q.
Proof.
  intros Hl Hm H. rewrite qsum_if. apply qsum_perm. apply Permutation_map. apply NoDup_Permutation; auto.
  - apply filter_NoDup'. auto.
  - intros x. rewrite filter_In, H. tauto.
Qed.

Section Stack.
Variables (b : bfs) (pop : list nat).
Hypothesis I : inv b pop.
Hypothesis HQ : b_Q b = [].

Let Hpq : pop ++ b_Q b = pop.
Proof. rewrite HQ, app_nil_r; auto. Qed.

Lemma stHD : forall v, v < n -> isdist s v (b_d b v) \/ ((forall k, W k s v = 0) /\ b_d b v = S n).
Proof. intros v Hv. destruct (proj1 (bfs_final b pop I HQ) v Hv) as [H|H]; tauto. Qed.

Notation dep := (dep n adj s).

Lemma accStack_spec st : forall don delta arr, rev pop = don ++ st ->
  (forall v, v < n -> (delta v == qsum (map (fun w => if memb v (b_P b w)
     then (qnat (b_sp b v) / qnat (b_sp b w)) * (1 + dep w) else 0) don))%Q) ->
  forall v, (accStack b s st delta arr v == arr v + (if memb v st && negb (v =? s) then dep v else 0))%Q.
Proof.
  assert (Hnp : NoDup pop) by (pose proof (i_nodup _ _ I) as H; rewrite Hpq in H; exact H).
  assert (Hsub : forall x, In x pop -> x < n) by (intros x Hx; apply (i_range _ _ I); rewrite Hpq; auto).
  induction st as [|w r IH]; intros don delta arr Hsplit Hdelta v; simpl.
  - ring.
  - assert (HwS : In w (rev pop)) by (rewrite Hsplit; apply in_or_app; right; left; auto).
    assert (Hwp : In w pop) by (apply in_rev; auto).
    assert (Hnd : NoDup (don ++ w :: r)) by (rewrite <- Hsplit; apply NoDup_rev; auto).
    assert (HPin : forall x y, In x (b_P b y) <-> In x pop /\ In y (adj x) /\ b_d b y = S (b_d b x)).
    { intros x y. rewrite (i_P _ _ I y), filter_In. unfold edgeTo. rewrite andb_true_iff, memb_In, Nat.eqb_eq. tauto. }
    assert (HPn : NoDup (b_P b w)) by (rewrite (i_P _ _ I w); apply filter_NoDup'; auto).
    assert (HPw : ~ In w (b_P b w)). { intros H. apply HPin in H. lia. }
    assert (Hrw : reach n adj s (b_d b) w).
    { split; auto. destruct (proj1 (bfs_final b pop I HQ) w (Hsub w Hwp)) as [H|H]; tauto. }
    assert (Hsig : forall x, In x pop -> b_sp b x = sig adj s (b_d b) x) by (intros x Hx; apply (proj2 (bfs_final b pop I HQ) x Hx)).
    assert (Hdw : (delta w == dep w)%Q).
    { rewrite (Hdelta w (Hsub w Hwp)).
      rewrite (dep_rec n adj s range src (b_d b) stHD w Hrw).
      assert (Hdon : forall x, In x don -> In x pop).
      { intros x Hx. apply in_rev. rewrite Hsplit. apply in_or_app. auto. }
      rewrite (qsum_filter_perm (fun x => (qnat (b_sp b w) / qnat (b_sp b x)) * (1 + dep x))%Q (fun x => memb w (b_P b x)) don (succs adj (b_d b) w)).
      - apply qsum_ext. intros x Hx. unfold succs in Hx. apply filter_In in Hx. destruct Hx as (Hx & _).
        rewrite (Hsig w Hwp), (Hsig x); [reflexivity|]. destruct (i_closed _ _ I w x Hwp Hx) as (Ha & _). rewrite Hpq in Ha. auto.
      - clear - Hnd. induction don as [|a d IHd]; simpl in *; [constructor|]. inversion Hnd; subst. constructor; auto.
        intros Ha. apply H1. apply in_or_app. auto.
      - apply filter_NoDup'. apply nodup. auto.
      - intros x. unfold succs. rewrite filter_In, Nat.eqb_eq, memb_In, HPin. split.
        + intros (Hx & Ex). split; [|auto].
          destruct (i_closed _ _ I w x Hwp Hx) as (Ha & _). rewrite Hpq in Ha.
          assert (HxS : In x (don ++ w :: r)) by (rewrite <- Hsplit; apply in_rev in Ha; auto).
          apply in_app_or in HxS. destruct HxS as [|[->|Hxr]]; [auto|lia|]. exfalso.
          (* x after w on the stack means x before w in pop *)
          assert (Hpopeq : pop = rev r ++ w :: rev don).
          { rewrite <- (rev_involutive pop), Hsplit, rev_app_distr. simpl. rewrite <- app_assoc. reflexivity. }
          apply in_rev in Hxr. destruct (In_nth_error _ _ Hxr) as (i & Hi).
          assert (Hil : i < length (rev r)) by (apply nth_error_Some; congruence).
          assert (H : b_d b x <= b_d b w).
          { apply (i_sorted _ _ I i (length (rev r)) x w Hil); rewrite Hpq, Hpopeq.
            - rewrite nth_error_app1; auto.
            - rewrite nth_error_app2, Nat.sub_diag; auto. }
          lia.
        + intros (Hx & _ & Hx2 & Ex). auto. }
    rewrite (IH (don ++ [w])).
    + assert (Hdw' : (accPreds b w delta w == dep w)%Q).
      { rewrite accPreds_spec; auto. replace (memb w (b_P b w)) with false by (symmetry; apply memb_false; auto).
        rewrite Hdw. ring. }
      assert (Hwr : ~ In w r). { apply NoDup_remove_2 in Hnd. intros H. apply Hnd. apply in_or_app. auto. }
      destruct (w =? s) eqn:Ews.
      * destruct (v =? w) eqn:Ev; simpl.
        -- apply Nat.eqb_eq in Ev. subst v. rewrite Ews. simpl. rewrite !andb_false_r. reflexivity.
        -- reflexivity.
      * unfold upd. destruct (v =? w) eqn:Ev; simpl.
        -- apply Nat.eqb_eq in Ev. subst v. rewrite Ews, Hdw'. simpl.
           replace (memb w r) with false by (symmetry; apply memb_false; auto). simpl. ring.
        -- reflexivity.
    + rewrite <- app_assoc. exact Hsplit.
    + intros x Hx. rewrite accPreds_spec; auto. rewrite (Hdelta x Hx), map_app, qsum_app. simpl.
      destruct (memb x (b_P b w)); rewrite ?Hdw; ring.
Qed.

Lemma accStack_dep arr v : v < n ->
  (accStack b s (b_S b) (fun _ => 0%Q) arr v == arr v + (if s =? v then 0 else dep v))%Q.
Proof.
  intros Hv. rewrite (accStack_spec (b_S b) []).
  - rewrite (i_S _ _ I). rewrite (Nat.eqb_sym s v). destruct (v =? s); simpl; [rewrite andb_false_r; reflexivity|].
    rewrite andb_true_r. destruct (memb v (rev pop)) eqn:E; [reflexivity|].
    apply memb_false in E. rewrite <- in_rev in E.
    destruct (proj1 (bfs_final b pop I HQ) v Hv) as [(H & _)|(_ & Hz & _)]; [contradiction|].
    rewrite (dep_unreach n adj s range src (b_d b) stHD v Hv Hz). reflexivity.
  - rewrite (i_S _ _ I). reflexivity.
  - intros. simpl. reflexivity.
Qed.
End Stack.

End Bfs.

(** All sources. *)
Lemma accSources_spec n adj (range : forall u v, u < n -> In v (adj u) -> v < n) (nodup : forall u, u < n -> NoDup (adj u)) srcs :
  forall arr, (forall s, In s srcs -> s < n) ->
  exists arr', accSources n adj srcs arr = Ok arr' /\
    forall v, v < n -> (arr' v == arr v + betweenness n adj srcs v)%Q.
Proof.
  induction srcs as [|s r IH]; intros arr Hs; simpl.
  - exists arr. split; auto. intros. unfold betweenness. simpl. ring.
  - destruct (bfsFrom_inv n adj s range nodup (Hs s (or_introl eq_refl))) as (b & pop & E & I & HQ).
    rewrite E. simpl.
    destruct (IH (accStack b s (b_S b) (fun _ => 0%Q) arr)) as (arr' & E' & H); [intros x Hx; apply Hs; right; auto|].
    exists arr'. split; auto. intros v Hv. rewrite (H v Hv).
    rewrite (accStack_dep n adj s range nodup (Hs s (or_introl eq_refl)) b pop I HQ arr v Hv).
    unfold betweenness. simpl. fold (dep n adj s v). destruct (s =? v); ring.
Qed.
