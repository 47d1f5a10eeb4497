(** Lemmas for C60: the graph that VSIDSC builds. *)
From Coq Require Import List Arith Bool Lia Sorting.Sorted.
Import ListNotations.
From Verif Require Import Base Outcome GraphModel GraphSpec BetweenWalks BetweenBfs.

(** ** Sorted lists *)
Lemma insertSorted_In x l y : In y (insertSorted x l) <-> y = x \/ In y l.
Proof.
  induction l as [|a l IH]; simpl; [intuition|].
  destruct (x <=? a); simpl; [intuition|]. rewrite IH. intuition.
Qed.
Lemma sortList_In l y : In y (sortList l) <-> In y l.
Proof. unfold sortList. induction l as [|a l IH]; simpl; [tauto|]. rewrite insertSorted_In, IH. intuition. Qed.
Lemma insertSorted_sorted x l : StronglySorted le l -> StronglySorted le (insertSorted x l).
Proof.
  induction l as [|a l IH]; simpl; intros H; [repeat constructor|].
  inversion H as [|? ? Hl Ha]; subst. destruct (Nat.leb_spec x a) as [E|E].
  - constructor; auto. constructor; auto. rewrite Forall_forall in *. intros y Hy. specialize (Ha y Hy). lia.
  - constructor; auto. rewrite Forall_forall in *. intros y Hy. apply insertSorted_In in Hy.
    destruct Hy as [->|Hy]; [lia|auto].
Qed.
Lemma sortList_sorted l : StronglySorted le (sortList l).
Proof. unfold sortList. induction l; simpl; [constructor|apply insertSorted_sorted; auto]. Qed.
Lemma unique_In l y : In y (unique l) <-> In y l.
Proof.
  induction l as [|x [|z r] IH]; [simpl; tauto|simpl; tauto|].
  change (unique (x :: z :: r)) with (if x =? z then unique (z :: r) else x :: unique (z :: r)).
  destruct (x =? z) eqn:E.
  - apply Nat.eqb_eq in E. subst z. rewrite IH. simpl. intuition.
  - change (In y (x :: unique (z :: r))) with (x = y \/ In y (unique (z :: r))). rewrite IH. simpl. intuition.
Qed.
Lemma unique_sorted l : StronglySorted le l -> StronglySorted lt (unique l).
Proof.
  induction l as [|x [|z r] IH]; intros H; [constructor|repeat constructor|].
  change (unique (x :: z :: r)) with (if x =? z then unique (z :: r) else x :: unique (z :: r)).
  inversion H as [|? ? Hl Hx]; subst. specialize (IH Hl). destruct (x =? z) eqn:E; auto.
  apply Nat.eqb_neq in E. constructor; auto. rewrite Forall_forall in *. intros y Hy. rewrite unique_In in Hy.
  inversion Hl as [|? ? Hr Hz]; subst. rewrite Forall_forall in Hz.
  assert (x <= z) by (apply Hx; left; auto). destruct Hy as [->|Hy]; [lia|]. specialize (Hz y Hy). lia.
Qed.
Lemma sortUnique_In l y : In y (sortUnique l) <-> In y l.
Proof. unfold sortUnique. rewrite unique_In, sortList_In. tauto. Qed.
Lemma sortUnique_sorted l : StronglySorted lt (sortUnique l).
Proof. apply unique_sorted, sortList_sorted. Qed.
Lemma sorted_nodup l : StronglySorted lt l -> NoDup l.
Proof.
  induction 1 as [|a l Hl IH Ha]; constructor; auto. intros H. rewrite Forall_forall in Ha. specialize (Ha a H). lia.
Qed.

(** ** The mapping of nodes *)
Lemma keyPos_app l m x p : keyPos l x = Some p -> keyPos (l ++ m) x = Some p.
Proof.
  revert p. induction l as [|k l IH]; simpl; intros p H; [discriminate|].
  destruct (k =? x); auto. destruct (keyPos l x) as [q|]; [|discriminate]. rewrite (IH q eq_refl). auto.
Qed.
Lemma keyPos_None l x : keyPos l x = None <-> ~ In x l.
Proof.
  induction l as [|k l IH]; simpl; [tauto|]. destruct (k =? x) eqn:E.
  - apply Nat.eqb_eq in E. split; [discriminate|intros H; exfalso; auto].
  - apply Nat.eqb_neq in E. destruct (keyPos l x); split; intros H.
    + discriminate.
    + exfalso. destruct IH as [_ IH]. assert (Some n = None) by (apply IH; tauto). discriminate.
    + intros [H2|H2]; [auto|]. apply IH; auto.
    + auto.
Qed.
Lemma keyPos_nth l x p : keyPos l x = Some p -> nth_error l p = Some x.
Proof.
  revert p. induction l as [|k l IH]; simpl; intros p H; [discriminate|]. destruct (k =? x) eqn:E.
  - injection H as <-. apply Nat.eqb_eq in E. subst k. reflexivity.
  - destruct (keyPos l x) as [q|]; [|discriminate]. injection H as <-. simpl. apply IH. auto.
Qed.
Lemma keyPos_of_nth l x p : NoDup l -> nth_error l p = Some x -> keyPos l x = Some p.
Proof.
  revert p. induction l as [|k l IH]; intros p Hn H; [destruct p; discriminate|]. inversion Hn; subst.
  destruct p as [|p]; simpl in *.
  - injection H as ->. rewrite Nat.eqb_refl. auto.
  - destruct (k =? x) eqn:E.
    + apply Nat.eqb_eq in E. subst k. apply nth_error_In in H. contradiction.
    + rewrite (IH p); auto.
Qed.
Lemma keyPos_lt l x p : keyPos l x = Some p -> p < length l.
Proof. intros H. apply keyPos_nth in H. apply nth_error_Some. congruence. Qed.
Lemma keyPos_In l x : In x l -> exists p, keyPos l x = Some p.
Proof.
  intros H. destruct (keyPos l x) as [p|] eqn:E; [eauto|]. apply keyPos_None in E. contradiction.
Qed.
Lemma keyPos_inj l x y p : keyPos l x = Some p -> keyPos l y = Some p -> x = y.
Proof. intros H1 H2. apply keyPos_nth in H1. apply keyPos_nth in H2. congruence. Qed.
Lemma keyPos_last l x : ~ In x l -> keyPos (l ++ [x]) x = Some (length l).
Proof.
  induction l as [|k l IH]; simpl; intros H; [rewrite Nat.eqb_refl; auto|].
  destruct (k =? x) eqn:E; [apply Nat.eqb_eq in E; exfalso; auto|]. rewrite IH; auto.
Qed.

(** ** Adding pairs *)

(** [g] holds exactly the pairs [ps]; all variables are below [M]. *)
Record holds (M : nat) (g : graph) (ps : list (nat * nat)) : Prop := mkHolds {
  h_max : g_max g = Nat.max 1 M;
  h_nodup : NoDup (g_keys g);
  h_keys : forall x, In x (g_keys g) <-> exists y, In (x, y) ps \/ In (y, x) ps;
  h_range : forall x y, In (x, y) ps -> x < M /\ y < M;
  h_E : forall i j, In j (g_E g i) <-> exists x y, In (x, y) ps /\ keyPos (g_keys g) x = Some i /\ keyPos (g_keys g) y = Some j;
  h_rE : forall i j, In i (g_rE g j) <-> exists x y, In (x, y) ps /\ keyPos (g_keys g) x = Some i /\ keyPos (g_keys g) y = Some j;
  h_n : g_n g = length (g_keys g);
  h_m : g_m g = length ps;
  h_self : g_selfm g = length (filter (fun p => fst p =? snd p) ps);
  h_loop : forall i, g_loop g i = true <-> exists x, In (x, x) ps /\ keyPos (g_keys g) x = Some i;
  h_undir : g_undir g = false;
  h_wcc : g_wcc g = None
}.

Lemma empty_holds M : holds M (emptyGraph (Nat.max 1 M)) [].
Proof.
  constructor; simpl; auto.
  - constructor.
  - intros x. split; [tauto|]. intros (y & [[]|[]]).
  - intros x y [].
  - intros i j. split; [tauto|]. intros (x & y & [] & _).
  - intros i j. split; [tauto|]. intros (x & y & [] & _).
  - intros i. split; [discriminate|]. intros (x & [] & _).
Qed.

(** The mapping after one call of [mapNode]; nothing else changes. *)
Lemma mapNode_spec g x : NoDup (g_keys g) -> exists ext,
  g_keys (fst (mapNode g x)) = g_keys g ++ ext /\ (ext = [] /\ In x (g_keys g) \/ ext = [x] /\ ~ In x (g_keys g)) /\
  keyPos (g_keys g ++ ext) x = Some (snd (mapNode g x)) /\
  fst (mapNode g x) = mkGraph (g_max g) (g_keys g ++ ext) (g_E g) (g_rE g) (g_loop g) (g_n g) (g_m g) (g_selfm g) (g_sorted g) (g_undir g) (g_wcc g).
Proof.
  intros Hn. unfold mapNode. destruct (keyPos (g_keys g) x) as [p|] eqn:E.
  - exists []. simpl. rewrite app_nil_r. split; auto. split; [left; split; auto|split; auto].
    + apply keyPos_nth in E. apply (nth_error_In _ _ E).
    + destruct g; reflexivity.
  - exists [x]. simpl. apply keyPos_None in E. split; auto. split; auto. split; auto. apply keyPos_last. auto.
Qed.

Lemma emptyList_iff {A} (l : list A) : emptyList l = true <-> l = [].
Proof. destruct l; simpl; split; congruence. Qed.

Lemma holds_empty M g ps i : holds M g ps -> (emptyList (g_rE g i) && emptyList (g_E g i) = true <-> length (g_keys g) <= i).
Proof.
  intros H. rewrite andb_true_iff, !emptyList_iff. split.
  - intros (Hr & He). destruct (le_lt_dec (length (g_keys g)) i) as [|Hi]; auto. exfalso.
    destruct (nth_error (g_keys g) i) as [x|] eqn:Ex; [|apply nth_error_None in Ex; lia].
    pose proof (keyPos_of_nth _ _ _ (h_nodup _ _ _ H) Ex) as Kx.
    apply nth_error_In in Ex. apply (h_keys _ _ _ H) in Ex. destruct Ex as (y & [Hp|Hp]).
    + assert (Hy : In y (g_keys g)) by (apply (h_keys _ _ _ H); eauto). destruct (keyPos_In _ _ Hy) as (j & Kj).
      assert (In j (g_E g i)) as Hin by (apply (h_E _ _ _ H); eauto). rewrite He in Hin. destruct Hin.
    + assert (Hy : In y (g_keys g)) by (apply (h_keys _ _ _ H); eauto). destruct (keyPos_In _ _ Hy) as (j & Kj).
      assert (In j (g_rE g i)) as Hin by (apply (h_rE _ _ _ H); eauto). rewrite Hr in Hin. destruct Hin.
  - intros Hi. split.
    + destruct (g_rE g i) as [|j l] eqn:E; auto. exfalso.
      assert (Hin : In j (g_rE g i)) by (rewrite E; left; auto). apply (h_rE _ _ _ H) in Hin.
      destruct Hin as (x & y & _ & _ & K). apply keyPos_lt in K. lia.
    + destruct (g_E g i) as [|j l] eqn:E; auto. exfalso.
      assert (Hin : In j (g_E g i)) by (rewrite E; left; auto). apply (h_E _ _ _ H) in Hin.
      destruct Hin as (x & y & _ & K & _). apply keyPos_lt in K. lia.
Qed.

(** The edge between two mapped variables. *)
Lemma addEdge_holds M g ps keys a b u v :
  holds M g ps -> a < M -> b < M ->
  NoDup keys -> (exists ext, keys = g_keys g ++ ext /\ (forall x, In x ext -> x = a \/ x = b)) ->
  keyPos keys a = Some u -> keyPos keys b = Some v ->
  holds M (addEdge (mkGraph (g_max g) keys (g_E g) (g_rE g) (g_loop g) (g_n g) (g_m g) (g_selfm g) (g_sorted g) (g_undir g) (g_wcc g)) u v)
        (ps ++ [(a, b)]).
Proof.
  intros H Ha Hb Hn (ext & -> & Hext) Ka Kb.
  assert (Hmax : length (g_keys g ++ ext) <= g_max g).
  { rewrite (h_max _ _ _ H). apply Nat.le_trans with M; [|lia]. rewrite <- (seq_length M 0).
    apply NoDup_incl_length; auto. intros x Hx. apply in_seq. apply in_app_or in Hx. destruct Hx as [Hx|Hx].
    - apply (h_keys _ _ _ H) in Hx. destruct Hx as (y & [Hp|Hp]); apply (h_range _ _ _ H) in Hp; lia.
    - destruct (Hext x Hx) as [->| ->]; lia. }
  pose proof (keyPos_lt _ _ _ Ka) as Hu. pose proof (keyPos_lt _ _ _ Kb) as Hv.
  unfold addEdge. simpl.
  destruct (Nat.leb_spec (g_max g) u) as [|Hu2]; [lia|]. destruct (Nat.leb_spec (g_max g) v) as [|Hv2]; [lia|]. simpl.
  assert (Hmono : forall x i, (exists y, In (x, y) ps \/ In (y, x) ps) ->
            (keyPos (g_keys g ++ ext) x = Some i <-> keyPos (g_keys g) x = Some i)).
  { intros x i Hx. split.
    - intros K. apply (h_keys _ _ _ H) in Hx. destruct (keyPos_In _ _ Hx) as (j & Kj).
      pose proof (keyPos_app _ ext _ _ Kj). congruence.
    - apply keyPos_app. }
  assert (Hpair : forall i j, (exists x y, In (x, y) (ps ++ [(a, b)]) /\ keyPos (g_keys g ++ ext) x = Some i /\ keyPos (g_keys g ++ ext) y = Some j)
      <-> (i = u /\ j = v) \/ (exists x y, In (x, y) ps /\ keyPos (g_keys g) x = Some i /\ keyPos (g_keys g) y = Some j)).
  { intros i j. split.
    - intros (x & y & Hp & Kx & Ky). apply in_app_or in Hp. destruct Hp as [Hp|[Hp|[]]].
      + right. exists x, y. split; auto. split; [apply Hmono; eauto|apply Hmono; eauto].
      + injection Hp as <- <-. left. split; congruence.
    - intros [(-> & ->)|(x & y & Hp & Kx & Ky)].
      + exists a, b. split; [apply in_or_app; right; left; auto|auto].
      + exists x, y. split; [apply in_or_app; auto|]. split; apply keyPos_app; auto. }
  assert (Huv : u = v <-> a = b).
  { split; [intros ->; apply (keyPos_inj _ _ _ _ Ka Kb)|intros ->; congruence]. }
  constructor; simpl.
  - apply (h_max _ _ _ H).
  - auto.
  - intros x. split.
    + intros Hx. apply in_app_or in Hx. destruct Hx as [Hx|Hx].
      * apply (h_keys _ _ _ H) in Hx. destruct Hx as (y & [Hp|Hp]); exists y; [left|right]; apply in_or_app; auto.
      * destruct (Hext x Hx) as [->| ->]; [exists b; left|exists a; right]; apply in_or_app; right; left; auto.
    + intros (y & Hp). rewrite !in_app_iff in Hp. simpl in Hp.
      assert (Hcase : (In (x, y) ps \/ In (y, x) ps) \/ x = a \/ x = b).
      { destruct Hp as [[Hp|[Hp|[]]]|[Hp|[Hp|[]]]]; auto; injection Hp as <- <-; auto. }
      destruct Hcase as [Hc|[->| ->]].
      * apply in_or_app. left. apply (h_keys _ _ _ H). eauto.
      * apply keyPos_nth in Ka. apply (nth_error_In _ _ Ka).
      * apply keyPos_nth in Kb. apply (nth_error_In _ _ Kb).
  - intros x y Hp. apply in_app_or in Hp. destruct Hp as [Hp|[Hp|[]]]; [apply (h_range _ _ _ H); auto|]. injection Hp as <- <-. auto.
  - intros i j. rewrite Hpair. unfold upd. destruct (i =? u) eqn:E.
    + apply Nat.eqb_eq in E. subst i. rewrite in_app_iff, (h_E _ _ _ H). simpl. intuition.
    + apply Nat.eqb_neq in E. rewrite (h_E _ _ _ H). intuition.
  - intros i j. rewrite Hpair. unfold upd. destruct (j =? v) eqn:E.
    + apply Nat.eqb_eq in E. subst j. rewrite in_app_iff, (h_rE _ _ _ H). simpl. intuition.
    + apply Nat.eqb_neq in E. rewrite (h_rE _ _ _ H). intuition.
  - rewrite (h_n _ _ _ H). rewrite app_length.
    (* the number of new keys *)
    assert (Hne : NoDup ext) by (clear - Hn; induction (g_keys g) as [|k l IH]; simpl in *; auto; inversion Hn; auto).
    assert (Hnew : forall x p, keyPos (g_keys g ++ ext) x = Some p -> (length (g_keys g) <= p <-> In x ext)).
    { intros x p K. split.
      - intros Hp. apply keyPos_nth in K. rewrite nth_error_app2 in K by auto. apply (nth_error_In _ _ K).
      - intros Hx. destruct (le_lt_dec (length (g_keys g)) p) as [|Hp]; auto. exfalso.
        apply keyPos_nth in K. rewrite nth_error_app1 in K by auto. apply nth_error_In in K.
        clear - Hn K Hx. induction (g_keys g) as [|k l IH]; simpl in *; [tauto|]. inversion Hn; subst.
        destruct K as [->|K]; auto. apply H1. apply in_or_app. auto. }
    assert (Ev : emptyList (g_rE g v) && emptyList (g_E g v) = memb b ext).
    { apply Bool.eq_true_iff_eq. rewrite (holds_empty M g ps v H), memb_In. apply Hnew. auto. }
    assert (Eu : negb (v =? u) && emptyList (g_rE g u) && emptyList (g_E g u) = negb (v =? u) && memb a ext).
    { rewrite <- andb_assoc. f_equal. apply Bool.eq_true_iff_eq. rewrite (holds_empty M g ps u H), memb_In. apply Hnew. auto. }
    rewrite Ev, Eu.
    destruct (memb b ext) eqn:Eb; destruct (negb (v =? u) && memb a ext) eqn:Eab.
    + apply andb_true_iff in Eab. destruct Eab as (E1 & E2). apply negb_true_iff, Nat.eqb_neq in E1.
      apply memb_In in Eb. apply memb_In in E2. assert (Hab : a <> b) by (intros E; apply E1; symmetry; apply Huv; auto).
      assert (length ext = 2); [|lia]. apply Nat.le_antisymm.
      * change 2 with (length [a; b]). apply NoDup_incl_length; auto. intros x Hx. destruct (Hext x Hx) as [->| ->]; simpl; auto.
      * change 2 with (length [a; b]). apply NoDup_incl_length.
        -- constructor; [intros [E|[]]; auto|constructor; [intros []|constructor]].
        -- intros x [<-|[<-|[]]]; auto.
    + apply memb_In in Eb. assert (length ext = 1); [|lia]. apply Nat.le_antisymm.
      * change 1 with (length [b]). apply NoDup_incl_length; auto. intros x Hx. destruct (Hext x Hx) as [->| ->]; simpl; auto.
        apply andb_false_iff in Eab. destruct Eab as [E|E].
        -- apply negb_false_iff, Nat.eqb_eq in E. left. symmetry. apply Huv. auto.
        -- apply memb_false in E. contradiction.
      * destruct ext; [destruct Eb|simpl; lia].
    + apply andb_true_iff in Eab. destruct Eab as (E1 & E2). apply memb_In in E2. apply memb_false in Eb.
      assert (length ext = 1); [|lia]. apply Nat.le_antisymm.
      * change 1 with (length [a]). apply NoDup_incl_length; auto. intros x Hx. destruct (Hext x Hx) as [->| ->]; [left; auto|contradiction].
      * destruct ext; [destruct E2|simpl; lia].
    + apply memb_false in Eb. assert (ext = []); [|subst ext; simpl; lia]. destruct ext as [|x l]; auto. exfalso.
      destruct (Hext x (or_introl eq_refl)) as [->| ->].
      * apply andb_false_iff in Eab. destruct Eab as [E|E].
        -- apply negb_false_iff, Nat.eqb_eq in E. apply Eb. left. apply Huv. auto.
        -- apply memb_false in E. apply E. left. auto.
      * apply Eb. left. auto.
  - rewrite (h_m _ _ _ H), app_length. simpl. lia.
  - rewrite filter_app, app_length. simpl. rewrite (h_self _ _ _ H). destruct (u =? v) eqn:E.
    + apply Nat.eqb_eq in E. apply Huv in E. subst b. rewrite Nat.eqb_refl. simpl. lia.
    + apply Nat.eqb_neq in E. destruct (a =? b) eqn:E2; simpl; [|lia]. apply Nat.eqb_eq in E2. apply Huv in E2. contradiction.
  - intros i. split.
    + intros Hi.
      assert (Hc : (u = v /\ i = u) \/ g_loop g i = true).
      { destruct (u =? v) eqn:E; auto. unfold upd in Hi. destruct (i =? u) eqn:E2; auto.
        left. apply Nat.eqb_eq in E. apply Nat.eqb_eq in E2. auto. }
      destruct Hc as [(E1 & E2)|Hl].
      * subst i. apply Huv in E1. subst b. exists a. split; auto. apply in_or_app. right. left. auto.
      * apply (h_loop _ _ _ H) in Hl. destruct Hl as (x & Hx & K). exists x. split; [apply in_or_app; auto|apply keyPos_app; auto].
    + intros (x & Hx & K). apply in_app_or in Hx. destruct Hx as [Hx|[Hx|[]]].
      * assert (Hl : g_loop g i = true).
        { apply (h_loop _ _ _ H). exists x. split; auto. apply Hmono in K; eauto. }
        destruct (u =? v); auto. unfold upd. destruct (i =? u); auto.
      * injection Hx as -> ->. assert (E : u = v) by (apply Huv; auto). rewrite E, Nat.eqb_refl.
        assert (i = v) by congruence. subst i. apply upd_same.
  - auto.
  - auto.
Qed.

Lemma addPair_holds M rtl g ps a b : holds M g ps -> a < M -> b < M -> holds M (addPair rtl g a b) (ps ++ [(a, b)]).
Proof.
  intros H Ha Hb.
  assert (Hstep : forall x y, NoDup (g_keys g) -> exists ext p q,
     let g1 := fst (mapNode g x) in let g2 := fst (mapNode g1 y) in
     snd (mapNode g x) = p /\ snd (mapNode g1 y) = q /\
     g2 = mkGraph (g_max g) (g_keys g ++ ext) (g_E g) (g_rE g) (g_loop g) (g_n g) (g_m g) (g_selfm g) (g_sorted g) (g_undir g) (g_wcc g) /\
     NoDup (g_keys g ++ ext) /\ (forall z, In z ext -> z = x \/ z = y) /\
     keyPos (g_keys g ++ ext) x = Some p /\ keyPos (g_keys g ++ ext) y = Some q).
  { intros x y Hn. destruct (mapNode_spec g x Hn) as (e1 & K1 & C1 & P1 & G1).
    assert (Hn1 : NoDup (g_keys g ++ e1)).
    { destruct C1 as [(-> & _)|(-> & Hx)]; [rewrite app_nil_r; auto|]. apply NoDup_app'; auto.
      - constructor; [intros []|constructor].
      - intros z Hz [<-|[]]. contradiction. }
    destruct (mapNode_spec (fst (mapNode g x)) y) as (e2 & K2 & C2 & P2 & G2).
    { rewrite K1. auto. }
    rewrite K1 in *. rewrite G1 in G2 at 2 3 4 5 6 7 8 9 10 11. simpl in G2.
    exists (e1 ++ e2), (snd (mapNode g x)), (snd (mapNode (fst (mapNode g x)) y)). cbv zeta.
    rewrite app_assoc. split; auto. split; auto. split; auto. split; [|split; [|split]].
    - destruct C2 as [(-> & _)|(-> & Hy)]; [rewrite app_nil_r; auto|]. apply NoDup_app'; auto.
      + constructor; [intros []|constructor].
      + intros z Hz [<-|[]]. contradiction.
    - intros z Hz. apply in_app_or in Hz. destruct Hz as [Hz|Hz].
      + destruct C1 as [(-> & _)|(-> & _)]; [destruct Hz|]. destruct Hz as [<-|[]]. auto.
      + destruct C2 as [(-> & _)|(-> & _)]; [destruct Hz|]. destruct Hz as [<-|[]]. auto.
    - apply keyPos_app. auto.
    - auto. }
  unfold addPair. destruct rtl.
  - destruct (Hstep b a (h_nodup _ _ _ H)) as (ext & p & q & Ep & Eq & Eg & Hn & He & Kp & Kq).
    destruct (mapNode g b) as [g1 y]. simpl in *. destruct (mapNode g1 a) as [g2 x]. simpl in *. subst.
    apply addEdge_holds; auto. exists ext. split; auto. intros z Hz. destruct (He z Hz); auto.
  - destruct (Hstep a b (h_nodup _ _ _ H)) as (ext & p & q & Ep & Eq & Eg & Hn & He & Kp & Kq).
    destruct (mapNode g a) as [g1 x]. simpl in *. destruct (mapNode g1 b) as [g2 y]. simpl in *. subst.
    apply addEdge_holds; auto. exists ext. split; auto.
Qed.

(** The pairs of a clause. *)
Fixpoint pairs (vs : list nat) : list (nat * nat) :=
  match vs with [] => [] | v :: r => map (fun w => (v, w)) r ++ pairs r end.

Lemma addPairs_holds M rtl vs : forall g ps, holds M g ps -> (forall x, In x vs -> x < M) ->
  holds M (addPairs rtl g vs) (ps ++ pairs vs).
Proof.
  induction vs as [|v r IH]; intros g ps H Hr; simpl; [rewrite app_nil_r; auto|].
  rewrite app_assoc. apply IH; [|intros x Hx; apply Hr; right; auto].
  assert (Hv : v < M) by (apply Hr; left; auto).
  assert (Hr2 : forall x, In x r -> x < M) by (intros x Hx; apply Hr; right; auto).
  clear IH Hr. revert g ps H. induction r as [|w r IH]; intros g ps H; simpl; [rewrite app_nil_r; auto|].
  replace (ps ++ (v, w) :: map (fun w0 => (v, w0)) r) with ((ps ++ [(v, w)]) ++ map (fun w0 => (v, w0)) r) by (rewrite <- app_assoc; reflexivity).
  apply IH; [intros x Hx; apply Hr2; right; auto|]. apply addPair_holds; auto. apply Hr2. left. auto.
Qed.

Definition allPairs (cls : list (bool * clause)) : list (nat * nat) :=
  flat_map (fun cl : bool * clause => if fst cl then [] else pairs (map lvar (snd cl))) cls.

Lemma addClauses_holds M rtl cls : forall g ps, holds M g ps ->
  (forall c, In (false, c) cls -> c <> []) ->
  (forall c l, In (false, c) cls -> In l c -> lvar l < M) ->
  exists g', addClauses rtl g cls = Ok g' /\ holds M g' (ps ++ allPairs cls).
Proof.
  induction cls as [|(dl & c) r IH]; intros g ps H Hne Hr; cbn [addClauses].
  - exists g. simpl. rewrite app_nil_r. auto.
  - destruct dl.
    + simpl. apply IH; auto.
      * intros c' Hc. apply Hne. right. auto.
      * intros c' l Hc. apply Hr. right. auto.
    + assert (Ec : addClauseEdges rtl g (false, c) = Ok (addPairs rtl g (map lvar c))).
      { destruct c as [|l0 c0]; [exfalso; apply (Hne []); [left; auto|auto]|reflexivity]. }
      rewrite Ec. cbn [bind]. unfold allPairs. cbn [flat_map fst snd]. rewrite app_assoc. apply IH.
      * apply addPairs_holds; auto. intros x Hx. apply in_map_iff in Hx. destruct Hx as (l & <- & Hl).
        apply (Hr c l); auto. left. auto.
      * intros c' Hc. apply Hne. right. auto.
      * intros c' l Hc. apply Hr. right. auto.
Qed.

Lemma addClauses_empty rtl cls : forall g c, In (false, c) cls -> c = [] -> exists e, addClauses rtl g cls = Err e.
Proof.
  induction cls as [|(dl & c0) r IH]; intros g c Hc E; simpl; [destruct Hc|].
  destruct Hc as [Hc|Hc].
  - injection Hc as -> ->. subst c. simpl. eauto.
  - destruct dl; simpl; [apply (IH _ c); auto|]. destruct c0; simpl; [eauto|apply (IH _ c); auto].
Qed.

Lemma pairs_nth vs x y : In (x, y) (pairs vs) <-> exists i j, i < j /\ nth_error vs i = Some x /\ nth_error vs j = Some y.
Proof.
  induction vs as [|v r IH]; simpl.
  - split; [tauto|]. intros (i & j & _ & H & _). destruct i; discriminate.
  - rewrite in_app_iff, IH, in_map_iff. split.
    + intros [(w & E & Hw)|(i & j & Hij & Hi & Hj)].
      * injection E as <- <-. apply In_nth_error in Hw. destruct Hw as (j & Hj). exists 0, (S j). split; [lia|auto].
      * exists (S i), (S j). split; [lia|auto].
    + intros (i & j & Hij & Hi & Hj). destruct j as [|j]; [lia|]. destruct i as [|i]; simpl in *.
      * injection Hi as ->. left. exists y. split; auto. apply (nth_error_In _ _ Hj).
      * right. exists i, j. split; [lia|auto].
Qed.

Lemma allPairs_In cls x y : In (x, y) (allPairs cls) <->
  exists c i j, In (false, c) cls /\ i < j /\ nth_error (map lvar c) i = Some x /\ nth_error (map lvar c) j = Some y.
Proof.
  unfold allPairs. rewrite in_flat_map. split.
  - intros ((dl & c) & Hc & Hp). simpl in Hp. destruct dl; [destruct Hp|]. apply pairs_nth in Hp.
    destruct Hp as (i & j & Hp). exists c, i, j. tauto.
  - intros (c & i & j & Hc & Hp). exists (false, c). split; auto. simpl. apply pairs_nth. eauto.
Qed.

Lemma together_pairs cls x y : together cls x y <-> In (x, y) (allPairs cls) \/ In (y, x) (allPairs cls).
Proof.
  rewrite !allPairs_In. unfold together. split.
  - intros (c & i & j & Hc & Hij & Hi & Hj). destruct (Nat.lt_total i j) as [H|[H|H]]; [left; exists c, i, j; auto|contradiction|].
    right. exists c, j, i. auto.
  - intros [(c & i & j & Hc & Hij & Hi & Hj)|(c & i & j & Hc & Hij & Hi & Hj)].
    + exists c, i, j. split; auto. split; [lia|auto].
    + exists c, j, i. split; auto. split; [lia|auto].
Qed.

Lemma linked_pairs cls x : linked cls x <-> exists y, In (x, y) (allPairs cls) \/ In (y, x) (allPairs cls).
Proof.
  unfold linked. split.
  - intros (c & Hc & Hl & Hx). apply In_nth_error in Hx. destruct Hx as (i & Hi).
    assert (Hlen : i < length (map lvar c)) by (apply nth_error_Some; congruence). rewrite map_length in Hlen.
    set (j := if i =? 0 then 1 else 0). assert (Hj : j < length (map lvar c) /\ j <> i).
    { rewrite map_length. unfold j. destruct (i =? 0) eqn:E; [apply Nat.eqb_eq in E|apply Nat.eqb_neq in E]; lia. }
    destruct (nth_error (map lvar c) j) as [y|] eqn:Ey; [|apply nth_error_None in Ey; lia].
    exists y. apply together_pairs. exists c, i, j. split; auto. split; [lia|auto].
  - intros (y & Hp). apply together_pairs in Hp. destruct Hp as (c & i & j & Hc & Hij & Hi & Hj).
    exists c. split; auto. split.
    + assert (i < length (map lvar c)) by (apply nth_error_Some; congruence).
      assert (j < length (map lvar c)) by (apply nth_error_Some; congruence). rewrite map_length in *. lia.
    + apply (nth_error_In _ _ Hi).
Qed.

(** ** Making the graph undirected *)
Lemma pushAll_In i ws : forall (E : nat -> list nat) a b, In b (fold_left (fun E w => upd E w (E w ++ [i])) ws E a) <-> In b (E a) \/ (b = i /\ In a ws).
Proof.
  induction ws as [|w r IH]; intros E a b; simpl; [tauto|]. rewrite IH. unfold upd.
  destruct (a =? w) eqn:Ea.
  - apply Nat.eqb_eq in Ea. subst w. rewrite in_app_iff. simpl. intuition.
  - apply Nat.eqb_neq in Ea. intuition congruence.
Qed.

Lemma addReversed_In is : forall (E E0 : nat -> list nat),
  (forall a b, In b (E0 a) -> In b (E a)) -> (forall a b, In b (E a) -> In b (E0 a) \/ In a (E0 b)) ->
  (forall a b, In b (E0 a) -> In b (addReversed E is a)) /\
  (forall a b, In b (addReversed E is a) -> In b (E0 a) \/ In a (E0 b)) /\
  (forall a b, In b is -> In a (E0 b) -> In b (addReversed E is a)) /\
  (forall a b, In b (E a) -> In b (addReversed E is a)).
Proof.
  unfold addReversed. induction is as [|i r IH]; intros E E0 H1 H2; simpl.
  - split; [auto|]. split; [auto|]. split; [intros a b []|auto].
  - set (E' := fold_left (fun E w => upd E w (E w ++ [i])) (E i) E).
    assert (HE' : forall a b, In b (E' a) <-> In b (E a) \/ (b = i /\ In a (E i))) by (intros; apply pushAll_In).
    destruct (IH E' E0) as (A1 & A2 & A3 & A4).
    + intros a b Hb. apply HE'. auto.
    + intros a b Hb. apply HE' in Hb. destruct Hb as [Hb|(-> & Ha)]; [apply H2; auto|]. apply H2 in Ha. tauto.
    + split; [auto|]. split; [auto|]. split.
      * intros a b [<-|Hb] Ha; [|apply A3; auto]. apply A4. apply HE'. right. auto.
      * intros a b Hb. apply A4. apply HE'. auto.
Qed.

Lemma fold_add_sum (f : nat -> nat) l : forall m, fold_left (fun m i => m + f i) l m = m + list_sum (map f l).
Proof. induction l as [|a l IH]; intros m; simpl; [lia|]. rewrite IH. lia. Qed.

Record undirected (g : graph) (cls : list (bool * clause)) : Prop := mkUndirected {
  u_keys_nodup : NoDup (g_keys g);
  u_keys : forall x, In x (g_keys g) <-> linked cls x;
  u_n : g_n g = length (g_keys g);
  u_E : forall i j, i < g_n g -> (In j (g_E g i) <-> exists x y, together cls x y /\ nth_error (g_keys g) i = Some x /\ nth_error (g_keys g) j = Some y);
  u_sorted : forall i, i < g_n g -> StronglySorted lt (g_E g i);
  u_rE : forall i, i < g_n g -> g_rE g i = [];
  u_m : g_m g = list_sum (map (fun i => length (g_E g i)) (seq 0 (g_n g)));
  u_self : g_selfm g = length (filter (fun p => fst p =? snd p) (allPairs cls));
  u_loop : forall i, g_loop g i = true <-> exists x, together cls x x /\ nth_error (g_keys g) i = Some x;
  u_undir : g_undir g = true;
  u_wcc : g_wcc g = None
}.

Lemma makeUndirected_spec M g cls : holds M g (allPairs cls) -> undirected (makeUndirected g) cls.
Proof.
  intros H. unfold makeUndirected. rewrite (h_undir _ _ _ H). unfold sortEdgeList. simpl.
  set (R := addReversed (g_E g) (seq 0 (g_n g))).
  destruct (addReversed_In (seq 0 (g_n g)) (g_E g) (g_E g)) as (A1 & A2 & A3 & _); auto. fold R in A1, A2, A3.
  assert (Hsrc : forall i j, In j (g_E g i) -> i < g_n g /\ j < g_n g).
  { intros i j Hj. apply (h_E _ _ _ H) in Hj. destruct Hj as (x & y & _ & K1 & K2). rewrite (h_n _ _ _ H).
    split; [apply (keyPos_lt _ _ _ K1)|apply (keyPos_lt _ _ _ K2)]. }
  assert (HR : forall i j, In j (R i) <-> In j (g_E g i) \/ In i (g_E g j)).
  { intros i j. split; [apply A2|]. intros [Hj|Hi]; [auto|]. apply A3; auto. apply in_seq. apply Hsrc in Hi. lia. }
  assert (HK : forall i j, In j (g_E g i) \/ In i (g_E g j) <-> exists x y, together cls x y /\ nth_error (g_keys g) i = Some x /\ nth_error (g_keys g) j = Some y).
  { intros i j. rewrite !(h_E _ _ _ H). split.
    - intros [(x & y & Hp & K1 & K2)|(x & y & Hp & K1 & K2)].
      + exists x, y. split; [apply together_pairs; auto|]. split; apply keyPos_nth; auto.
      + exists y, x. split; [apply together_pairs; auto|]. split; apply keyPos_nth; auto.
    - intros (x & y & Hp & K1 & K2). apply (keyPos_of_nth _ _ _ (h_nodup _ _ _ H)) in K1.
      apply (keyPos_of_nth _ _ _ (h_nodup _ _ _ H)) in K2. apply together_pairs in Hp.
      destruct Hp as [Hp|Hp]; [left|right]; eauto. }
  constructor; simpl.
  - apply (h_nodup _ _ _ H).
  - intros x. rewrite (h_keys _ _ _ H), linked_pairs. tauto.
  - apply (h_n _ _ _ H).
  - intros i j Hi. apply Nat.ltb_lt in Hi. rewrite Hi. rewrite sortUnique_In, HR. apply HK.
  - intros i Hi. apply Nat.ltb_lt in Hi. rewrite Hi. apply sortUnique_sorted.
  - intros i Hi. apply Nat.ltb_lt in Hi. rewrite Hi. reflexivity.
  - rewrite fold_add_sum. reflexivity.
  - apply (h_self _ _ _ H).
  - intros i. rewrite (h_loop _ _ _ H). split.
    + intros (x & Hp & K). exists x. split; [apply together_pairs; auto|apply keyPos_nth; auto].
    + intros (x & Hp & K). exists x. apply together_pairs in Hp. split; [tauto|]. apply (keyPos_of_nth _ _ _ (h_nodup _ _ _ H)). auto.
  - reflexivity.
  - reflexivity.
Qed.

Lemma together_sym cls x y : together cls x y -> together cls y x.
Proof. intros (c & i & j & Hc & Hij & Hi & Hj). exists c, j, i. split; auto. Qed.

Lemma undirected_simple g cls : undirected g cls -> simple (g_n g) (g_E g).
Proof.
  intros U. constructor.
  - intros u v Hu Hv. apply (u_E _ _ U) in Hv; auto. destruct Hv as (x & y & _ & _ & Hy). rewrite (u_n _ _ U).
    apply nth_error_Some. congruence.
  - intros u Hu. apply sorted_nodup. apply (u_sorted _ _ U). auto.
  - intros u v Hu Hv. apply (u_E _ _ U) in Hv; auto. destruct Hv as (x & y & Ht & Hx & Hy).
    assert (Hvn : v < g_n g) by (rewrite (u_n _ _ U); apply nth_error_Some; congruence).
    apply (u_E _ _ U); auto. exists y, x. split; [apply together_sym; auto|auto].
Qed.

Lemma init_graph_full rtl nvars cls :
  (forall c, In (false, c) cls -> c <> []) -> (forall c l, In (false, c) cls -> In l c -> lvar l < nvars) ->
  exists g, init_graph rtl false nvars cls = Ok g /\ undirected g cls.
Proof.
  intros Hne Hr. unfold init_graph.
  destruct (addClauses_holds nvars rtl cls (emptyGraph (Nat.max 1 nvars)) [] (empty_holds nvars) Hne Hr) as (g & E & H).
  rewrite E. simpl. eexists. split; [reflexivity|]. apply (makeUndirected_spec nvars). exact H.
Qed.
