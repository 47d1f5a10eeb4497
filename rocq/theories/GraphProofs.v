(** Lemmas for C60-C62: what VSIDSC makes of the clauses. *)
From Coq Require Import List Arith Bool Lia QArith Relations.
Import ListNotations.
From Verif Require Import Base Outcome GraphModel GraphSpec BetweenWalks BetweenDep BetweenBfs BetweenProofs GraphBuild GraphWcc.
Open Scope nat_scope.

Lemma nth_of_error (l : list nat) i x : nth_error l i = Some x -> nth i l 0 = x.
Proof. apply nth_error_nth. Qed.

Lemma nth_error_of (l : list nat) i : i < length l -> nth_error l i = Some (nth i l 0).
Proof. intros H. apply nth_error_nth'. auto. Qed.

Lemma undirected_interaction g cls : undirected g cls -> interaction cls (g_n g) (revMapNode g) (g_E g).
Proof.
  intros U. unfold revMapNode. pose proof (u_n _ _ U) as Hn. constructor.
  - intros i j Hi Hj E. rewrite Hn in *. apply (proj1 (NoDup_nth (g_keys g) 0) (u_keys_nodup _ _ U)); auto.
  - intros x. rewrite <- (u_keys _ _ U). split.
    + intros Hx. apply In_nth_error in Hx. destruct Hx as (i & Hi). exists i. split; [|apply nth_of_error; auto].
      rewrite Hn. apply nth_error_Some. congruence.
    + intros (i & Hi & <-). apply nth_In. rewrite <- Hn. auto.
  - intros i j Hi Hj. rewrite (u_E _ _ U i j Hi). split.
    + intros (x & y & Ht & Hx & Hy). apply nth_of_error in Hx. apply nth_of_error in Hy. subst. auto.
    + intros Ht. eexists. eexists. split; [exact Ht|]. split; apply nth_error_of; rewrite <- Hn; auto.
  - apply (undirected_simple g cls U).
Qed.

(** ** The number of edges *)
Lemma list_prod_sum (P : nat * nat -> bool) l m :
  length (filter P (list_prod l m)) = list_sum (map (fun i => list_sum (map (fun j => ind (P (i, j))) m)) l).
Proof.
  induction l as [|a l IH]; simpl; auto. rewrite filter_app, app_length, IH. f_equal.
  rewrite filter_map_len. clear IH. induction m as [|b m IHm]; simpl; auto. destruct (P (a, b)); simpl; rewrite IHm; auto.
Qed.

Lemma list_sum_one (l : list nat) (f : nat -> nat) : (forall x, In x l -> f x = 1) -> list_sum (map f l) = length l.
Proof. induction l as [|a l IH]; simpl; intros H; auto. rewrite IH, H; auto. Qed.

Lemma handshake n adj : simple n adj -> (forall u, u < n -> ~ In u (adj u)) ->
  list_sum (map (fun i => length (adj i)) (seq 0 n)) = 2 * length (edgePairs n adj).
Proof.
  intros Hs Hirr. unfold edgePairs. rewrite list_prod_sum. simpl fst. simpl snd.
  set (lo := fun i j => ind ((i <? j) && existsb (Nat.eqb j) (adj i))).
  set (hi := fun i j => ind ((j <? i) && existsb (Nat.eqb j) (adj i))).
  assert (E1 : list_sum (map (fun i => length (adj i)) (seq 0 n)) =
     list_sum (map (fun i => list_sum (map (fun j => lo i j + hi i j) (seq 0 n))) (seq 0 n))).
  { apply list_sum_ext. intros i Hi. apply in_seq in Hi.
    rewrite (list_sum_incl (fun j => lo i j + hi i j) (seq 0 n) (adj i)).
    - rewrite list_sum_one; auto. intros j Hj. unfold lo, hi. pose proof (proj2 (memb_In j (adj i)) Hj) as Hm.
      unfold memb in Hm. rewrite Hm, !andb_true_r. assert (j <> i) by (intros ->; apply (Hirr i); auto; lia).
      destruct (Nat.ltb_spec i j); destruct (Nat.ltb_spec j i); simpl; lia.
    - apply seq_NoDup.
    - apply (si_nodup _ _ Hs). lia.
    - intros j Hj. apply in_seq. pose proof (si_range _ _ Hs i j ltac:(lia) Hj). lia.
    - intros j _ Hj. unfold lo, hi. apply memb_false in Hj. unfold memb in Hj. rewrite Hj, !andb_false_r. auto. }
  rewrite E1. rewrite (list_sum_ext _ (fun i => list_sum (map (lo i) (seq 0 n)) + list_sum (map (hi i) (seq 0 n)))).
  2:{ intros i _. apply list_sum_plus. }
  rewrite list_sum_plus. rewrite (list_sum_swap hi).
  assert (E2 : list_sum (map (fun y => list_sum (map (fun x => hi x y) (seq 0 n))) (seq 0 n)) =
     list_sum (map (fun i => list_sum (map (lo i) (seq 0 n))) (seq 0 n))).
  { apply list_sum_ext. intros y Hy. apply in_seq in Hy. apply list_sum_ext. intros x Hx. apply in_seq in Hx.
    unfold hi, lo. destruct (y <? x); simpl; auto. f_equal. apply Bool.eq_true_iff_eq.
    change (memb y (adj x) = true <-> memb x (adj y) = true). rewrite !memb_In.
    split; intros H; apply (si_sym _ _ Hs); auto; lia. }
  rewrite E2. change (list_sum (map (fun i => list_sum (map (fun j => ind ((i <? j) && existsb (Nat.eqb j) (adj i))) (seq 0 n))) (seq 0 n)))
    with (list_sum (map (fun i => list_sum (map (lo i) (seq 0 n))) (seq 0 n))). lia.
Qed.

Lemma plain_together cls x : plain cls -> ~ together cls x x.
Proof.
  intros Hp (c & i & j & Hc & Hij & Hi & Hj). apply Hij.
  apply (proj1 (NoDup_nth_error (map lvar c)) (Hp c Hc)); [apply nth_error_Some; congruence|congruence].
Qed.

Lemma plain_irr g cls : undirected g cls -> plain cls -> forall u, u < g_n g -> ~ In u (g_E g u).
Proof.
  intros U Hp u Hu H. apply (u_E _ _ U) in H; auto. destruct H as (x & y & Ht & Hx & Hy).
  assert (x = y) by congruence. subst y. apply (plain_together cls x Hp Ht).
Qed.

Lemma plain_selfm g cls : undirected g cls -> plain cls -> g_selfm g = 0.
Proof.
  intros U Hp. rewrite (u_self _ _ U). apply length_zero_iff_nil.
  destruct (filter (fun p => fst p =? snd p) (allPairs cls)) as [|(x & y) l] eqn:E; auto. exfalso.
  assert (H : In (x, y) (filter (fun p => fst p =? snd p) (allPairs cls))) by (rewrite E; left; auto).
  apply filter_In in H. simpl in H. destruct H as (H & Exy). apply Nat.eqb_eq in Exy. subst y.
  apply (plain_together cls x Hp). apply together_pairs. auto.
Qed.

Lemma edgeCount_full g cls : undirected g cls -> plain cls -> edgeCount g FULL = Some (length (edgePairs (g_n g) (g_E g))).
Proof.
  intros U Hp. unfold edgeCount. simpl. rewrite (plain_selfm g cls U Hp), (u_m _ _ U), Nat.sub_0_r.
  rewrite (handshake _ _ (undirected_simple g cls U) (plain_irr g cls U Hp)). f_equal.
  change (0 + Nat.div2 (2 * length (edgePairs (g_n g) (g_E g)))) with (Nat.div2 (2 * length (edgePairs (g_n g) (g_E g)))).
  apply Nat.div2_double.
Qed.

Lemma init_full rtl nvars cls : usable nvars cls ->
  exists g, init_graph rtl false nvars cls = Ok g /\ undirected g cls.
Proof.
  intros Hu. apply init_graph_full.
  - intros c Hc. apply (Hu c Hc).
  - intros c l Hc Hl. apply (Hu c Hc). auto.
Qed.

Lemma graph_spec rtl nvars cls : usable nvars cls ->
  exists g, init_graph rtl false nvars cls = Ok g /\
    interaction cls (g_n g) (revMapNode g) (g_E g) /\
    (forall x, linked cls x -> exists p, mapNode g x = (g, p) /\ p < g_n g /\ revMapNode g p = x) /\
    (plain cls -> edgeCount g FULL = Some (length (edgePairs (g_n g) (g_E g)))) /\
    g_undir g = true.
Proof.
  intros Hu. destruct (init_full rtl nvars cls Hu) as (g & E & U). exists g. split; auto. split.
  - apply undirected_interaction. auto.
  - split; [|split; [apply edgeCount_full; auto|apply (u_undir _ _ U)]].
    intros x Hx. apply (u_keys _ _ U) in Hx. destruct (keyPos_In _ _ Hx) as (p & Kp). exists p.
    unfold mapNode. rewrite Kp. split; auto. split; [rewrite (u_n _ _ U); apply (keyPos_lt _ _ _ Kp)|].
    apply nth_of_error. apply keyPos_nth. auto.
Qed.

(** ** Components *)
Lemma undirected_nb g cls : undirected g cls -> forall v, wccNbrs g v = g_E g v.
Proof. intros U v. unfold wccNbrs. rewrite (u_undir _ _ U), app_nil_r. auto. Qed.

Lemma undirected_other g cls : undirected g cls -> plain cls -> forall u, u < g_n g -> exists v, In v (g_E g u) /\ v <> u.
Proof.
  intros U Hp u Hu. pose proof (undirected_interaction g cls U) as IA.
  assert (Hl : linked cls (revMapNode g u)) by (apply (in_onto _ _ _ _ IA); eauto).
  apply linked_pairs in Hl. destruct Hl as (y & Hy). apply together_pairs in Hy.
  assert (Hl2 : linked cls y).
  { apply linked_pairs. exists (revMapNode g u). apply together_pairs. apply together_sym. auto. }
  apply (in_onto _ _ _ _ IA) in Hl2. destruct Hl2 as (v & Hv & <-). exists v. split.
  - apply (in_adj _ _ _ _ IA); auto.
  - intros ->. apply (plain_together cls _ Hp Hy).
Qed.

Lemma connected_ext (f h : nat -> list nat) : (forall v, f v = h v) -> forall u v, connected f u v <-> connected h u v.
Proof.
  intros E u v. split; induction 1; try (apply rt_refl); try (eapply rt_trans; eauto; fail); apply rt_step; congruence.
Qed.

Lemma m_pos g cls x : undirected g cls -> linked cls x -> 0 < g_m g /\ 0 < g_n g.
Proof.
  intros U Hl. pose proof (undirected_interaction g cls U) as IA.
  pose proof Hl as Hl'. apply linked_pairs in Hl'. destruct Hl' as (y & Hy). apply together_pairs in Hy.
  assert (Hl2 : linked cls y).
  { apply linked_pairs. exists x. apply together_pairs. apply together_sym. auto. }
  apply (in_onto _ _ _ _ IA) in Hl. destruct Hl as (i & Hi & <-).
  apply (in_onto _ _ _ _ IA) in Hl2. destruct Hl2 as (j & Hj & <-).
  apply (in_adj _ _ _ _ IA) in Hy; auto. split; [|lia].
  rewrite (u_m _ _ U). apply list_sum_pos. exists i. split; [apply in_seq; lia|].
  destruct (g_E g i); [destruct Hy|simpl; lia].
Qed.

(** The graph of [computeWCC] differs in the component data only. *)
Definition withWcc (g : graph) (w : wcc) : graph :=
  mkGraph (g_max g) (g_keys g) (g_E g) (g_rE g) (g_loop g) (g_n g) (g_m g) (g_selfm g) (g_sorted g) (g_undir g) (Some w).

Lemma init_lwcc rtl nvars cls x : usable nvars cls -> plain cls -> linked cls x ->
  exists g w, init_graph rtl true nvars cls = Ok (withWcc g w) /\ undirected g cls /\
    init_graph rtl false nvars cls = Ok g /\
    (forall k, 1 <= k <= w_count w -> component (g_n g) (g_E g) (withId g (w_id w) k) /\
       w_nodes w k = length (withId g (w_id w) k) /\
       w_edges w k = list_sum (map (fun v => length (g_E g v)) (withId g (w_id w) k))) /\
    (forall u, u < g_n g -> 1 <= w_id w u <= w_count w) /\
    1 <= w_largest w <= w_count w /\
    (forall k, 1 <= k <= w_count w -> w_nodes w k <= w_nodes w (w_largest w)).
Proof.
  intros Hu Hp Hl. destruct (init_full rtl nvars cls Hu) as (g & E & U).
  pose proof (undirected_simple g cls U) as Hs. pose proof (undirected_nb g cls U) as Hnb.
  destruct (m_pos g cls x U Hl) as (Hm & Hn).
  destruct (computeWCC_spec g) as (w & Ew & A & B & C & D & F & G); auto.
  { intros u v. rewrite Hnb. apply (si_range _ _ Hs). }
  { intros u v. rewrite !Hnb. apply (si_sym _ _ Hs). }
  { intros u Hu2. rewrite Hnb. apply (undirected_other g cls U Hp u Hu2). }
  { apply (u_undir _ _ U). }
  exists g, w. split; [|split; [auto|split; [auto|split; [|auto]]]].
  - unfold init_graph in *. destruct (addClauses rtl (emptyGraph (Nat.max 1 nvars)) cls) as [g0|]; [|discriminate].
    simpl in *. injection E as ->. exact Ew.
  - intros k Hk. destruct (D k Hk) as (D1 & D2). split; [|split; [auto|]].
    + split; [apply withId_nodup|]. split; [intros u Hin; apply withId_In in Hin; tauto|]. split.
      * destruct (B k Hk) as (u & Hu2 & Eu). intros En. assert (Hin : In u (withId g (w_id w) k)) by (apply withId_In; auto).
        rewrite En in Hin. destruct Hin.
      * intros u v Hin Hv. apply withId_In in Hin. destruct Hin as (Hu2 & Eu). rewrite withId_In.
        rewrite <- (connected_ext (wccNbrs g) (g_E g) Hnb). rewrite <- (C u v Hu2 Hv). intuition congruence.
    + rewrite D2. apply list_sum_ext. intros v Hv. apply withId_In in Hv. unfold deg.
      rewrite (u_rE _ _ U v) by tauto. simpl. lia.
Qed.

Lemma components_spec rtl nvars cls x : usable nvars cls -> plain cls -> linked cls x ->
  exists g0 g C, init_graph rtl false nvars cls = Ok g0 /\ init_graph rtl true nvars cls = Ok g /\
    g_E g = g_E g0 /\ g_n g = g_n g0 /\
    component (g_n g) (g_E g) C /\
    (forall u, u < g_n g -> (inScope g u LWCC = true <-> In u C)) /\
    nodes g LWCC = Some (length C) /\
    edges g LWCC = Some (list_sum (map (fun v => length (g_E g v)) C)) /\
    (forall C', component (g_n g) (g_E g) C' -> length C' <= length C).
Proof.
  intros Hu Hp Hl. destruct (init_lwcc rtl nvars cls x Hu Hp Hl) as (g & w & E & U & E0 & A & B & C & D).
  exists g, (withWcc g w), (withId g (w_id w) (w_largest w)).
  destruct (A _ C) as (A1 & A2 & A3).
  split; auto. split; auto. split; auto. split; auto. split; auto. split; [|split; [|split]].
  - intros u Hu2. simpl. rewrite withId_In, Nat.eqb_eq. tauto.
  - simpl. rewrite A2. auto.
  - simpl. rewrite A3. auto.
  - intros C' (N1 & N2 & N3 & N4). destruct C' as [|u r] eqn:Ec; [congruence|]. rewrite <- Ec in *.
    assert (Huc : In u C') by (rewrite Ec; left; auto). pose proof (N2 u Huc) as Hun. simpl in Hun, N2, N4.
    pose proof (B u Hun) as Hk. destruct (A _ Hk) as ((_ & _ & _ & P4) & P2 & _).
    assert (Hle : length C' <= length (withId g (w_id w) (w_id w u))).
    { apply NoDup_incl_length; auto. intros v Hv. assert (Hiu : In u (withId g (w_id w) (w_id w u))) by (apply withId_In; auto).
      apply (P4 u v Hiu (N2 v Hv)). apply (N4 u v Huc (N2 v Hv)). auto. }
    rewrite <- P2 in Hle. specialize (D _ Hk). rewrite A2 in D. lia.
Qed.
