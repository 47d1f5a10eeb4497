(** Lemmas for C61: the normalised result and when it is not a number. *)
From Coq Require Import List Arith Bool Lia QArith.
Import ListNotations.
From Verif Require Import Base Outcome GraphModel GraphSpec BetweenWalks BetweenDep BetweenBfs.
Open Scope nat_scope.

Lemma qdiv_nonneg a b : (0 <= qnat a / qnat b)%Q.
Proof.
  unfold Qdiv. apply Qmult_le_0_compat; [apply qnat_nonneg|]. apply Qinv_le_0_compat. apply qnat_nonneg.
Qed.

Lemma share_nonneg n adj s t v : (0 <= share n adj s t v)%Q.
Proof. unfold share. apply qdiv_nonneg. Qed.

Lemma betweenness_nonneg n adj srcs v : (0 <= betweenness n adj srcs v)%Q.
Proof.
  unfold betweenness. apply qsum_nonneg. intros s _. destruct (s =? v); [apply Qle_refl|].
  apply qsum_nonneg. intros t _. destruct (t =? v); [apply Qle_refl|apply share_nonneg].
Qed.

Lemma qmax_l a b : (a <= qmax a b)%Q.
Proof.
  unfold qmax. destruct (Qle_bool b a) eqn:E; [apply Qle_refl|].
  destruct (Qlt_le_dec a b) as [H|H]; [apply Qlt_le_weak; auto|]. apply Qle_bool_iff in H. congruence.
Qed.
Lemma qmax_r a b : (b <= qmax a b)%Q.
Proof. unfold qmax. destruct (Qle_bool b a) eqn:E; [apply Qle_bool_iff; auto|apply Qle_refl]. Qed.
Lemma qmax_or a b : qmax a b = a \/ qmax a b = b.
Proof. unfold qmax. destruct (Qle_bool b a); auto. Qed.

Lemma fold_qmax (arr : nat -> Q) l : forall m : Q,
  (m <= fold_left (fun m i => qmax m (arr i)) l m)%Q /\
  (forall v, In v l -> (arr v <= fold_left (fun m i => qmax m (arr i)) l m)%Q) /\
  (fold_left (fun m i => qmax m (arr i)) l m = m \/ exists v, In v l /\ fold_left (fun m i => qmax m (arr i)) l m = arr v).
Proof.
  induction l as [|a l IH]; intros m; simpl.
  - split; [apply Qle_refl|]. split; [tauto|auto].
  - destruct (IH (qmax m (arr a))) as (H1 & H2 & H3). split; [|split].
    + apply Qle_trans with (qmax m (arr a)); auto. apply qmax_l.
    + intros v [->|Hv]; auto. apply Qle_trans with (qmax m (arr v)); auto. apply qmax_r.
    + destruct H3 as [H3|(v & Hv & H3)]; [|right; exists v; auto].
      destruct (qmax_or m (arr a)) as [E|E]; [left; congruence|right; exists a; split; [auto|congruence]].
Qed.

Lemma nth_error_map_seq {A} (f : nat -> A) n v : v < n -> nth_error (map f (seq 0 n)) v = Some (f v).
Proof.
  intros H. rewrite (nth_error_nth' _ (f 0)) by (rewrite map_length, seq_length; auto).
  f_equal. rewrite (map_nth f). rewrite seq_nth; auto.
Qed.

Lemma normalise_spec n arr B : (forall v, v < n -> (arr v == B v)%Q) -> (forall v, v < n -> (0 <= B v)%Q) ->
  normalised n B (normalise n arr).
Proof.
  intros Harr Hpos. unfold normalise.
  destruct (fold_qmax arr (seq 0 n) 0%Q) as (H1 & H2 & H3).
  set (M := fold_left (fun m i => qmax m (arr i)) (seq 0 n) 0%Q) in *.
  split; [rewrite map_length, seq_length; auto|].
  destruct (Qeq_bool M 0) eqn:E.
  - left. apply Qeq_bool_iff in E. split.
    + intros v Hv. apply Qle_antisym; [|auto]. rewrite <- (Harr v Hv), <- E. apply H2. apply in_seq. lia.
    + intros v Hv. rewrite (nth_error_map_seq (fun _ => None) n v Hv). auto.
  - right. apply Qeq_bool_neq in E. destruct H3 as [H3|(m & Hm & H3)]; [rewrite H3 in E; destruct E; reflexivity|].
    apply in_seq in Hm. assert (Hmn : m < n) by lia. exists m. split; auto. split; [|split].
    + rewrite <- (Harr m Hmn), <- H3. destruct (Qle_lt_or_eq _ _ H1) as [H|H]; auto. destruct E. symmetry. auto.
    + intros v Hv. rewrite <- (Harr v Hv), <- (Harr m Hmn), <- H3. apply H2. apply in_seq. lia.
    + intros v Hv. exists (arr v / M)%Q. split.
      * rewrite (nth_error_map_seq (fun i => Some (arr i / M)%Q) n v Hv). auto.
      * rewrite (Harr v Hv), H3, (Harr m Hmn). reflexivity.
Qed.

(** The result for any list of sources. *)
Lemma centrality_sources n adj srcs : simple n adj -> (forall s, In s srcs -> s < n) ->
  exists arr, accSources n adj srcs (fun _ => 0%Q) = Ok arr /\ normalised n (betweenness n adj srcs) (normalise n arr).
Proof.
  intros Hs Hr. destruct (accSources_spec n adj (si_range _ _ Hs) (si_nodup _ _ Hs) srcs (fun _ => 0%Q) Hr) as (arr & E & H).
  exists arr. split; auto. apply normalise_spec.
  - intros v Hv. rewrite (H v Hv). ring.
  - intros. apply betweenness_nonneg.
Qed.

Lemma drawSource_in g sc rs s rs' : 0 < g_n g -> drawSource g sc rs = Ok (s, rs') -> s < g_n g /\ inScope g s sc = true.
Proof.
  intros Hn. induction rs as [|r rs IH]; simpl; [discriminate|].
  destruct (inScope g (r mod g_n g) sc) eqn:E; auto. intros H. injection H as <- _. split; auto.
  apply Nat.mod_upper_bound. lia.
Qed.

Lemma drawSources_in g sc k : forall rs l, 0 < g_n g -> drawSources g sc k rs = Ok l ->
  length l = k /\ forall s, In s l -> s < g_n g /\ inScope g s sc = true.
Proof.
  induction k as [|k IH]; intros rs l Hn H; simpl in H.
  - injection H as <-. split; [auto|intros s []].
  - apply bind_ok in H. destruct H as ((s & rs') & E1 & H). apply bind_ok in H. destruct H as (l' & E2 & H).
    injection H as <-. destruct (IH rs' l' Hn E2) as (Hl & Hi). split; [simpl; congruence|].
    intros x [<-|Hx]; auto. apply (drawSource_in g sc rs s rs' Hn E1).
Qed.

(** Full scope, all sources. *)
Lemma betweenness_full g sample rs : g_undir g = true -> simple (g_n g) (g_E g) -> 2 <= g_n g -> (1 <= sample)%Q ->
  exists l, betweennessCentrality g FULL sample rs = Ok l /\
    normalised (g_n g) (betweenness (g_n g) (g_E g) (seq 0 (g_n g))) l.
Proof.
  intros Hu Hs Hn Hq. unfold betweennessCentrality, sources. rewrite Hu. simpl.
  destruct (g_n g <? 2) eqn:E; [apply Nat.ltb_lt in E; lia|].
  apply Qle_bool_iff in Hq. rewrite Hq. cbn [bind].
  destruct (centrality_sources (g_n g) (g_E g) (seq 0 (g_n g)) Hs) as (arr & Ea & H).
  { intros s Hi. apply in_seq in Hi. lia. }
  rewrite Ea. simpl. eauto.
Qed.

(** A sample: as many sources as the product says, all of them in scope. *)
Lemma betweenness_sample g sc sample rs l : g_undir g = true -> simple (g_n g) (g_E g) -> (sample < 1)%Q ->
  (forall k, nodes g sc = Some k -> 2 <= k <= g_n g) -> nodes g sc <> None ->
  betweennessCentrality g sc sample rs = Ok l ->
  exists srcs, Z.of_nat (length srcs) = Z.max 0 (Qnum (qnat (g_n g) * sample) / Zpos (Qden (qnat (g_n g) * sample)))%Z /\
    (forall s, In s srcs -> s < g_n g /\ inScope g s sc = true) /\
    normalised (g_n g) (betweenness (g_n g) (g_E g) srcs) l.
Proof.
  intros Hu Hs Hq Hk Hnn H. unfold betweennessCentrality in H. rewrite Hu in H. simpl in H.
  destruct (nodes g sc) as [k|] eqn:En; [|congruence]. destruct (Hk k eq_refl) as (Hk2 & Hkn).
  destruct (k <? 2) eqn:E; [apply Nat.ltb_lt in E; lia|].
  apply bind_ok in H. destruct H as (srcs & Es & H). apply bind_ok in H. destruct H as (arr & Ea & H). injection H as <-.
  unfold sources in Es. destruct (Qle_bool 1 sample) eqn:Eq.
  { apply Qle_bool_iff in Eq. exfalso. apply (Qlt_not_le _ _ Hq Eq). }
  destruct (drawSources_in g sc _ rs srcs ltac:(lia) Es) as (Hl & Hin).
  exists srcs. split; [|split; auto].
  - rewrite Hl. generalize (Qnum (qnat (g_n g) * sample) / Zpos (Qden (qnat (g_n g) * sample)))%Z. intros z. lia.
  - destruct (centrality_sources (g_n g) (g_E g) srcs Hs) as (arr' & Ea' & Hn); [intros s Hi; apply Hin; auto|].
    rewrite Ea in Ea'. injection Ea' as <-. exact Hn.
Qed.

(** ** When the result is not a number *)

Lemma clique_walk n adj : (forall u v, u < n -> In v (adj u) -> v < n) -> cliques n adj ->
  forall k s t, s < n -> 0 < W adj k s t -> s = t \/ In t (adj s).
Proof.
  intros Hr Hc. induction k as [|k IH]; intros s t Hs H.
  - rewrite W_0 in H. destruct (s =? t) eqn:E; [|lia]. apply Nat.eqb_eq in E. auto.
  - rewrite W_S in H. apply list_sum_pos in H. destruct H as (u & Hu & H).
    destruct (IH u t (Hr s u Hs Hu) H) as [->|Ht]; auto.
    destruct (Nat.eq_dec s t) as [|Hne]; auto. right. apply (Hc s u t); auto.
Qed.

Lemma share_pos n adj s v t : (forall u v, u < n -> In v (adj u) -> v < n) -> s < n ->
  In v (adj s) -> In t (adj v) -> s <> t -> ~ In t (adj s) -> (0 < share n adj s t v)%Q.
Proof.
  intros Hr Hs Hv Ht Hne Hnt.
  assert (Hd : isdist adj s t 2).
  { split.
    - apply (W_add adj 1 1 s v t); apply W_edge; auto.
    - intros j Hj. destruct j as [|[|j]]; [| |lia].
      + rewrite W_0. destruct (s =? t) eqn:E; auto. apply Nat.eqb_eq in E. contradiction.
      + rewrite W_S. apply list_sum_0. intros x Hx. rewrite W_0. destruct (x =? t) eqn:E; auto.
        apply Nat.eqb_eq in E. subst x. contradiction. }
  assert (Hvd : isdist adj s v 1).
  { split; [apply W_edge; auto|]. intros j Hj. replace j with 0 by lia. rewrite W_0.
    destruct (s =? v) eqn:E; auto. apply Nat.eqb_eq in E. subst v. contradiction. }
  unfold share. rewrite (shortest_dist adj n Hr s t 2 Hs Hd). cbv zeta.
  change (0 < qnat (length (filter (existsb (Nat.eqb v)) (walks adj 2 s t))) / qnat (W adj 2 s t))%Q.
  rewrite (count_through adj s t 2 v 1 Hd Hvd) by lia. unfold Qdiv. 
  apply Qlt_shift_div_l; [apply qnat_pos; apply Hd|]. rewrite Qmult_0_l. apply qnat_pos.
  apply Nat.mul_pos_pos; apply W_edge; auto.
Qed.

Lemma cliques_zero n adj : simple n adj ->
  ((forall v, v < n -> (betweenness n adj (seq 0 n) v == 0)%Q) <-> cliques n adj).
Proof.
  intros Hs. pose proof (si_range _ _ Hs) as Hr. split.
  - intros H u v w Hu Hv Hw Hne. destruct (in_dec Nat.eq_dec w (adj u)) as [|Hn]; auto. exfalso.
    assert (Hvn : v < n) by (apply (Hr u v); auto). assert (Hwn : w < n) by (apply (Hr v w); auto).
    assert (Hvu : u <> v) by (intros ->; contradiction).
    assert (Hvw : w <> v) by (intros ->; contradiction).
    assert (Hp : (0 < betweenness n adj (seq 0 n) v)%Q).
    { unfold betweenness. apply qsum_pos.
      - intros s _. destruct (s =? v); [apply Qle_refl|]. apply qsum_nonneg. intros t _.
        destruct (t =? v); [apply Qle_refl|apply share_nonneg].
      - exists u. split; [apply in_seq; lia|]. apply Nat.eqb_neq in Hvu. rewrite Hvu. apply qsum_pos.
        + intros t _. destruct (t =? v); [apply Qle_refl|apply share_nonneg].
        + exists w. split; [apply in_seq; lia|]. apply Nat.eqb_neq in Hvw. rewrite Hvw. apply share_pos; auto. }
    rewrite (H v Hvn) in Hp. exact (Qlt_irrefl 0 Hp).
  - intros Hc v Hv. unfold betweenness. apply qsum_0. intros s Hsn. apply in_seq in Hsn.
    destruct (s =? v) eqn:Esv; [reflexivity|]. apply Nat.eqb_neq in Esv. apply qsum_0. intros t Ht. apply in_seq in Ht.
    destruct (t =? v) eqn:Etv; [reflexivity|]. apply Nat.eqb_neq in Etv. unfold share.
    assert (E : filter (existsb (Nat.eqb v)) (shortest n adj s t) = []).
    { assert (Hall : forall k, k < 2 -> isdist adj s t k -> filter (existsb (Nat.eqb v)) (shortest n adj s t) = []).
      { intros k Hk Hd. rewrite (shortest_dist adj n Hr s t k ltac:(lia) Hd).
        assert (Hno : forall p, In p (walks adj k s t) -> existsb (Nat.eqb v) p = false).
        { intros p Hp. destruct (existsb (Nat.eqb v) p) eqn:Ee; auto. exfalso. apply existsb_exists in Ee.
          destruct Ee as (x & Hx & Ex). apply Nat.eqb_eq in Ex. subst x. apply In_nth_error in Hx. destruct Hx as (i & Hi).
          destruct (walk_node adj k s t p i v Hp Hi) as (Hik & H1 & H2).
          assert (i = 0 \/ k - i = 0) as [E|E] by lia; rewrite E, W_0 in *.
          - destruct (s =? v) eqn:E2; [apply Nat.eqb_eq in E2; contradiction|lia].
          - destruct (v =? t) eqn:E2; [apply Nat.eqb_eq in E2; congruence|lia]. }
        clear - Hno. induction (walks adj k s t) as [|p l IH]; simpl; auto. rewrite (Hno p (or_introl eq_refl)).
        apply IH. intros q Hq. apply Hno. right. auto. }
      destruct (Nat.eq_dec s t) as [->|Hst].
      - apply (Hall 0); [lia|]. split; [rewrite W_0, Nat.eqb_refl; lia|lia].
      - destruct (in_dec Nat.eq_dec t (adj s)) as [Hi|Hi].
        + apply (Hall 1); [lia|]. split; [apply W_edge; auto|]. intros j Hj. replace j with 0 by lia. rewrite W_0.
          destruct (s =? t) eqn:E; auto. apply Nat.eqb_eq in E. contradiction.
        + rewrite shortest_none; [reflexivity|]. intros k. destruct (W adj k s t) eqn:E; auto. exfalso.
          destruct (clique_walk n adj Hr Hc k s t ltac:(lia) ltac:(lia)); contradiction. }
    rewrite E. simpl. unfold Qdiv. change (inject_Z 0) with 0%Q. ring.
Qed.
