(** Proofs about edges and triangles. *)
Require Import List Arith ZArith Bool Lia Sorting.Sorted Permutation FinFun.
Require Import Verif.Base Verif.Outcome Verif.ApproxLemmas Verif.GraphModel Verif.GraphSpec Verif.GraphBuild Verif.GraphProofs Verif.TriModel Verif.TriSpec.
Import ListNotations.

Lemma sorted_nth : forall l, StronglySorted lt l -> forall i j x y, nth_error l i = Some x -> nth_error l j = Some y -> i < j -> x < y.
Proof.
  induction l as [|a l IH]; intros S i j x y Hi Hj L; [destruct i; discriminate|]. inversion S as [|? ? S1 S2]; subst. destruct i as [|i], j as [|j]; try lia; cbn in Hi, Hj.
  - injection Hi as <-. rewrite Forall_forall in S2. apply S2. eapply nth_error_In; eauto.
  - eapply IH; eauto. lia.
Qed.
Lemma search_ok l b : StronglySorted lt l -> forall fuel first last, (0 <= first)%Z -> (last < Z.of_nat (length l))%Z -> (last - first < Z.of_nat fuel)%Z ->
  (forall p, nth_error l p = Some b -> (first <= Z.of_nat p <= last)%Z) -> exists r, search fuel l b first last = Ok r /\ (r = true <-> In b l).
Proof.
  intros S. induction fuel as [|fuel IH]; intros first last H0 HL HF HP; cbn [search]; destruct (Z.ltb_spec last first) as [HE|HE]; try lia.
  - exists false. split; auto. split; [discriminate|]. intros H. apply In_nth_error in H. destruct H as (p & Hp). specialize (HP p Hp). lia.
  - exists false. split; auto. split; [discriminate|]. intros H. apply In_nth_error in H. destruct H as (p & Hp). specialize (HP p Hp). lia.
  - pose proof (Z.div_mod (first + last) 2 ltac:(lia)) as DM. pose proof (Z.mod_pos_bound (first + last) 2 ltac:(lia)) as MB. set (mid := ((first + last) / 2)%Z) in *.
    destruct (Z.ltb_spec mid 0); [lia|]. destruct (nth_error l (Z.to_nat mid)) as [x|] eqn:EX; [|apply nth_error_None in EX; lia].
    destruct (Nat.ltb_spec x b) as [L1|L1]; [|destruct (Nat.ltb_spec b x) as [L2|L2]].
    + apply IH; try lia. intros p Hp. specialize (HP p Hp). destruct (Nat.lt_trichotomy p (Z.to_nat mid)) as [Q|[Q|Q]]; [pose proof (sorted_nth l S _ _ _ _ Hp EX Q); lia|rewrite Q in Hp; rewrite Hp in EX; injection EX; lia|lia].
    + apply IH; try lia. intros p Hp. specialize (HP p Hp). destruct (Nat.lt_trichotomy p (Z.to_nat mid)) as [Q|[Q|Q]]; [lia|rewrite Q in Hp; rewrite Hp in EX; injection EX; lia|pose proof (sorted_nth l S _ _ _ _ EX Hp Q); lia].
    + exists true. split; auto. split; auto. intros _. assert (x = b) as <- by lia. eapply nth_error_In; eauto.
Qed.
Lemma search_list l b : StronglySorted lt l -> exists r, search (length l) l b 0 (Z.of_nat (length l) - 1) = Ok r /\ (r = true <-> In b l).
Proof. intros S. apply search_ok; auto; try lia. intros p Hp. assert (p < length l) by (apply nth_error_Some; congruence). lia. Qed.
Lemma sort_edges g a : honest g -> a < g_n g -> StronglySorted lt (g_E (sortEdgeList g) a) /\ forall b, In b (g_E (sortEdgeList g) a) <-> In b (g_E g a).
Proof.
  intros H Ha. unfold sortEdgeList. destruct (g_sorted g) eqn:E; [split; [apply H; auto|tauto]|]. cbn [g_E]. destruct (Nat.ltb_spec a (g_n g)); [|lia]. split; [apply sortUnique_sorted|intros b; apply sortUnique_In].
Qed.
Lemma edge_ok g a b : honest g -> a < g_n g -> exists r, edge g a b = Ok (r, sortEdgeList g) /\ (r = true <-> In b (g_E g a)).
Proof.
  intros H Ha. destruct (sort_edges g a H Ha) as (S & I). destruct (search_list _ b S) as (r & E & R). exists r. unfold edge. rewrite E. cbn [bind]. split; auto. rewrite R. apply I.
Qed.
Lemma edge_slow_ok g a b : edgeSlow g a b = true <-> In b (g_E g a).
Proof.
  unfold edgeSlow. induction (g_E g a) as [|x l IH]; cbn; [split; [discriminate|intros []]|]. destruct (Nat.eqb_spec x b); [tauto|]. rewrite IH. split; [auto|intros [G|G]; [contradiction|auto]].
Qed.

Section Tri.
Variable g : graph.
Hypothesis F : finished g.
Let n := g_n g.
Lemma hon : honest g.
Proof. intros _ a Ha. apply (fi_order _ F). auto. Qed.
Lemma srt : sortEdgeList g = g.
Proof. unfold sortEdgeList. rewrite (fi_sorted _ F). auto. Qed.
Lemma rng u v : u < n -> In v (g_E g u) -> v < n.
Proof. apply (si_range _ _ (fi_simple _ F)). Qed.
Definition adjb (x y : nat) : bool := existsb (Nat.eqb y) (g_E g x).
Lemma adjb_spec x y : adjb x y = true <-> In y (g_E g x).
Proof. unfold adjb. rewrite existsb_exists. split; [intros (z & H & E); apply Nat.eqb_eq in E; subst; auto|intros H; exists y; split; auto; apply Nat.eqb_refl]. Qed.
Lemma inner_ok u x : u < n -> x < n -> In x (g_E g u) -> forall ys k, (forall y, In y ys -> In y (g_E g u) /\ x < y) -> tri_inner g u x ys k = Ok (k + length (filter (adjb x) ys), g).
Proof.
  intros HU HX HXU. induction ys as [|y ys IH]; intros k HY; [cbn; rewrite Nat.add_0_r; auto|]. cbn [tri_inner]. destruct (HY y (or_introl eq_refl)) as (YU & YX). assert (YN : y < n) by (apply (rng u); auto).
  destruct (edge_ok g x y hon HX) as (r & E & R). rewrite srt in E. rewrite E. cbn [bind].
  assert (X2 : exists e2, (if r then Ok (true, g) else edge g y x) = Ok (e2, g) /\ e2 = adjb x y).
  { destruct r; [exists true; split; auto; symmetry; apply adjb_spec, R; auto|]. destruct (edge_ok g y x hon YN) as (r2 & E2 & R2). rewrite srt in E2. exists r2. split; auto.
    destruct (adjb x y) eqn:EA; [apply adjb_spec in EA; apply R in EA; discriminate|]. destruct r2; auto. assert (HI : In x (g_E g y)) by (apply R2; auto). apply (si_sym _ _ (fi_simple _ F)) in HI; auto. apply R in HI. discriminate. }
  destruct X2 as (e2 & -> & ->). cbn [bind]. rewrite IH by (intros z Hz; apply HY; right; auto). cbn [filter].
  assert (B1 : (x =? u) = false) by (apply Nat.eqb_neq; intros ->; apply (fi_irr _ F u); auto). assert (B2 : (y =? u) = false) by (apply Nat.eqb_neq; intros ->; apply (fi_irr _ F u); auto). assert (B3 : (x =? y) = false) by (apply Nat.eqb_neq; lia).
  rewrite B1, B2, B3. cbn [negb]. rewrite !andb_true_r. destruct (adjb x y); cbn [length]; do 2 f_equal; lia.
Qed.
Fixpoint opairs (xs : list nat) : list (nat * nat) := match xs with [] => [] | x :: r => map (pair x) (filter (adjb x) r) ++ opairs r end.
Lemma outer_ok u : u < n -> forall xs k, StronglySorted lt xs -> (forall x, In x xs -> In x (g_E g u)) -> tri_outer g u xs k = Ok (k + length (opairs xs), g).
Proof.
  intros HU. induction xs as [|x xs IH]; intros k S HX; [cbn; rewrite Nat.add_0_r; auto|]. inversion S as [|? ? S1 S2]; subst. rewrite Forall_forall in S2. cbn [tri_outer]. assert (XU : In x (g_E g u)) by (apply HX; left; auto).
  rewrite (inner_ok u x HU (rng u x HU XU) XU) by (intros y Hy; split; [apply HX; right; auto|apply S2; auto]). cbn [bind]. rewrite IH by (auto; intros y Hy; apply HX; right; auto). cbn [opairs]. rewrite app_length, map_length. do 2 f_equal. lia.
Qed.
Lemma opairs_spec : forall xs, StronglySorted lt xs -> NoDup (opairs xs) /\ forall x y, In (x, y) (opairs xs) <-> x < y /\ In x xs /\ In y xs /\ In y (g_E g x).
Proof.
  induction xs as [|a xs IH]; intros S; [split; [constructor|intros x y; cbn; tauto]|]. inversion S as [|? ? S1 S2]; subst. rewrite Forall_forall in S2. destruct (IH S1) as (A & B). cbn [opairs].
  assert (M : forall x y, In (x, y) (map (pair a) (filter (adjb a) xs)) <-> x = a /\ In y xs /\ In y (g_E g a)).
  { intros x y. rewrite in_map_iff. split; [intros (z & E & H); injection E as <- <-; apply filter_In in H; rewrite adjb_spec in H; tauto|intros (-> & H1 & H2); exists y; split; auto; apply filter_In; rewrite adjb_spec; auto]. }
  split.
  - apply nodup_app; auto.
    + apply Injective_map_NoDup; [intros x y H; injection H; auto|]. apply NoDup_filter. clear - S1. induction S1 as [|x l S IH H]; constructor; auto. rewrite Forall_forall in H. intros G. specialize (H x G). lia.
    + intros (x, y) H1 H2. apply M in H1. destruct H1 as (-> & _). apply B in H2. destruct H2 as (_ & H2 & _). specialize (S2 a H2). lia.
  - intros x y. rewrite in_app_iff, M, B. cbn [In]. split.
    + intros [(-> & H1 & H2)|(H1 & H2 & H3 & H4)]; [split; [apply S2; auto|tauto]|tauto].
    + intros (H1 & [<-|H2] & [<-|H3] & H4); [lia|left; auto|specialize (S2 x H2); lia|right; auto].
Qed.
Definition around (u : nat) : list (nat * nat) := opairs (g_E g u).
Definition deg2 (u : nat) : nat := length (g_E g u) * (length (g_E g u) - 1) / 2.
Lemma around_ok u : u < n -> trianglesWedgesAround g u = Ok (length (around u), deg2 u, g).
Proof.
  intros HU. unfold trianglesWedgesAround. rewrite (fi_undir _ F), (fi_loop _ F u HU). rewrite outer_ok; auto. apply (fi_order _ F). auto.
Qed.
Lemma sum_ok : forall us k w, (forall u, In u us -> u < n) -> tri_sum g us k w = Ok (k + list_sum (map (fun u => length (around u)) us), w + list_sum (map deg2 us), g).
Proof.
  induction us as [|u us IH]; intros k w H; cbn [tri_sum map]; [cbn; rewrite !Nat.add_0_r; auto|]. rewrite around_ok by (apply H; left; auto). cbn [bind]. rewrite IH by (intros v Hv; apply H; right; auto).
  unfold list_sum. cbn [fold_right]. do 2 f_equal. f_equal; lia.
Qed.
Definition all : list (nat * (nat * nat)) := flat_map (fun u => map (pair u) (around u)) (seq 0 n).
Lemma all_in u x y : In (u, (x, y)) all <-> u < n /\ x < y /\ In x (g_E g u) /\ In y (g_E g u) /\ In y (g_E g x).
Proof.
  unfold all. rewrite in_flat_map. split.
  - intros (v & Hv & H). apply in_seq in Hv. apply in_map_iff in H. destruct H as (q & E & H). injection E as -> ->. apply (opairs_spec (g_E g u)) in H; [|apply (fi_order _ F); unfold n in *; lia]. split; [lia|tauto].
  - intros (Hu & H). exists u. split; [apply in_seq; lia|]. apply in_map. apply (opairs_spec (g_E g u)); [apply (fi_order _ F); auto|tauto].
Qed.
Lemma all_nodup : NoDup all /\ length all = list_sum (map (fun u => length (around u)) (seq 0 n)).
Proof.
  unfold all. assert (H : forall u, In u (seq 0 n) -> u < n) by (intros u Hu; apply in_seq in Hu; lia). revert H. pose proof (seq_NoDup n 0) as ND. induction ND as [|u us N1 N2 IH]; intros H; [split; [constructor|auto]|]. destruct IH as (A & B); [intros v Hv; apply H; right; auto|]. cbn [flat_map map]. split.
  - apply nodup_app; auto.
    + apply Injective_map_NoDup; [intros x y E; injection E; auto|]. apply (opairs_spec (g_E g u)). apply (fi_order _ F), H. left. auto.
    + intros (v, q) H1 H2. apply in_map_iff in H1. destruct H1 as (q1 & E1 & _). injection E1 as <- _. apply in_flat_map in H2. destruct H2 as (v & Hv & H2). apply in_map_iff in H2. destruct H2 as (q2 & E2 & _). injection E2 as -> _. contradiction.
  - rewrite app_length, map_length, B. reflexivity.
Qed.
Definition first (t : nat * (nat * nat)) : bool := fst t <? fst (snd t).
Definition t2 (t : nat * (nat * nat)) : nat * (nat * nat) := (fst (snd t), (fst t, snd (snd t))).
Definition t3 (t : nat * (nat * nat)) : nat * (nat * nat) := (snd (snd t), (fst t, fst (snd t))).
Lemma sym x y : x < n -> In y (g_E g x) -> In x (g_E g y).
Proof. apply (si_sym _ _ (fi_simple _ F)). Qed.
Lemma firsts a b c : In (a, (b, c)) (filter first all) <-> a < b /\ b < c /\ c < n /\ In b (g_E g a) /\ In c (g_E g a) /\ In c (g_E g b).
Proof.
  rewrite filter_In, all_in. unfold first. cbn [fst snd]. rewrite Nat.ltb_lt. split.
  - intros ((H1 & H2 & H3 & H4 & H5) & H6). pose proof (rng a c H1 H4). tauto.
  - intros (H1 & H2 & H3 & H4 & H5 & H6). split; auto. split; [lia|auto].
Qed.
Lemma thrice : length all = 3 * length (filter first all).
Proof.
  set (T := filter first all). assert (P : Permutation all (T ++ map t2 T ++ map t3 T)).
  { destruct all_nodup as (ND & _). assert (NT : NoDup T) by (apply NoDup_filter; auto).
    assert (I2 : forall u x y, In (u, (x, y)) (map t2 T) <-> In (x, (u, y)) T). { intros u x y. rewrite in_map_iff. split; [intros ((a, (b, c)) & E & H); unfold t2 in E; cbn in E; injection E as -> -> ->; auto|intros H; exists (x, (u, y)); auto]. }
    assert (I3 : forall u x y, In (u, (x, y)) (map t3 T) <-> In (x, (y, u)) T). { intros u x y. rewrite in_map_iff. split; [intros ((a, (b, c)) & E & H); unfold t3 in E; cbn in E; injection E as -> -> ->; auto|intros H; exists (x, (y, u)); auto]. }
    apply NoDup_Permutation; auto.
    - apply nodup_app; auto; [apply nodup_app|].
      + apply Injective_map_NoDup; auto. intros (a, (b, c)) (a', (b', c')) E. unfold t2 in E. cbn in E. injection E as -> -> ->. auto.
      + apply Injective_map_NoDup; auto. intros (a, (b, c)) (a', (b', c')) E. unfold t3 in E. cbn in E. injection E as -> -> ->. auto.
      + intros (u, (x, y)) H1 H2. apply I2, firsts in H1. apply I3, firsts in H2. lia.
      + intros (u, (x, y)) H1 H2. apply firsts in H1. apply in_app_iff in H2. destruct H2 as [H2|H2]; [apply I2, firsts in H2; lia|apply I3, firsts in H2; lia].
    - intros (u, (x, y)). rewrite !in_app_iff, I2, I3. unfold T. rewrite !firsts, all_in. split.
      + intros (H1 & H2 & H3 & H4 & H5). pose proof (rng u x H1 H3) as HX. pose proof (rng u y H1 H4) as HY. pose proof (sym u x H1 H3). pose proof (sym u y H1 H4).
        assert (u <> x) by (intros <-; apply (fi_irr _ F u); auto). assert (u <> y) by (intros <-; apply (fi_irr _ F u); auto).
        destruct (Nat.lt_trichotomy u x) as [Q|[Q|Q]]; [left; tauto|contradiction|]. destruct (Nat.lt_trichotomy u y) as [R|[R|R]]; [right; left; tauto|contradiction|right; right; tauto].
      + intros [(H1 & H2 & H3 & H4 & H5 & H6)|[(H1 & H2 & H3 & H4 & H5 & H6)|(H1 & H2 & H3 & H4 & H5 & H6)]].
        * split; [lia|tauto].
        * assert (x < n) by lia. pose proof (sym x u ltac:(auto) H4). split; [lia|]. split; [lia|]. tauto.
        * assert (X : x < n) by lia. assert (Y : y < n) by lia. pose proof (sym x u X H5). pose proof (sym y u Y H6). split; [lia|]. split; [lia|]. tauto. }
  rewrite (Permutation_length P), !app_length, !map_length. lia.
Qed.
Lemma triangles_ok : exists m, triangles g = Ok m /\ triangles_in (g_n g) (g_E g) m.
Proof.
  exists (length (filter first all)). unfold triangles. rewrite sum_ok by (intros u Hu; apply in_seq in Hu; unfold n; lia). cbn [bind]. split.
  - destruct all_nodup as (_ & L). fold n. rewrite <- L, thrice. cbn [plus]. f_equal. rewrite Nat.mul_comm. apply Nat.div_mul. lia.
  - exists (filter first all). split; [apply NoDup_filter, all_nodup|]. split; auto. intros a b c. apply firsts.
Qed.
Lemma wedges_ok : wedges g = Ok (list_sum (map deg2 (seq 0 (g_n g)))).
Proof. unfold wedges. rewrite sum_ok by (intros u Hu; apply in_seq in Hu; unfold n; lia). reflexivity. Qed.
Lemma around_spec u : u < g_n g -> exists k w, trianglesWedgesAround g u = Ok (k, w, g) /\ triangles_at (g_E g) u k /\ 2 * w = length (g_E g u) * (length (g_E g u) - 1).
Proof.
  intros HU. exists (length (around u)), (deg2 u). split; [apply around_ok; auto|]. destruct (opairs_spec (g_E g u)) as (A & B); [apply (fi_order _ F); auto|]. split; [exists (around u); auto|].
  unfold deg2. set (d := length (g_E g u)). assert (EV : exists q, d * (d - 1) = q * 2). { clearbody d. clear. induction d as [|d (q & IH)]; [exists 0; auto|]. exists (q + d). destruct d as [|d]; [cbn in *; lia|]. cbn [Nat.sub] in *. rewrite Nat.sub_0_r in *. nia. }
  destruct EV as (q & EQ). rewrite EQ, Nat.div_mul by lia. lia.
Qed.
End Tri.
Lemma init_finished rtl nvars cls g : usable nvars cls -> plain cls -> init_graph rtl false nvars cls = Ok g -> finished g.
Proof.
  intros HU HP E. destruct (init_full rtl nvars cls HU) as (g' & E' & U). rewrite E in E'. injection E' as <-. constructor.
  - eapply undirected_simple; eauto.
  - eapply plain_irr; eauto.
  - intros u Hu. destruct (g_loop g u) eqn:L; auto. apply (u_loop _ _ U) in L. destruct L as (x & T & _). exfalso. apply (plain_together cls x HP T).
  - apply (u_undir _ _ U).
  - unfold init_graph in E. destruct (addClauses_holds nvars rtl cls (emptyGraph (Nat.max 1 nvars)) [] (empty_holds nvars)) as (g0 & E0 & H); [intros c Hc; apply (HU c Hc)|intros c l Hc Hl; apply (HU c Hc); auto|]. rewrite E0 in E. cbn in E. injection E as <-. unfold makeUndirected. rewrite (h_undir _ _ _ H). reflexivity.
  - apply (u_sorted _ _ U).
Qed.
Lemma variables_ok rtl nvars cls : usable nvars cls -> plain cls -> exists g m, init_graph rtl false nvars cls = Ok g /\
  interaction cls (g_n g) (revMapNode g) (g_E g) /\ triangles g = Ok m /\ triangles_in (g_n g) (g_E g) m.
Proof.
  intros HU HP. destruct (graph_spec rtl nvars cls HU) as (g & E & I & _). destruct (triangles_ok g (init_finished rtl nvars cls g HU HP E)) as (m & T & S). exists g, m. auto.
Qed.
Lemma edges_ok g a b : honest g -> a < g_n g ->
  exists r g', edge g a b = Ok (r, g') /\ (r = true <-> In b (g_E g a)) /\ (edgeSlow g a b = true <-> In b (g_E g a)) /\
    g_n g' = g_n g /\ forall c d, c < g_n g -> (In d (g_E g' c) <-> In d (g_E g c)).
Proof.
  intros H Ha. destruct (edge_ok g a b H Ha) as (r & E & R). exists r, (sortEdgeList g). split; auto. split; auto. split; [apply edge_slow_ok|]. split; [unfold sortEdgeList; destruct (g_sorted g); auto|]. intros c d Hc. apply (sort_edges g c H Hc).
Qed.
Lemma added_ok g u v : u < g_max g -> v < g_max g -> honest (addEdge g u v) /\ In v (g_E (addEdge g u v) u).
Proof.
  intros Hu Hv. unfold addEdge. destruct (Nat.leb_spec (g_max g) u); [lia|]. destruct (Nat.leb_spec (g_max g) v); [lia|]. cbn [orb]. split; [intros E; discriminate|]. cbn [g_E]. unfold upd. rewrite Nat.eqb_refl. apply in_app_iff. right. left. auto.
Qed.
Lemma wedges_spec g : finished g -> exists w, wedges g = Ok w /\ 2 * w = list_sum (map (fun u => length (g_E g u) * (length (g_E g u) - 1)) (seq 0 (g_n g))).
Proof.
  intros F. eexists. split; [apply wedges_ok; auto|]. assert (H : forall u, In u (seq 0 (g_n g)) -> u < g_n g) by (intros u Hu; apply in_seq in Hu; lia). revert H. generalize (seq 0 (g_n g)). induction l as [|u l IH]; intros H; auto. cbn [map]. unfold list_sum in *. cbn [fold_right]. rewrite <- IH by (intros v Hv; apply H; right; auto).
  destruct (around_spec g F u (H u (or_introl eq_refl))) as (k & w & E & _ & W). rewrite (around_ok g F u) in E by (apply H; left; auto). injection E as _ <-. lia.
Qed.
