(** Lemmas for C61 and C62: centralities of the graph of the clauses, and what VSIDSC does with them. *)
From Coq Require Import List Arith Bool Lia QArith Relations.
Import ListNotations.
From Verif Require Import Base Outcome GraphModel GraphSpec BetweenWalks BetweenDep BetweenBfs BetweenProofs GraphBuild GraphWcc GraphProofs.
Open Scope nat_scope.

Lemma two_nodes g cls x y : undirected g cls -> together cls x y -> x <> y -> 2 <= g_n g.
Proof.
  intros U Ht Hne. pose proof (undirected_interaction g cls U) as IA.
  assert (L1 : linked cls x) by (apply linked_pairs; exists y; apply together_pairs; auto).
  assert (L2 : linked cls y) by (apply linked_pairs; exists x; apply together_pairs; apply together_sym; auto).
  apply (in_onto _ _ _ _ IA) in L1. apply (in_onto _ _ _ _ IA) in L2.
  destruct L1 as (i & Hi & Ei). destruct L2 as (j & Hj & Ej).
  destruct (Nat.eq_dec i j) as [->|]; [congruence|lia].
Qed.

Lemma centrality_full rtl nvars cls sample rs x y : usable nvars cls -> together cls x y -> x <> y -> (1 <= sample)%Q ->
  exists g l, init_graph rtl false nvars cls = Ok g /\ interaction cls (g_n g) (revMapNode g) (g_E g) /\
    betweennessCentrality g FULL sample rs = Ok l /\
    normalised (g_n g) (betweenness (g_n g) (g_E g) (seq 0 (g_n g))) l.
Proof.
  intros Hu Ht Hne Hs. destruct (init_full rtl nvars cls Hu) as (g & E & U).
  pose proof (undirected_simple g cls U) as Hsi.
  destruct (betweenness_full g sample rs (u_undir _ _ U) Hsi (two_nodes g cls x y U Ht Hne) Hs) as (l & El & Hl).
  exists g, l. split; auto. split; [apply undirected_interaction; auto|auto].
Qed.

Lemma normalised_nan n B l : 0 < n -> normalised n B l ->
  ((forall v, v < n -> nth_error l v = Some None) <-> (forall v, v < n -> (B v == 0)%Q)).
Proof.
  intros Hn (Hl & [(H0 & HN)|(m & Hm & Hp & _ & Hv)]); [tauto|]. split; intros H.
  - exfalso. destruct (Hv m Hm) as (q & Eq & _). rewrite (H m Hm) in Eq. discriminate.
  - exfalso. rewrite (H m Hm) in Hp. apply (Qlt_irrefl 0 Hp).
Qed.

Lemma centrality_nan rtl nvars cls sample rs x y g l : usable nvars cls -> together cls x y -> x <> y -> (1 <= sample)%Q ->
  init_graph rtl false nvars cls = Ok g -> betweennessCentrality g FULL sample rs = Ok l ->
  ((forall i, i < g_n g -> nth_error l i = Some None) <-> cliques (g_n g) (g_E g)).
Proof.
  intros Hu Ht Hne Hs Eg El. destruct (init_full rtl nvars cls Hu) as (g' & E & U).
  rewrite Eg in E. injection E as <-. pose proof (two_nodes g cls x y U Ht Hne) as H2.
  destruct (centrality_full rtl nvars cls sample rs x y Hu Ht Hne Hs) as (g' & l' & E1 & IA & E2 & HN).
  rewrite Eg in E1. injection E1 as <-. rewrite El in E2. injection E2 as <-.
  rewrite (normalised_nan (g_n g) _ _ ltac:(lia) HN). apply cliques_zero. apply (undirected_simple g cls U).
Qed.

(** ** Both scopes *)
Lemma plain_two g cls x : undirected g cls -> plain cls -> linked cls x -> 2 <= g_n g.
Proof.
  intros U Hp Hl. apply linked_pairs in Hl. destruct Hl as (y & Hy). apply together_pairs in Hy.
  apply (two_nodes g cls x y U Hy). intros ->. apply (plain_together cls y Hp Hy).
Qed.

Definition sc (lwcc : bool) : scope := if lwcc then LWCC else FULL.

Lemma component_two g cls C : undirected g cls -> plain cls -> component (g_n g) (g_E g) C -> 2 <= length C <= g_n g.
Proof.
  intros U Hp (N1 & N2 & N3 & N4). destruct C as [|u r] eqn:Ec; [congruence|]. rewrite <- Ec in *.
  assert (Hu : In u C) by (rewrite Ec; left; auto). pose proof (N2 u Hu) as Hun.
  destruct (undirected_other g cls U Hp u Hun) as (v & Hv & Hne).
  assert (Hvn : v < g_n g) by (apply (si_range _ _ (undirected_simple g cls U) u v); auto).
  assert (HvC : In v C) by (apply (N4 u v Hu Hvn); apply rt_step; auto). split.
  - rewrite Ec in *. destruct HvC as [E|HvC]; [congruence|]. destruct r; [destruct HvC|simpl; lia].
  - rewrite <- (seq_length (g_n g) 0). apply NoDup_incl_length; auto. intros a Ha. apply in_seq. pose proof (N2 a Ha). lia.
Qed.

(** What holds of the graph for both settings of the option. *)
Lemma built lwcc rtl nvars cls x : usable nvars cls -> plain cls -> linked cls x ->
  exists g0 g k m, init_graph rtl lwcc nvars cls = Ok g /\ undirected g0 cls /\
    g_n g = g_n g0 /\ g_E g = g_E g0 /\ g_keys g = g_keys g0 /\ g_undir g = true /\
    nodes g (sc lwcc) = Some k /\ 2 <= k <= g_n g /\ edges g (sc lwcc) = Some m /\ 0 < m.
Proof.
  intros Hu Hp Hl. destruct lwcc.
  - destruct (init_lwcc rtl nvars cls x Hu Hp Hl) as (g & w & E & U & E0 & A & B & C & D).
    destruct (A _ C) as (A1 & A2 & A3). pose proof (component_two g cls _ U Hp A1) as H2.
    exists g, (withWcc g w), (w_nodes w (w_largest w)), (w_edges w (w_largest w)).
    split; auto. split; auto. split; auto. split; auto. split; auto. split; [apply (u_undir _ _ U)|].
    split; auto. split; [rewrite A2; simpl; lia|]. split; auto. rewrite A3. apply list_sum_pos.
    destruct A1 as (_ & N2 & N3 & _). destruct (withId g (w_id w) (w_largest w)) as [|u r] eqn:Ec; [congruence|].
    exists u. split; [left; auto|]. destruct (undirected_other g cls U Hp u) as (v & Hv & _); [apply N2; left; auto|].
    destruct (g_E g u); [destruct Hv|simpl; lia].
  - destruct (init_full rtl nvars cls Hu) as (g & E & U). destruct (m_pos g cls x U Hl) as (Hm & Hn).
    pose proof (plain_two g cls x U Hp Hl) as H2. exists g, g, (g_n g), (g_m g). simpl.
    split; auto. split; auto. split; auto. split; auto. split; auto. split; [apply (u_undir _ _ U)|].
    split; auto.
Qed.

Lemma revMap_keys g g0 : g_keys g = g_keys g0 -> revMapNode g = revMapNode g0.
Proof. unfold revMapNode. intros ->. auto. Qed.

Lemma built_interaction lwcc rtl nvars cls x g : usable nvars cls -> plain cls -> linked cls x ->
  init_graph rtl lwcc nvars cls = Ok g -> interaction cls (g_n g) (revMapNode g) (g_E g).
Proof.
  intros Hu Hp Hl E. destruct (built lwcc rtl nvars cls x Hu Hp Hl) as (g0 & g1 & k & m & E1 & U & A & B & C & _).
  rewrite E in E1. injection E1 as <-. rewrite (revMap_keys g g0 C), A, B. apply undirected_interaction. auto.
Qed.

Lemma centrality_sampled lwcc rtl nvars cls sample rs x g l : usable nvars cls -> plain cls -> linked cls x ->
  (sample < 1)%Q -> init_graph rtl lwcc nvars cls = Ok g -> betweennessCentrality g (sc lwcc) sample rs = Ok l ->
  interaction cls (g_n g) (revMapNode g) (g_E g) /\
  exists srcs, Z.of_nat (length srcs) = Z.max 0 (Qnum (qnat (g_n g) * sample) / Zpos (Qden (qnat (g_n g) * sample)))%Z /\
    (forall s, In s srcs -> s < g_n g /\ inScope g s (sc lwcc) = true) /\
    normalised (g_n g) (betweenness (g_n g) (g_E g) srcs) l.
Proof.
  intros Hu Hp Hl Hs Eg El. split; [apply (built_interaction lwcc rtl nvars cls x); auto|].
  destruct (built lwcc rtl nvars cls x Hu Hp Hl) as (g0 & g1 & k & m & E1 & U & A & B & C & D & F & G & _).
  rewrite Eg in E1. injection E1 as <-.
  apply (betweenness_sample g (sc lwcc) sample rs); auto.
  - rewrite A, B. apply (undirected_simple g0 cls U).
  - intros k' Ek. rewrite F in Ek. injection Ek as <-. auto.
  - congruence.
Qed.

(** With the full sample and the option for the largest component the sources are the first nodes. *)
Lemma centrality_lwcc rtl nvars cls sample rs x : usable nvars cls -> plain cls -> linked cls x ->
  (1 <= sample)%Q ->
  exists g k l, init_graph rtl true nvars cls = Ok g /\ nodes g LWCC = Some k /\
    betweennessCentrality g LWCC sample rs = Ok l /\
    normalised (g_n g) (betweenness (g_n g) (g_E g) (seq 0 k)) l.
Proof.
  intros Hu Hp Hl Hs.
  destruct (built true rtl nvars cls x Hu Hp Hl) as (g0 & g & k & m & E1 & U & A & B & C & D & F & G & _).
  change (sc true) with LWCC in F. exists g, k.
  destruct (centrality_sources (g_n g) (g_E g) (seq 0 k)) as (arr & Ea & HN).
  { rewrite A, B. apply (undirected_simple g0 cls U). }
  { intros s Hi. apply in_seq in Hi. lia. }
  exists (normalise (g_n g) arr). split; auto. split; auto. split; auto.
  unfold betweennessCentrality, sources. rewrite D, F. cbn [negb orb].
  destruct (k <? 2) eqn:E2; [apply Nat.ltb_lt in E2; lia|].
  apply Qle_bool_iff in Hs. rewrite Hs. cbn [bind]. rewrite Ea. reflexivity.
Qed.

(** ** Activities *)
Lemma setN_length {A} i (x : A) l : i < length l -> length (setN i x l) = length l.
Proof.
  intros H. unfold setN. rewrite app_length. cbn [length]. rewrite firstn_length, skipn_length. lia.
Qed.

Lemma setN_same {A} i (x : A) l : i < length l -> nth_error (setN i x l) i = Some x.
Proof.
  intros H. unfold setN. rewrite nth_error_app2; rewrite firstn_length; [|lia].
  replace (i - Nat.min i (length l)) with 0 by lia. auto.
Qed.

Lemma setN_other {A} i j (x : A) l : i < length l -> j <> i -> nth_error (setN i x l) j = nth_error l j.
Proof.
  intros H Hne. rewrite <- (firstn_skipn i l) at 2. unfold setN.
  destruct (Nat.lt_ge_cases j i) as [Hj|Hj].
  - rewrite !nth_error_app1 by (rewrite firstn_length; lia). auto.
  - rewrite !nth_error_app2 by (rewrite firstn_length; lia). rewrite firstn_length.
    replace (j - Nat.min i (length l)) with (S (j - i - 1)) by lia. cbn [nth_error].
    replace (skipn (S i) l) with (skipn 1 (skipn i l)).
    + destruct (skipn i l); [destruct (j - i - 1); auto|auto].
    + clear. revert i. induction l as [|a l IH]; intros [|i]; auto. simpl skipn at 2. rewrite IH. auto.
Qed.

Lemma keyPos_app_none K ext x p : keyPos K x = None -> keyPos (K ++ ext) x = Some p -> length K <= p.
Proof.
  revert p. induction K as [|k K IH]; simpl; intros p H E; [lia|]. destruct (k =? x); [discriminate|].
  destruct (keyPos K x) eqn:E1; [discriminate|]. destruct (keyPos (K ++ ext) x) as [q|] eqn:E2; [|discriminate].
  injection E as <-. specialize (IH q eq_refl eq_refl). lia.
Qed.

Lemma mapNode_in g K ext x p : g_keys g = K ++ ext -> keyPos K x = Some p -> mapNode g x = (g, p).
Proof. intros E H. unfold mapNode. rewrite E, (keyPos_app _ _ _ _ H). auto. Qed.

Lemma mapNode_out g K ext x : g_keys g = K ++ ext -> keyPos K x = None ->
  exists g' ext' p, mapNode g x = (g', p) /\ g_keys g' = K ++ ext' /\ length K <= p.
Proof.
  intros E H. unfold mapNode. rewrite E. destruct (keyPos (K ++ ext) x) as [p|] eqn:Ep.
  - exists g, ext, p. split; auto. split; auto. apply (keyPos_app_none K ext x p H Ep).
  - eexists. exists (ext ++ [x]), (length (K ++ ext)). split; [reflexivity|]. split.
    + simpl. rewrite app_assoc. auto.
    + rewrite app_length. lia.
Qed.

Lemma updActs_spec factor cent K : length cent = length K -> forall vs g act ext,
  g_keys g = K ++ ext -> NoDup vs -> (forall v, In v vs -> v < length act) ->
  exists g' act' ext', updActs factor g cent act vs = (g', act') /\ g_keys g' = K ++ ext' /\ length act' = length act /\
    (forall x, ~ In x vs \/ keyPos K x = None -> nth_error act' x = nth_error act x) /\
    (forall x p, In x vs -> keyPos K x = Some p -> nth_error act' x = Some (nmul (nth p cent None) (qnat factor))).
Proof.
  intros Hc. induction vs as [|v r IH]; intros g act ext Hk Hn Hv.
  - exists g, act, ext. simpl. split; auto. split; auto. split; auto. split; auto. intros x p [].
  - inversion Hn as [|? ? Hnv Hnr]; subst. simpl. destruct (keyPos K v) as [p|] eqn:Ep.
    + rewrite (mapNode_in g K ext v p Hk Ep). pose proof (keyPos_lt _ _ _ Ep) as Hlt. rewrite Hc.
      destruct (Nat.ltb_spec p (length K)) as [_|]; [|lia].
      assert (Hvl : v < length act) by (apply Hv; left; auto).
      destruct (IH g (setN v (nmul (nth p cent None) (qnat factor)) act) ext Hk Hnr) as (g' & act' & ext' & E & A & B & C & D).
      { intros u Hu. rewrite setN_length; auto. apply Hv. right; auto. }
      exists g', act', ext'. split; auto. split; auto. split; [rewrite B; apply setN_length; auto|]. split.
      * intros x Hx. rewrite C by (destruct Hx as [Hx|Hx]; [left; intros H; apply Hx; right; auto|auto]).
        apply setN_other; auto. intros ->. destruct Hx as [Hx|Hx]; [apply Hx; left; auto|congruence].
      * intros x q [<-|Hx] Eq.
        -- rewrite C by auto. rewrite setN_same by auto. congruence.
        -- apply D; auto.
    + destruct (mapNode_out g K ext v Hk Ep) as (g1 & ext1 & p & -> & Hk1 & Hp).
      destruct (Nat.ltb_spec p (length cent)) as [|_]; [lia|].
      destruct (IH g1 act ext1 Hk1 Hnr) as (g' & act' & ext' & E & A & B & C & D).
      { intros u Hu. apply Hv. right; auto. }
      exists g', act', ext'. split; auto. split; auto. split; auto. split.
      * intros x Hx. apply C. destruct Hx as [Hx|Hx]; [left; intros H; apply Hx; right; auto|auto].
      * intros x q [<-|Hx] Eq; [congruence|]. apply D; auto.
Qed.

Lemma cent_length g sc0 sample rs l : betweennessCentrality g sc0 sample rs = Ok l -> length l = g_n g.
Proof.
  unfold betweennessCentrality. destruct (_ || _).
  - intros H. injection H as <-. apply repeat_length.
  - intros H. apply bind_ok in H. destruct H as (s & _ & H). apply bind_ok in H. destruct H as (arr & _ & H).
    injection H as <-. unfold normalise. rewrite map_length, seq_length. auto.
Qed.

(** A calculation takes place (VSIDSC.h:290). *)
Definition due (o : vopt) (cls : list (bool * clause)) (v : vc) : Prop :=
  c_init v = false \/ ((1 <= o_recalc o)%Q /\ (qnat (c_last v) * o_recalc o < qnat (length cls))%Q).

Lemma due_test o cls v : due o cls v <->
  negb (c_init v) || (Qle_bool 1 (o_recalc o) && negb (Qle_bool (qnat (length cls)) (qnat (c_last v) * o_recalc o))) = true.
Proof.
  unfold due. rewrite orb_true_iff, andb_true_iff, !negb_true_iff, Qle_bool_iff.
  assert (H : Qle_bool (qnat (length cls)) (qnat (c_last v) * o_recalc o) = false <-> (qnat (c_last v) * o_recalc o < qnat (length cls))%Q).
  { split.
    - intros H. apply Qnot_le_lt. intros H2. apply Qle_bool_iff in H2. congruence.
    - intros H. destruct (Qle_bool _ _) eqn:E; auto. apply Qle_bool_iff in E. exfalso. apply (Qlt_not_le _ _ H E). }
  tauto.
Qed.

(** The state after a calculation. *)
Lemma reduce_spec o rtl rs nvars cls v v' x : usable nvars cls -> plain cls -> linked cls x ->
  nvars <= length (c_act v) -> due o cls v -> process_reduce o rtl rs nvars cls v = Ok v' ->
  exists g ext, init_graph rtl (o_lwcc o) nvars cls = Ok g /\
    betweennessCentrality g (scopeOf o) (c_sample v) rs = Ok (c_cent v') /\
    interaction cls (g_n g) (revMapNode g) (g_E g) /\ NoDup (g_keys g) /\ length (g_keys g) = g_n g /\
    g_keys (c_graph v') = g_keys g ++ ext /\ length (c_cent v') = g_n g /\ length (c_act v') = length (c_act v) /\
    c_init v' = true /\
    (forall i, i < g_n g -> exists a, nth_error (c_cent v') i = Some a /\
        nth_error (c_act v') (revMapNode g i) = Some (nmul a (qnat (o_factor o)))) /\
    (forall y, ~ linked cls y -> nth_error (c_act v') y = nth_error (c_act v) y).
Proof.
  intros Hu Hp Hl Ha Hd H. unfold process_reduce in H. apply due_test in Hd. rewrite Hd in H.
  apply bind_ok in H. destruct H as (v1 & H1 & H). injection H as <-. simpl.
  unfold do_centrality in H1. apply bind_ok in H1. destruct H1 as (g & Eg & H1).
  destruct (built (o_lwcc o) rtl nvars cls x Hu Hp Hl) as (g0 & g1 & k & m & E1 & U & A & B & C & D & F & G & I & J).
  rewrite Eg in E1. injection E1 as <-. change (sc (o_lwcc o)) with (scopeOf o) in *.
  assert (HE : hasEdges g (scopeOf o) = true).
  { unfold hasEdges. rewrite F, I. apply andb_true_iff. split; apply Nat.ltb_lt; lia. }
  rewrite HE in H1. apply bind_ok in H1. destruct H1 as (cent & Ec & H1).
  pose proof (built_interaction (o_lwcc o) rtl nvars cls x g Hu Hp Hl Eg) as IA.
  assert (HK : length (g_keys g) = g_n g) by (rewrite C, A; symmetry; apply (u_n _ _ U)).
  assert (HN : NoDup (g_keys g)) by (rewrite C; apply (u_keys_nodup _ _ U)).
  pose proof (cent_length _ _ _ _ _ Ec) as Hcl.
  assert (Hin : forall y, In y (g_keys g) <-> linked cls y) by (intros y; rewrite C; apply (u_keys _ _ U)).
  destruct (updActs_spec (o_factor o) cent (g_keys g) ltac:(congruence) (seq 0 nvars) g (c_act v) []) as (g' & act' & ext & E & P & Q1 & R & S).
  { rewrite app_nil_r. auto. } { apply seq_NoDup. } { intros y Hy. apply in_seq in Hy. lia. }
  rewrite E in H1. injection H1 as <-. simpl.
  exists g, ext. split; auto. split; auto. split; auto. split; auto. split; auto. split; auto. split; auto. split; auto.
  split; auto. split.
  - intros i Hi. assert (Hk : keyPos (g_keys g) (revMapNode g i) = Some i).
    { unfold revMapNode. destruct (keyPos_In (g_keys g) (nth i (g_keys g) 0)) as (p & Kp); [apply nth_In; lia|].
      rewrite Kp. f_equal. apply (proj1 (NoDup_nth (g_keys g) 0) HN); [apply (keyPos_lt _ _ _ Kp)|lia|].
      apply nth_of_error. apply keyPos_nth. auto. }
    exists (nth i cent None). split; [apply nth_error_nth'; lia|]. apply S; auto.
    assert (Hy : linked cls (revMapNode g i)) by (apply Hin; apply nth_In; lia).
    destruct Hy as (c & Hc & _ & Hy). apply in_map_iff in Hy. destruct Hy as (l & <- & Hlc).
    apply in_seq. pose proof (proj2 (Hu c Hc) l Hlc). lia.
  - intros y Hy. apply R. right. destruct (keyPos (g_keys g) y) as [p|] eqn:Ep; auto. exfalso. apply Hy. apply Hin.
    apply keyPos_nth in Ep. apply nth_error_In in Ep. auto.
Qed.

(** ** Bumps *)
Definition bumped (o : vopt) (ce : option Q) (a : option Q) (inc : Q) : option Q :=
  if o_bump o then nadd a (nmul (nadd (Some 1%Q) (nmul ce (qnat (o_factor o)))) inc) else nadd a (Some inc).

Lemma bumps_spec o K xs : forall v ext, g_keys (c_graph v) = K ++ ext -> length (c_cent v) = length K ->
  (forall x inc, In (x, inc) xs -> In x K /\ x < length (c_act v)) ->
  exists v', bumps o xs v = Ok v' /\ g_keys (c_graph v') = K ++ ext /\ c_cent v' = c_cent v /\ length (c_act v') = length (c_act v) /\
    forall x p, keyPos K x = Some p ->
      nth_error (c_act v') x =
      option_map (fun a => fold_left (fun a yi => if fst yi =? x then bumped o (nth p (c_cent v) None) a (snd yi) else a) xs a)
                 (nth_error (c_act v) x).
Proof.
  induction xs as [|(y & inc) r IH]; intros v ext Hk Hc Hx.
  - exists v. simpl. split; auto. split; auto. split; auto. split; auto. intros x p _. destruct (nth_error (c_act v) x); auto.
  - destruct (Hx y inc (or_introl eq_refl)) as (HyK & Hya). destruct (keyPos_In _ _ HyK) as (q & Kq).
    assert (Hcq : nth_error (c_cent v) q = Some (nth q (c_cent v) None)).
    { apply nth_error_nth'. rewrite Hc. apply (keyPos_lt _ _ _ Kq). }
    destruct (nth_error (c_act v) y) as [a|] eqn:Ea; [|apply nth_error_None in Ea; lia].
    assert (HB : exists v1, varBump o inc y v = Ok v1 /\ g_keys (c_graph v1) = K ++ ext /\ c_cent v1 = c_cent v /\
        c_act v1 = setN y (bumped o (nth q (c_cent v) None) a inc) (c_act v)).
    { unfold varBump, bumped. destruct (o_bump o).
      - rewrite (mapNode_in _ K ext y q Hk Kq), Hcq, Ea. eexists. split; [reflexivity|]. simpl. auto.
      - rewrite Ea. eexists. split; [reflexivity|]. simpl. auto. }
    destruct HB as (v1 & EB & Hk1 & Hc1 & Ha1).
    assert (Hl1 : length (c_act v1) = length (c_act v)) by (rewrite Ha1; apply setN_length; auto).
    destruct (IH v1 ext Hk1 ltac:(congruence)) as (v' & E & A & B & C & D).
    { intros x i Hi. rewrite Hl1. apply (Hx x i). right. auto. }
    exists v'. simpl. rewrite EB. simpl. split; auto. split; auto. split; [congruence|]. split; [congruence|].
    intros x p Kp. rewrite (D x p Kp), Ha1, Hc1. destruct (Nat.eqb_spec y x) as [->|Hne].
    + assert (p = q) by congruence. subst p. rewrite setN_same by auto. rewrite Ea. simpl. auto.
    + rewrite setN_other by auto. auto.
Qed.

Lemma bumps_safe o rtl rs nvars cls v v' x xs : usable nvars cls -> plain cls -> linked cls x ->
  nvars <= length (c_act v) -> due o cls v -> process_reduce o rtl rs nvars cls v = Ok v' ->
  (forall y inc, In (y, inc) xs -> linked cls y) ->
  exists v'' g, bumps o xs v' = Ok v'' /\ init_graph rtl (o_lwcc o) nvars cls = Ok g /\
    c_cent v'' = c_cent v' /\
    forall i, i < g_n g -> exists ce a, nth_error (c_cent v') i = Some ce /\
      nth_error (c_act v') (revMapNode g i) = Some a /\
      nth_error (c_act v'') (revMapNode g i) =
        Some (fold_left (fun a yi => if fst yi =? revMapNode g i then bumped o ce a (snd yi) else a) xs a).
Proof.
  intros Hu Hp Hl Ha Hd H Hxs.
  destruct (reduce_spec o rtl rs nvars cls v v' x Hu Hp Hl Ha Hd H) as (g & ext & Eg & Ec & IA & HN & HK & Hk & Hcl & Hal & _ & Hact & _).
  destruct (bumps_spec o (g_keys g) xs v' ext Hk ltac:(congruence)) as (v'' & E & A & B & C & D).
  { intros y inc Hi. pose proof (Hxs y inc Hi) as Hy. split.
    - apply (in_onto _ _ _ _ IA) in Hy. destruct Hy as (i & Hi2 & <-). apply nth_In. lia.
    - destruct Hy as (c & Hc & _ & Hy). apply in_map_iff in Hy. destruct Hy as (l & <- & Hlc).
      pose proof (proj2 (Hu c Hc) l Hlc). lia. }
  exists v'', g. split; auto. split; auto. split; auto. intros i Hi. destruct (Hact i Hi) as (ce & E1 & E2).
  exists ce, (nmul ce (qnat (o_factor o))). split; auto. split; auto.
  assert (Hkp : keyPos (g_keys g) (revMapNode g i) = Some i).
  { unfold revMapNode. destruct (keyPos_In (g_keys g) (nth i (g_keys g) 0)) as (p & Kp); [apply nth_In; lia|].
    rewrite Kp. f_equal. apply (proj1 (NoDup_nth (g_keys g) 0) HN); [apply (keyPos_lt _ _ _ Kp)|lia|].
    apply nth_of_error. apply keyPos_nth. auto. }
  rewrite (D _ _ Hkp), E2. simpl. rewrite (nth_error_nth _ _ None E1). auto.
Qed.

Lemma fold_none o x xs : fold_left (fun a yi => if fst yi =? x then bumped o None a (snd yi) else a) xs (None : option Q) = None.
Proof.
  induction xs as [|(y & i) r IH]; simpl; auto. destruct (y =? x); auto. unfold bumped at 2. destruct (o_bump o); auto.
Qed.

(** Activities that are not a number stay so. *)
Lemma nan_stays o rtl rs nvars cls v v' x xs g : usable nvars cls -> plain cls -> linked cls x ->
  nvars <= length (c_act v) -> due o cls v -> o_lwcc o = false -> (1 <= c_sample v)%Q ->
  init_graph rtl false nvars cls = Ok g -> cliques (g_n g) (g_E g) ->
  process_reduce o rtl rs nvars cls v = Ok v' -> (forall y inc, In (y, inc) xs -> linked cls y) ->
  exists v'', bumps o xs v' = Ok v'' /\
    forall y, linked cls y -> nth_error (c_act v') y = Some None /\ nth_error (c_act v'') y = Some None.
Proof.
  intros Hu Hp Hl Ha Hd Ho Hs Eg Hc H Hxs.
  destruct (reduce_spec o rtl rs nvars cls v v' x Hu Hp Hl Ha Hd H) as (g1 & ext & Eg1 & Ec & IA & _ & _ & _ & _ & _ & _ & Hact & _).
  rewrite Ho in Eg1. rewrite Eg in Eg1. injection Eg1 as <-.
  destruct (bumps_safe o rtl rs nvars cls v v' x xs Hu Hp Hl Ha Hd H Hxs) as (v'' & g2 & E & Eg2 & _ & Hb).
  rewrite Ho in Eg2. rewrite Eg in Eg2. injection Eg2 as <-.
  exists v''. split; auto.
  assert (Hxy : exists y, together cls x y /\ x <> y).
  { apply linked_pairs in Hl. destruct Hl as (y & Hy). apply together_pairs in Hy. exists y. split; auto.
    intros ->. apply (plain_together cls y Hp Hy). }
  destruct Hxy as (y0 & Ht & Hne). unfold scopeOf in Ec. rewrite Ho in Ec.
  pose proof (proj2 (centrality_nan rtl nvars cls (c_sample v) rs x y0 g (c_cent v') Hu Ht Hne Hs Eg Ec) Hc) as HNaN.
  intros y Hy. apply (in_onto _ _ _ _ IA) in Hy. destruct Hy as (i & Hi & <-).
  destruct (Hb i Hi) as (ce & a & E1 & E2 & E3). rewrite (HNaN i Hi) in E1. injection E1 as <-.
  destruct (Hact i Hi) as (a' & E4 & E5). rewrite (HNaN i Hi) in E4. injection E4 as <-.
  rewrite E2 in E5. injection E5 as ->. simpl in *. split; auto. rewrite E3. rewrite fold_none. auto.
Qed.

Lemma bumped_value o ce a inc : bumped o ce a inc = bumpValue (o_bump o) (o_factor o) ce a inc.
Proof. unfold bumped, bumpValue. destruct (o_bump o), ce, a; reflexivity. Qed.

Lemma bumped_to o ce xs x a :
  fold_left (fun a yi => if fst yi =? x then bumped o ce a (snd yi) else a) xs a = bumpedTo (o_bump o) (o_factor o) ce xs x a.
Proof.
  unfold bumpedTo. revert a. induction xs as [|(y & i) r IH]; intros a; simpl; auto. rewrite IH.
  destruct (y =? x); auto. rewrite bumped_value. auto.
Qed.

Lemma activities_spec o rtl rs nvars cls v v' x : usable nvars cls -> plain cls -> linked cls x ->
  nvars <= length (c_act v) -> due o cls v -> process_reduce o rtl rs nvars cls v = Ok v' ->
  exists g, init_graph rtl (o_lwcc o) nvars cls = Ok g /\
    betweennessCentrality g (scopeOf o) (c_sample v) rs = Ok (c_cent v') /\
    length (c_act v') = length (c_act v) /\
    (forall i, i < g_n g -> exists a, nth_error (c_cent v') i = Some a /\
        nth_error (c_act v') (revMapNode g i) =
          Some (match a with Some q => Some (q * inject_Z (Z.of_nat (o_factor o)))%Q | None => None end)) /\
    (forall y, ~ linked cls y -> nth_error (c_act v') y = nth_error (c_act v) y).
Proof.
  intros Hu Hp Hl Ha Hd H.
  destruct (reduce_spec o rtl rs nvars cls v v' x Hu Hp Hl Ha Hd H) as (g & ext & Eg & Ec & IA & HN & HK & Hk & Hcl & Hal & _ & Hact & Hn).
  exists g. split; auto. 
Qed.

Lemma bumps_exact o rtl rs nvars cls v v' x xs : usable nvars cls -> plain cls -> linked cls x ->
  nvars <= length (c_act v) -> due o cls v -> process_reduce o rtl rs nvars cls v = Ok v' ->
  (forall y inc, In (y, inc) xs -> linked cls y) ->
  exists v'' g, bumps o xs v' = Ok v'' /\ init_graph rtl (o_lwcc o) nvars cls = Ok g /\
    forall i, i < g_n g -> exists ce a, nth_error (c_cent v') i = Some ce /\
      nth_error (c_act v') (revMapNode g i) = Some a /\
      nth_error (c_act v'') (revMapNode g i) = Some (bumpedTo (o_bump o) (o_factor o) ce xs (revMapNode g i) a).
Proof.
  intros Hu Hp Hl Ha Hd H Hxs.
  destruct (bumps_safe o rtl rs nvars cls v v' x xs Hu Hp Hl Ha Hd H Hxs) as (v'' & g & E & Eg & _ & Hb).
  exists v'', g. split; auto. split; auto. intros i Hi. destruct (Hb i Hi) as (ce & a & E1 & E2 & E3).
  exists ce, a. split; auto. split; auto. rewrite E3, bumped_to. auto.
Qed.

(** No calculation is due: nothing changes. *)
Lemma reduce_idle o rtl rs nvars cls v : c_init v = true -> (o_recalc o < 1)%Q -> process_reduce o rtl rs nvars cls v = Ok v.
Proof.
  intros Hi Hr. unfold process_reduce. rewrite Hi. simpl.
  destruct (Qle_bool 1 (o_recalc o)) eqn:E; auto. apply Qle_bool_iff in E. exfalso. apply (Qlt_not_le _ _ Hr E).
Qed.

Lemma no_edges o rtl rs nvars cls v : usable nvars cls -> (forall x, ~ linked cls x) -> o_lwcc o = false -> due o cls v ->
  exists v', process_reduce o rtl rs nvars cls v = Ok v' /\ c_act v' = c_act v /\ c_cent v' = c_cent v.
Proof.
  intros Hu Hl Ho Hd. unfold process_reduce. apply due_test in Hd. rewrite Hd. unfold do_centrality. rewrite Ho.
  destruct (init_full rtl nvars cls Hu) as (g & E & U). rewrite E. cbn [bind].
  assert (Hn : g_n g = 0).
  { rewrite (u_n _ _ U). destruct (g_keys g) as [|k r] eqn:Ek; auto. exfalso. apply (Hl k). apply (u_keys _ _ U). rewrite Ek. left; auto. }
  unfold scopeOf, hasEdges. rewrite Ho. simpl. rewrite Hn. simpl. eexists. split; [reflexivity|]. simpl. auto.
Qed.
