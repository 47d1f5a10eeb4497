(** C60, C61, C62: the graph of the clauses, its centralities, and the activities VSIDSC derives from them. *)
From Coq Require Import List Arith Bool QArith Relations.
Import ListNotations.
From Verif Require Import Base Outcome GraphModel GraphSpec GraphProofs GraphUse GraphCases.
Open Scope nat_scope.

(** C60: the graph holds a node for exactly the variables that occur in a clause with others, under the number that [mapNode] gives
    them, and an edge exactly between variables that occur together; deleted clauses do not count.  The number of edges reported is the
    number of edges.  This holds for both orders in which C++ may evaluate the arguments. *)
Theorem C60_graph : forall rtl nvars cls, usable nvars cls ->
  exists g, init_graph rtl false nvars cls = Ok g /\
    interaction cls (g_n g) (revMapNode g) (g_E g) /\
    (forall x, linked cls x -> exists p, mapNode g x = (g, p) /\ p < g_n g /\ revMapNode g p = x) /\
    (plain cls -> edgeCount g FULL = Some (length (edgePairs (g_n g) (g_E g)))) /\
    g_undir g = true.
Proof. exact graph_spec. Qed.
Print Assumptions C60_graph.

Example C60_graph_case : usable 6 gcls /\ plain gcls /\ (linked gcls 3 /\ ~ linked gcls 4) /\
  gshow (init_graph true false 6 gcls) = Some ([1; 0; 2; 3], [[1; 2; 3]; [0]; [0; 3]; [0; 2]], 8) /\
  gshow (init_graph false false 6 gcls) = Some ([0; 1; 2; 3], [[1]; [0; 2; 3]; [1; 3]; [1; 2]], 8).
Proof. exact (conj gcls_usable (conj gcls_plain (conj gcls_linked gcls_graph))). Qed.

(** C60: with the option for the largest component, the nodes in scope are one connected component, no component is larger, and its
    numbers of nodes and of entries in neighbour lists are as reported. *)
Theorem C60_component : forall rtl nvars cls x, usable nvars cls -> plain cls -> linked cls x ->
  exists g0 g C, init_graph rtl false nvars cls = Ok g0 /\ init_graph rtl true nvars cls = Ok g /\
    g_E g = g_E g0 /\ g_n g = g_n g0 /\
    component (g_n g) (g_E g) C /\
    (forall u, u < g_n g -> (inScope g u LWCC = true <-> In u C)) /\
    nodes g LWCC = Some (length C) /\
    edges g LWCC = Some (list_sum (map (fun v => length (g_E g v)) C)) /\
    (forall C', component (g_n g) (g_E g) C' -> length C' <= length C).
Proof. exact components_spec. Qed.
Print Assumptions C60_component.

Example C60_component_case : usable 6 gcls /\ plain gcls /\ linked gcls 3.
Proof. exact (conj gcls_usable (conj gcls_plain (proj1 gcls_linked))). Qed.

(** Without the condition that no clause repeats a variable the computation of components leaves its arrays: ids start at 1, and the
    arrays have as many positions as there are nodes. *)
Theorem C60_component_refuted : exists nvars cls x, usable nvars cls /\ linked cls x /\
  forall rtl, init_graph rtl true nvars cls = Err UB.
Proof. exact loop_refuted. Qed.
Print Assumptions C60_component_refuted.

(** A clause without literals is never finished: the bound of the loop over its pairs wraps around. *)
Theorem C60_empty_clause_refuted : forall rtl lwcc nvars cls, In (false, []) cls ->
  exists e, init_graph rtl lwcc nvars cls = Err e.
Proof. exact empty_clause. Qed.
Print Assumptions C60_empty_clause_refuted.

(** C61: the centralities are the betweenness values of the nodes, divided by the largest. *)
Theorem C61_betweenness : forall rtl nvars cls sample rs x y,
  usable nvars cls -> together cls x y -> x <> y -> (1 <= sample)%Q ->
  exists g l, init_graph rtl false nvars cls = Ok g /\ interaction cls (g_n g) (revMapNode g) (g_E g) /\
    betweennessCentrality g FULL sample rs = Ok l /\
    normalised (g_n g) (betweenness (g_n g) (g_E g) (seq 0 (g_n g))) l.
Proof. exact centrality_full. Qed.
Print Assumptions C61_betweenness.

Example C61_betweenness_case : usable 6 gcls /\ together gcls 2 3 /\ exists g, init_graph false false 6 gcls = Ok g /\
  betweennessCentrality g FULL 1 [] = Ok [Some (0 # 4); Some (4 # 4); Some (0 # 4); Some (0 # 4)].
Proof. exact (conj gcls_usable (conj gcls_together gcls_centrality)). Qed.

(** C61: all values are "not a number" exactly when every component of the graph is complete. *)
Theorem C61_not_a_number : forall rtl nvars cls sample rs x y g l,
  usable nvars cls -> together cls x y -> x <> y -> (1 <= sample)%Q ->
  init_graph rtl false nvars cls = Ok g -> betweennessCentrality g FULL sample rs = Ok l ->
  ((forall i, i < g_n g -> nth_error l i = Some None) <-> cliques (g_n g) (g_E g)).
Proof. exact centrality_nan. Qed.
Print Assumptions C61_not_a_number.

(** One clause of three literals is such a case. *)
Example C61_not_a_number_case : exists g, init_graph false false 3 [(false, [0; 2; 5])] = Ok g /\
  betweennessCentrality g FULL 1 [] = Ok [None; None; None].
Proof. eexists. split; [reflexivity|]. vm_compute. reflexivity. Qed.

(** C61: with a sample, the values are the betweenness with respect to as many drawn nodes as the rounded down part of the nodes, all
    of them in scope. *)
Theorem C61_sample : forall (lwcc : bool) rtl nvars cls sample rs x g l,
  usable nvars cls -> plain cls -> linked cls x -> (sample < 1)%Q ->
  init_graph rtl lwcc nvars cls = Ok g -> betweennessCentrality g (if lwcc then LWCC else FULL) sample rs = Ok l ->
  interaction cls (g_n g) (revMapNode g) (g_E g) /\
  exists srcs, Z.of_nat (length srcs) =
      Z.max 0 (Qnum (inject_Z (Z.of_nat (g_n g)) * sample) / Zpos (Qden (inject_Z (Z.of_nat (g_n g)) * sample)))%Z /\
    (forall s, In s srcs -> s < g_n g /\ inScope g s (if lwcc then LWCC else FULL) = true) /\
    normalised (g_n g) (betweenness (g_n g) (g_E g) srcs) l.
Proof. exact centrality_sampled. Qed.
Print Assumptions C61_sample.

Example C61_sample_case : (g <- init_graph false true 10 lwcls ;; betweennessCentrality g LWCC (1 # 5) [3; 17; 8; 9]) =
  Ok [Some 0; Some 0; Some 0; Some 0; Some 0; Some 0; Some 0; Some 1; Some 1; Some 0]%Q.
Proof. vm_compute. reflexivity. Qed.

(** C61: a sample that rounds down to no node makes all values "not a number", although nodes have positive betweenness. *)
Theorem C61_small_sample_refuted : exists rtl nvars cls x g u, usable nvars cls /\ plain cls /\ linked cls x /\
  init_graph rtl false nvars cls = Ok g /\ u < g_n g /\ (0 < betweenness (g_n g) (g_E g) (seq 0 (g_n g)) u)%Q /\
  forall rs, exists l, betweennessCentrality g FULL (1 # 10) rs = Ok l /\ forall v, v < g_n g -> nth_error l v = Some None.
Proof. exact sample_refuted. Qed.
Print Assumptions C61_small_sample_refuted.

(** C61: for the largest component and without a sample, the sources are the first nodes of the graph, as many as the component has. *)
Theorem C61_component_sources : forall rtl nvars cls sample rs x, usable nvars cls -> plain cls -> linked cls x ->
  (1 <= sample)%Q ->
  exists g k l, init_graph rtl true nvars cls = Ok g /\ nodes g LWCC = Some k /\
    betweennessCentrality g LWCC sample rs = Ok l /\
    normalised (g_n g) (betweenness (g_n g) (g_E g) (seq 0 k)) l.
Proof. exact centrality_lwcc. Qed.
Print Assumptions C61_component_sources.

Example C61_component_sources_case : usable 6 gcls /\ plain gcls /\ linked gcls 3.
Proof. exact (conj gcls_usable (conj gcls_plain (proj1 gcls_linked))). Qed.

(** So they need not be nodes of the component: all values are "not a number" although a node of the component has positive betweenness
    with respect to the component. *)
Theorem C61_component_refuted : exists rtl nvars cls x g C l u, usable nvars cls /\ plain cls /\ linked cls x /\
  init_graph rtl true nvars cls = Ok g /\ component (g_n g) (g_E g) C /\
  (forall v, v < g_n g -> (inScope g v LWCC = true <-> In v C)) /\
  betweennessCentrality g LWCC 1 [] = Ok l /\ (forall v, v < g_n g -> nth_error l v = Some None) /\
  In u C /\ (0 < betweenness (g_n g) (g_E g) C u)%Q.
Proof. exact lwcc_refuted. Qed.
Print Assumptions C61_component_refuted.

(** C62: when a calculation is due, the activity of every variable that occurs with others becomes its centrality times the factor; the
    other activities do not change. *)
Theorem C62_activities : forall o rtl rs nvars cls v v' x, usable nvars cls -> plain cls -> linked cls x ->
  nvars <= length (c_act v) ->
  (c_init v = false \/ ((1 <= o_recalc o)%Q /\ (inject_Z (Z.of_nat (c_last v)) * o_recalc o < inject_Z (Z.of_nat (length cls)))%Q)) ->
  process_reduce o rtl rs nvars cls v = Ok v' ->
  exists g, init_graph rtl (o_lwcc o) nvars cls = Ok g /\
    betweennessCentrality g (scopeOf o) (c_sample v) rs = Ok (c_cent v') /\
    length (c_act v') = length (c_act v) /\
    (forall i, i < g_n g -> exists a, nth_error (c_cent v') i = Some a /\
        nth_error (c_act v') (revMapNode g i) =
          Some (match a with Some q => Some (q * inject_Z (Z.of_nat (o_factor o)))%Q | None => None end)) /\
    (forall y, ~ linked cls y -> nth_error (c_act v') y = nth_error (c_act v) y).
Proof. exact activities_spec. Qed.
Print Assumptions C62_activities.

Example C62_activities_case : usable 6 gcls /\ plain gcls /\ linked gcls 3 /\
  exists v, process_reduce vdefault false [] 6 gcls (vfresh 6) = Ok v /\
    nth_error (c_act v) 1 = Some (Some (4 # 4)) /\ nth_error (c_act v) 4 = Some (Some 0%Q).
Proof. exact (conj gcls_usable (conj gcls_plain (conj (proj1 gcls_linked) gcls_reduce))). Qed.

(** C62: after a calculation, no sequence of bumps of variables that occurred with others leaves the vector of centralities, and every
    bump adds the increment, weighted by one plus the centrality times the factor. *)
Theorem C62_bumps : forall o rtl rs nvars cls v v' x xs, usable nvars cls -> plain cls -> linked cls x ->
  nvars <= length (c_act v) ->
  (c_init v = false \/ ((1 <= o_recalc o)%Q /\ (inject_Z (Z.of_nat (c_last v)) * o_recalc o < inject_Z (Z.of_nat (length cls)))%Q)) ->
  process_reduce o rtl rs nvars cls v = Ok v' ->
  (forall y inc, In (y, inc) xs -> linked cls y) ->
  exists v'' g, bumps o xs v' = Ok v'' /\ init_graph rtl (o_lwcc o) nvars cls = Ok g /\
    forall i, i < g_n g -> exists ce a, nth_error (c_cent v') i = Some ce /\
      nth_error (c_act v') (revMapNode g i) = Some a /\
      nth_error (c_act v'') (revMapNode g i) = Some (bumpedTo (o_bump o) (o_factor o) ce xs (revMapNode g i) a).
Proof. exact bumps_exact. Qed.
Print Assumptions C62_bumps.

Example C62_bumps_case : exists v v', process_reduce vdefault false [] 6 gcls (vfresh 6) = Ok v /\
  bumps vdefault [(1, 1%Q); (3, 1%Q); (1, 2%Q)] v = Ok v' /\ (exists q, nth_error (c_act v') 1 = Some (Some q) /\ (q == 7)%Q) /\
  (exists q, nth_error (c_act v') 3 = Some (Some q) /\ (q == 1)%Q).
Proof. eexists. eexists. split; [vm_compute; reflexivity|]. split; [vm_compute; reflexivity|]. split; eexists; split; reflexivity. Qed.

(** C62: if every component of the graph is complete, the activities of all its variables are "not a number" and stay so. *)
Theorem C62_not_a_number : forall o rtl rs nvars cls v v' x xs g, usable nvars cls -> plain cls -> linked cls x ->
  nvars <= length (c_act v) ->
  (c_init v = false \/ ((1 <= o_recalc o)%Q /\ (inject_Z (Z.of_nat (c_last v)) * o_recalc o < inject_Z (Z.of_nat (length cls)))%Q)) ->
  o_lwcc o = false -> (1 <= c_sample v)%Q ->
  init_graph rtl false nvars cls = Ok g -> cliques (g_n g) (g_E g) ->
  process_reduce o rtl rs nvars cls v = Ok v' -> (forall y inc, In (y, inc) xs -> linked cls y) ->
  exists v'', bumps o xs v' = Ok v'' /\
    forall y, linked cls y -> nth_error (c_act v') y = Some None /\ nth_error (c_act v'') y = Some None.
Proof. exact nan_stays. Qed.
Print Assumptions C62_not_a_number.

Example C62_not_a_number_case : exists v, process_reduce vdefault false [] 3 [(false, [0; 2; 5])] (vfresh 3) = Ok v /\
  c_act v = [None; None; None].
Proof. eexists. split; vm_compute; reflexivity. Qed.

(** C62: without edges nothing changes. *)
Theorem C62_no_edges : forall o rtl rs nvars cls v, usable nvars cls -> (forall x, ~ linked cls x) -> o_lwcc o = false ->
  (c_init v = false \/ ((1 <= o_recalc o)%Q /\ (inject_Z (Z.of_nat (c_last v)) * o_recalc o < inject_Z (Z.of_nat (length cls)))%Q)) ->
  exists v', process_reduce o rtl rs nvars cls v = Ok v' /\ c_act v' = c_act v /\ c_cent v' = c_cent v.
Proof. exact no_edges. Qed.
Print Assumptions C62_no_edges.

(** C62: with the default options there is only one calculation. *)
Theorem C62_once : forall o rtl rs nvars cls v, c_init v = true -> (o_recalc o < 1)%Q -> process_reduce o rtl rs nvars cls v = Ok v.
Proof. exact reduce_idle. Qed.
Print Assumptions C62_once.

Example C62_once_case : (o_recalc vdefault < 1)%Q /\ exists v, process_reduce vdefault false [] 6 gcls (vfresh 6) = Ok v /\ c_init v = true.
Proof. split; [reflexivity|]. eexists. split; vm_compute; reflexivity. Qed.

(** C62: so in incremental use, where clauses with new variables come after the calculation, bumping such a variable reads behind the
    end of the vector of centralities. *)
Theorem C62_incremental_refuted : exists rtl n1 n2 cls1 cls2 x v1 v2,
  usable n1 cls1 /\ plain cls1 /\ usable n2 cls2 /\ plain cls2 /\ incl cls1 cls2 /\ linked cls2 x /\
  process_reduce vdefault rtl [] n1 cls1 (vfresh n1) = Ok v1 /\
  process_reduce vdefault rtl [] n2 cls2 (vc_init n2 v1) = Ok v2 /\
  bumps vdefault [(x, 1%Q)] v2 = Err UB.
Proof. exact incremental_refuted. Qed.
Print Assumptions C62_incremental_refuted.
