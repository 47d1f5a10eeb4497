(** C72: edges and triangles of a graph. *)
Require Import List Arith Bool Sorting.Sorted.
Require Import Verif.Base Verif.Outcome Verif.GraphModel Verif.GraphSpec Verif.GraphCases Verif.TriModel Verif.TriSpec Verif.TriProofs.
Import ListNotations.

(** Both queries say whether the edge was added; the fast one may sort the lists first, which changes no set of neighbours. *)
Theorem C72_edge : forall g a b, honest g -> a < g_n g ->
  exists r g', edge g a b = Ok (r, g') /\ (r = true <-> In b (g_E g a)) /\ (edgeSlow g a b = true <-> In b (g_E g a)) /\
    g_n g' = g_n g /\ forall c d, c < g_n g -> (In d (g_E g' c) <-> In d (g_E g c)).
Proof. exact edges_ok. Qed.
Print Assumptions C72_edge.
(** A graph that edges were added to is such a graph, whatever it was before. *)
Theorem C72_added : forall g u v, u < g_max g -> v < g_max g -> honest (addEdge g u v) /\ In v (g_E (addEdge g u v) u).
Proof. exact added_ok. Qed.
Print Assumptions C72_added.
(** Around a node: the pairs of neighbours that are neighbours, and all pairs of neighbours. *)
Theorem C72_around : forall g u, finished g -> u < g_n g ->
  exists k w, trianglesWedgesAround g u = Ok (k, w, g) /\ triangles_at (g_E g) u k /\ 2 * w = length (g_E g u) * (length (g_E g u) - 1).
Proof. exact (fun g u F => around_spec g F u). Qed.
Print Assumptions C72_around.
(** Every triangle of the graph is counted once. *)
Theorem C72_triangles : forall g, finished g -> exists m, triangles g = Ok m /\ triangles_in (g_n g) (g_E g) m.
Proof. exact triangles_ok. Qed.
Print Assumptions C72_triangles.
(** The wedges are the pairs of neighbours of all nodes. *)
Theorem C72_wedges : forall g, finished g -> exists w, wedges g = Ok w /\ 2 * w = list_sum (map (fun u => length (g_E g u) * (length (g_E g u) - 1)) (seq 0 (g_n g))).
Proof. exact wedges_spec. Qed.
Print Assumptions C72_wedges.
(** For the graph of the clauses: its nodes are the variables that occur with others, its edges the pairs that occur together. *)
Theorem C72_variables : forall rtl nvars cls, usable nvars cls -> plain cls -> exists g m, init_graph rtl false nvars cls = Ok g /\
  interaction cls (g_n g) (revMapNode g) (g_E g) /\ triangles g = Ok m /\ triangles_in (g_n g) (g_E g) m.
Proof. exact variables_ok. Qed.
Print Assumptions C72_variables.

Definition tcls : list (bool * clause) := [(false, [0; 2; 5; 7]); (false, [2; 4; 9]); (true, [0; 8]); (false, [6; 11])].
Definition tnum (s : out (nat * nat * graph)) : option (nat * nat) := match s with Ok (k, w, _) => Some (k, w) | Err _ => None end.
Definition tyes (s : out (bool * graph)) : option bool := match s with Ok (r, _) => Some r | Err _ => None end.
Definition tall (s : out graph) : option (out nat * out nat * option bool * option bool * option (nat * nat)) :=
  match s with Ok g => Some (triangles g, wedges g, tyes (edge g 0 2), tyes (edge g 0 4), tnum (trianglesWedgesAround g 1)) | Err _ => None end.
(** Six variables: the four triangles of the first clause and the one of the second. *)
Example C72_case : usable 6 tcls /\ plain tcls /\ (forall g, init_graph false false 6 tcls = Ok g -> finished g) /\
  tall (init_graph false false 6 tcls) = Some (Ok 5, Ok 22, Some true, Some false, Some (4, 6)).
Proof.
  assert (A : usable 6 tcls).
  { intros c H. cbv [tcls In] in H. destruct H as [H|[H|[H|[H|[]]]]]; inversion H; subst; (split; [discriminate|]); intros l L; cbn in L;
      repeat (destruct L as [L|L]; [subst l; cbv; repeat constructor|]); destruct L. }
  assert (B : plain tcls).
  { intros c H. cbv [tcls In] in H. destruct H as [H|[H|[H|[H|[]]]]]; inversion H; subst; cbn; repeat (constructor; [cbn; intuition discriminate|]); constructor. }
  split; auto. split; auto. split; [intros g; apply (init_finished false 6 tcls); auto|]. vm_compute. reflexivity.
Qed.
Print Assumptions C72_case.
