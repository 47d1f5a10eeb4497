(** Model of the queries for edges and of the count of triangles: Graph::edge, Graph::edgeSlow, Graph::trianglesWedgesAround,
    Graph::triangles and Graph::wedges (src/candy/teexgraph/Graph.cpp:94-118, 529-591) for the whole graph (scope FULL).  int and long are
    unbounded; an access outside a list is the outcome UB; the progress on std::clog is left out. *)
Require Import List Arith ZArith Bool.
Require Import Verif.Base Verif.Outcome Verif.GraphModel.
Import ListNotations.

(** Graph.cpp:97-107: the search in the list [l], with [first] and [last] *)
Fixpoint search (fuel : nat) (l : list nat) (b : nat) (first last : Z) : out bool :=
  if (last <? first)%Z then Ok false
  else match fuel with
  | O => Err Fuel
  | S fuel =>
    let mid := ((first + last) / 2)%Z in
    match (if (mid <? 0)%Z then None else nth_error l (Z.to_nat mid)) with
    | None => Err UB
    | Some x => if x <? b then search fuel l b (mid + 1) last else if b <? x then search fuel l b first (mid - 1) else Ok true
    end
  end.
(** Graph.cpp:94-108: the graph may be sorted first; the answer and the graph afterwards *)
Definition edge (g : graph) (a b : nat) : out (bool * graph) :=
  let g1 := sortEdgeList g in
  r <- search (length (g_E g1 a)) (g_E g1 a) b 0 (Z.of_nat (length (g_E g1 a)) - 1) ;; Ok (r, g1).
(** Graph.cpp:112-118 *)
Fixpoint edge_slow (l : list nat) (b : nat) : bool := match l with [] => false | x :: r => if x =? b then true else edge_slow r b end.
Definition edgeSlow (g : graph) (a b : nat) : bool := edge_slow (g_E g a) b.

(** Graph.cpp:576-583: the inner loop, the elements after x; || asks the second edge only if the first is missing *)
Fixpoint tri_inner (g : graph) (u x : nat) (ys : list nat) (k : nat) : out (nat * graph) :=
  match ys with
  | [] => Ok (k, g)
  | y :: r =>
    ' (e1, g1) <- edge g x y ;;
    ' (e2, g2) <- (if e1 then Ok (true, g1) else edge g1 y x) ;;
    tri_inner g2 u x r (if e2 && negb (x =? u) && negb (y =? u) && negb (x =? y) then S k else k)
  end.
(** Graph.cpp:575-584 *)
Fixpoint tri_outer (g : graph) (u : nat) (xs : list nat) (k : nat) : out (nat * graph) :=
  match xs with
  | [] => Ok (k, g)
  | x :: r => ' (k1, g1) <- tri_inner g u x r k ;; tri_outer g1 u r k1
  end.
(** Graph.cpp:561-591: triangles and wedges around u; a node with a loop has itself as neighbour, so wedgePotential is not negative *)
Definition trianglesWedgesAround (g : graph) (u : nat) : out (nat * nat * graph) :=
  let t := if g_undir g then g_E g u else sortUnique (g_E g u ++ g_rE g u) in
  ' (k, g1) <- tri_outer g u t 0 ;;
  let w := if g_loop g u then length t - 1 else length t in
  Ok (k, w * (w - 1) / 2, g1).
(** Graph.cpp:529-558: the sums over the nodes [us] *)
Fixpoint tri_sum (g : graph) (us : list nat) (k w : nat) : out (nat * nat * graph) :=
  match us with
  | [] => Ok (k, w, g)
  | u :: r => s <- trianglesWedgesAround g u ;; match s with (k1, w1, g1) => tri_sum g1 r (k + k1) (w + w1) end
  end.
Definition triangles (g : graph) : out nat := s <- tri_sum g (seq 0 (g_n g)) 0 0 ;; match s with (k, _, _) => Ok (k / 3) end.
Definition wedges (g : graph) : out nat := s <- tri_sum g (seq 0 (g_n g)) 0 0 ;; match s with (_, w, _) => Ok w end.
