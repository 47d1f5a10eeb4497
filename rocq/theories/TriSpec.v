(** Specification of triangles in a graph. *)
Require Import List Arith Bool Sorting.Sorted.
Require Import Verif.Base Verif.GraphModel Verif.GraphSpec.
Import ListNotations.

(** if the graph says that its lists are sorted, they are *)
Definition honest (g : graph) : Prop := g_sorted g = true -> forall a, a < g_n g -> StronglySorted lt (g_E g a).
(** an undirected graph without loops, as makeUndirected leaves it *)
Record finished (g : graph) : Prop := mkFinished {
  fi_simple : simple (g_n g) (g_E g);
  fi_irr : forall u, u < g_n g -> ~ In u (g_E g u);
  fi_loop : forall u, u < g_n g -> g_loop g u = false;
  fi_undir : g_undir g = true;
  fi_sorted : g_sorted g = true;
  fi_order : forall u, u < g_n g -> StronglySorted lt (g_E g u) }.
(** exactly m triangles *)
Definition triangles_in (n : nat) (adj : nat -> list nat) (m : nat) : Prop :=
  exists l, NoDup l /\ (forall a b c, In (a, (b, c)) l <-> a < b /\ b < c /\ c < n /\ In b (adj a) /\ In c (adj a) /\ In c (adj b)) /\ length l = m.
(** exactly m pairs of neighbours of u that are neighbours of each other *)
Definition triangles_at (adj : nat -> list nat) (u m : nat) : Prop :=
  exists l, NoDup l /\ (forall x y, In (x, y) l <-> x < y /\ In x (adj u) /\ In y (adj u) /\ In y (adj x)) /\ length l = m.
