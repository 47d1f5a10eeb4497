(** Model of the sums of distances of the graph library: Graph::closenessSum, Graph::closenesses and the sums of
    Graph::closenessCentrality (src/candy/teexgraph/CenGraph.cpp:15-62, 76, 88-107) for the scope FULL and without sampling; the divisions at the end
    of closenessCentrality (CenGraph.cpp:109-123) are in CloseCenModel.  int and long are unbounded; the vector [d] is as in DistModel. *)
Require Import List Arith Bool.
Require Import Verif.Base Verif.Outcome Verif.CNFModel Verif.GraphModel Verif.DistModel.
Import ListNotations.

(** CenGraph.cpp:28-34: the neighbours [ns] of the node whose successors get the distance [c] *)
Fixpoint cvisit (n c : nat) (d : nat -> option nat) (total : nat) (q ns : list nat) : out ((nat -> option nat) * nat * list nat) :=
  match ns with
  | [] => Ok (d, total, q)
  | w :: r =>
    if n <=? w then Err UB
    else match d w with
         | None => cvisit n c (upd d w (Some c)) (total + c) (q ++ [w]) r
         | Some _ => cvisit n c d total q r
         end
  end.
(** CenGraph.cpp:24-35 *)
Fixpoint cloop (fuel n : nat) (adj : nat -> list nat) (d : nat -> option nat) (total : nat) (q : list nat) : out nat :=
  match q with
  | [] => Ok total
  | x :: r =>
    match fuel with
    | O => Err Fuel
    | S fuel => s <- cvisit n (next (d x)) d total r (adj x) ;; match s with (d1, t1, q1) => cloop fuel n adj d1 t1 q1 end
    end
  end.
(** CenGraph.cpp:16-37 *)
Definition closenessSum (n : nat) (adj : nat -> list nat) (u : nat) : out nat :=
  if n <=? u then Err UB else cloop n n adj (upd (fun _ => None) u (Some 0)) 0 [u].

(** dtotals[w] += c *)
Definition add_at (w c : nat) (t : list nat) : out (list nat) := match nth_error t w with Some x => Ok (set_nth w (x + c) t) | None => Err UB end.
(** CenGraph.cpp:53-59 *)
Fixpoint evisit (n c : nat) (d : nat -> option nat) (t q ns : list nat) : out ((nat -> option nat) * list nat * list nat) :=
  match ns with
  | [] => Ok (d, t, q)
  | w :: r =>
    if n <=? w then Err UB
    else match d w with
         | None => t1 <- add_at w c t ;; evisit n c (upd d w (Some c)) t1 (q ++ [w]) r
         | Some _ => evisit n c d t q r
         end
  end.
(** CenGraph.cpp:49-60 *)
Fixpoint eloop (fuel n : nat) (adj : nat -> list nat) (d : nat -> option nat) (t q : list nat) : out ((nat -> option nat) * list nat) :=
  match q with
  | [] => Ok (d, t)
  | x :: r =>
    match fuel with
    | O => Err Fuel
    | S fuel => s <- evisit n (next (d x)) d t r (adj x) ;; match s with (d1, t1, q1) => eloop fuel n adj d1 t1 q1 end
    end
  end.
(** CenGraph.cpp:41-62: the distances, and the table afterwards *)
Definition closenesses (n : nat) (adj : nat -> list nat) (u : nat) (t : list nat) : out (list (option nat) * list nat) :=
  if n <=? u then Err UB
  else ' (d, t1) <- eloop n n adj (upd (fun _ => None) u (Some 0)) t [u] ;; Ok (map d (seq 0 n), t1).
(** CenGraph.cpp:88-107 without sampling: every node of the scope FULL *)
Fixpoint close_from (n : nat) (adj : nat -> list nat) (us t : list nat) : out (list nat) :=
  match us with
  | [] => Ok t
  | u :: r => ' (_, t1) <- closenesses n adj u t ;; close_from n adj r t1
  end.
(** CenGraph.cpp:76, 88-107 *)
Definition closenessTotals (n : nat) (adj : nat -> list nat) : out (list nat) := close_from n adj (seq 0 n) (repeat 0 n).
