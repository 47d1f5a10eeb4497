(** Model of the distances of the graph library: Graph::distance, Graph::alldistances and Graph::distances
    (src/candy/teexgraph/Graph.cpp:649-717).  The vector [d] is a function on the nodes below [n], None is its value -1; [adj] is
    [E], [n] the number of nodes.  An access outside [d] or [dtotals] is the outcome UB. *)
Require Import List Arith Bool.
Require Import Verif.Base Verif.Outcome Verif.CNFModel Verif.GraphModel.
Import ListNotations.

(** d[current] + 1, with -1 + 1 = 0 *)
Definition next (o : option nat) : nat := match o with Some k => S k | None => 0 end.
(** Graph.cpp:684-689: the neighbours [ns] of the node whose successors get the distance [c].  The code reads d[current] in every
    step; it cannot change, only entries that are -1 are written. *)
Fixpoint dvisit (n c : nat) (d : nat -> option nat) (q ns : list nat) : out ((nat -> option nat) * list nat) :=
  match ns with
  | [] => Ok (d, q)
  | w :: r =>
    if n <=? w then Err UB
    else match d w with
         | None => dvisit n c (upd d w (Some c)) (q ++ [w]) r
         | Some _ => dvisit n c d q r
         end
  end.
(** Graph.cpp:680-691 *)
Fixpoint dloop (fuel n : nat) (adj : nat -> list nat) (d : nat -> option nat) (q : list nat) : out (nat -> option nat) :=
  match q with
  | [] => Ok d
  | x :: r =>
    match fuel with
    | O => Err Fuel
    | S fuel => ' (d1, q1) <- dvisit n (next (d x)) d r (adj x) ;; dloop fuel n adj d1 q1
    end
  end.
(** Graph.cpp:673-693: every node is in the queue at most once *)
Definition alldistances (n : nat) (adj : nat -> list nat) (u : nat) : out (list (option nat)) :=
  if n <=? u then Err UB
  else d <- dloop n n adj (upd (fun _ => None) u (Some 0)) [u] ;; Ok (map d (seq 0 n)).

(** Graph.cpp:660-667: the same with the return at the node [v], whose distance is then the result *)
Fixpoint tvisit (n v c : nat) (d : nat -> option nat) (q ns : list nat) : out (option nat + (nat -> option nat) * list nat) :=
  match ns with
  | [] => Ok (inr (d, q))
  | w :: r =>
    if n <=? w then Err UB
    else match d w with
         | None => let d1 := upd d w (Some c) in if w =? v then Ok (inl (d1 v)) else tvisit n v c d1 (q ++ [w]) r
         | Some _ => tvisit n v c d q r
         end
  end.
(** Graph.cpp:656-669 *)
Fixpoint tloop (fuel n v : nat) (adj : nat -> list nat) (d : nat -> option nat) (q : list nat) : out (option nat) :=
  match q with
  | [] => if n <=? v then Err UB else Ok (d v)
  | x :: r =>
    match fuel with
    | O => Err Fuel
    | S fuel =>
      s <- tvisit n v (next (d x)) d r (adj x) ;;
      match s with inl k => Ok k | inr (d1, q1) => tloop fuel n v adj d1 q1 end
    end
  end.
(** Graph.cpp:649-670 *)
Definition distance (n : nat) (adj : nat -> list nat) (u v : nat) : out (option nat) :=
  if n <=? u then Err UB else tloop n n v adj (upd (fun _ => None) u (Some 0)) [u].

(** dtotals[k]++ *)
Definition tally (k : nat) (t : list nat) : out (list nat) := match nth_error t k with Some x => Ok (set_nth k (S x) t) | None => Err UB end.
(** Graph.cpp:707-713 *)
Fixpoint svisit (n c : nat) (d : nat -> option nat) (t q ns : list nat) : out ((nat -> option nat) * list nat * list nat) :=
  match ns with
  | [] => Ok (d, t, q)
  | w :: r =>
    if n <=? w then Err UB
    else match d w with
         | None => t1 <- tally c t ;; svisit n c (upd d w (Some c)) t1 (q ++ [w]) r
         | Some _ => svisit n c d t q r
         end
  end.
(** Graph.cpp:703-715 *)
Fixpoint sloop (fuel n : nat) (adj : nat -> list nat) (d : nat -> option nat) (t q : list nat) : out ((nat -> option nat) * list nat) :=
  match q with
  | [] => Ok (d, t)
  | x :: r =>
    match fuel with
    | O => Err Fuel
    | S fuel => s <- svisit n (next (d x)) d t r (adj x) ;; match s with (d1, t1, q1) => sloop fuel n adj d1 t1 q1 end
    end
  end.
(** Graph.cpp:696-717: the distances, and the table of totals afterwards *)
Definition distances (n : nat) (adj : nat -> list nat) (u : nat) (t : list nat) : out (list (option nat) * list nat) :=
  if n <=? u then Err UB
  else t1 <- tally 0 t ;; ' (d, t2) <- sloop n n adj (upd (fun _ => None) u (Some 0)) t1 [u] ;; Ok (map d (seq 0 n), t2).
