(** Model of the distribution of distances: Graph::distanceDistribution and Graph::averageDistance (src/candy/teexgraph/Graph.cpp:719-788)
    for the whole graph (scope FULL).  double is exact here; the progress on std::clog is left out. *)
Require Import List Arith Bool QArith Qround.
Require Import Verif.Base Verif.Outcome Verif.CNFModel Verif.GraphModel Verif.DistModel.
Import ListNotations.
Open Scope nat_scope.

Definition qn (k : nat) : Q := inject_Z (Z.of_nat k).
(** Graph.cpp:733-745: how many sources, and the fraction that they are; the conversion to int drops the fractional part *)
Definition sample_of (n : nat) (s : Q) : nat * Q :=
  if negb (Qle_bool 1 s) then (Z.to_nat (Qfloor (qn n * s)), s)
  else if negb (Qle_bool s 1) && negb (Qle_bool (qn n) s) then let m := Z.to_nat (Qfloor s) in (m, (qn m / qn n)%Q)
  else (n, s).
(** Graph.cpp:757-760: inScope holds for every number, also for n; [done] has n + 1 elements; [rs] are the results of rand() *)
Fixpoint pick (n : nat) (done : nat -> bool) (a : nat) (rs : list nat) : out (nat * list nat) :=
  if n <? a then Err UB
  else if done a then match rs with [] => Err Fuel | r :: rs => pick n done (r mod n) rs end
  else Ok (a, rs).
(** Graph.cpp:749-772 for the values [is] of i *)
Fixpoint dd_loop (n : nat) (adj : nat -> list nat) (maxi : nat) (sampled : bool) (is : list nat) (count : nat) (done : nat -> bool) (t rs : list nat) : out (list nat) :=
  match is with
  | [] => Ok t
  | i :: is =>
    if maxi <=? count then dd_loop n adj maxi sampled is count done t rs
    else if sampled then
      ' (a, rs1) <- pick n done n rs ;; ' (_, t1) <- distances n adj a t ;; dd_loop n adj maxi sampled is (S count) (upd done a true) t1 rs1
    else ' (_, t1) <- distances n adj i t ;; dd_loop n adj maxi sampled is (S count) done t1 rs
  end.
(** Graph.cpp:777-781: the number is not negative, so that the conversion to long rounds down; 1.0 / 0.0 * 0.0 is not a number,
    and its conversion undefined *)
Definition scale (s : Q) (c : nat) : nat := Z.to_nat (Qfloor (1 / s * qn c)).
(** Graph.cpp:731-787 *)
Definition distanceDistribution (n : nat) (adj : nat -> list nat) (s : Q) (rs : list nat) : out (list nat) :=
  if n <? 2 then Ok [0]
  else
    let '(maxi, s1) := sample_of n s in
    t <- dd_loop n adj maxi (negb (Qle_bool 1 s1)) (seq 0 n) 0 (fun _ => false) (repeat 0 n) rs ;;
    if Qeq_bool s1 0 then Err UB else Ok (map (scale s1) t).
(** Graph.cpp:719-728; None is the "not a number" of a graph with fewer than two nodes *)
Definition averageDistance (n : nat) (adj : nat -> list nat) (s : Q) (rs : list nat) : out (option Q) :=
  r <- distanceDistribution n adj s rs ;;
  if length r <? n then Err UB
  else
    let res := list_sum (map (fun i => i * nth i r 0) (seq 0 n)) in
    if n <? 2 then Ok None else Ok (Some (qn res / (qn n * (qn n - 1)))%Q).
