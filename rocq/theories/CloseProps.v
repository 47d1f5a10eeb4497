(** C73: sums of distances. *)
Require Import List Arith Bool.
Require Import Verif.Base Verif.Outcome Verif.DistModel Verif.DistSpec Verif.DistProps Verif.CloseModel Verif.CloseSpec Verif.CloseProofs.
Import ListNotations.

(** The sum for a node is the sum of the lengths of shortest walks to the nodes it reaches. *)
Theorem C73_sum : forall n adj u, closed n adj -> u < n -> exists m, closenessSum n adj u = Ok m /\ sum_from n adj u m.
Proof. exact sum_ok. Qed.
Print Assumptions C73_sum.
(** The version with a table returns the distances and adds each to the entry of its node. *)
Theorem C73_table : forall n adj u t, closed n adj -> u < n -> n <= length t -> exists ds t1, closenesses n adj u t = Ok (ds, t1) /\ length ds = n /\
  (forall v, v < n -> is_distance adj u v (nth v ds None)) /\ length t1 = length t /\ forall v, v < n -> nth v t1 0 = nth v t 0 + reached (nth v ds None).
Proof. exact closenesses_ok. Qed.
Print Assumptions C73_table.
(** The totals from which the centralities are derived: for every node the sum of the distances to it. *)
Theorem C73_totals : forall n adj, closed n adj -> exists t, closenessTotals n adj = Ok t /\ length t = n /\ forall v, v < n -> sum_to n adj v (nth v t 0).
Proof. exact totals_ok. Qed.
Print Assumptions C73_totals.
Example C73_case : closed 7 dgraph /\ closenessSum 7 dgraph 0 = Ok 9 /\ closenessTotals 7 dgraph = Ok [9; 11; 12; 13; 9; 15; 0].
Proof. split; [apply C70_case|]. split; vm_compute; reflexivity. Qed.
Print Assumptions C73_case.
