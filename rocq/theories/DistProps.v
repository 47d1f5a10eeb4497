(** C70: distances in a graph. *)
Require Import List Arith Bool.
Require Import Verif.Base Verif.Outcome Verif.GraphModel Verif.GraphSpec Verif.GraphCases Verif.DistModel Verif.DistSpec Verif.DistProofs.
Import ListNotations.

(** The distance of two nodes is the length of a shortest walk; there is none exactly if no walk exists. *)
Theorem C70_distance : forall n adj u v, closed n adj -> u < n -> v < n -> exists r, distance n adj u v = Ok r /\ is_distance adj u v r.
Proof. exact distance_ok. Qed.
Print Assumptions C70_distance.
Theorem C70_all_distances : forall n adj u, closed n adj -> u < n ->
  exists ds, alldistances n adj u = Ok ds /\ length ds = n /\ forall v, v < n -> is_distance adj u v (nth v ds None).
Proof. exact alldistances_ok. Qed.
Print Assumptions C70_all_distances.
(** The version with totals returns the same distances and adds to every total the number of nodes at that distance, if the table
    has a place for every possible distance. *)
Theorem C70_totals : forall n adj u t, closed n adj -> u < n -> n <= length t -> exists ds t1, distances n adj u t = Ok (ds, t1) /\ alldistances n adj u = Ok ds /\
  length t1 = length t /\ forall k, k < length t -> nth k t1 0 = nth k t 0 + occurrences k ds.
Proof. exact distances_ok. Qed.
Print Assumptions C70_totals.
(** In the graph of the variables of a formula: the least number of steps from one variable to the other, each within a clause. *)
Theorem C70_variables : forall rtl nvars cls x y, usable nvars cls -> linked cls x -> linked cls y ->
  exists g i j r, init_graph rtl false nvars cls = Ok g /\ mapNode g x = (g, i) /\ mapNode g y = (g, j) /\ distance (g_n g) (g_E g) i j = Ok r /\ nearest cls x y r.
Proof. exact distance_variables. Qed.
Print Assumptions C70_variables.

(** a directed graph with a shortcut, a cycle and a node that is not reached *)
Definition dgraph (x : nat) : list nat := nth x [[1; 2]; [3]; [4]; [4]; [0; 5]; [5]; [0]] [].
Example C70_case : closed 7 dgraph /\ alldistances 7 dgraph 0 = Ok [Some 0; Some 1; Some 1; Some 2; Some 2; Some 3; None] /\ distance 7 dgraph 0 5 = Ok (Some 3) /\ distance 7 dgraph 0 6 = Ok None /\
  distances 7 dgraph 0 (repeat 1 7) = Ok ([Some 0; Some 1; Some 1; Some 2; Some 2; Some 3; None], [2; 3; 3; 2; 1; 1; 1]).
Proof.
  split; [|vm_compute; auto]. intros x y H Hy. do 7 (destruct x as [|x]; [cbn in Hy; repeat (destruct Hy as [<-|Hy]; [repeat constructor|]); destruct Hy|]). do 7 apply Nat.succ_lt_mono in H. inversion H.
Qed.
Print Assumptions C70_case.
Example C70_variables_case : usable 6 gcls /\ linked gcls 0 /\ linked gcls 3 /\ nearest gcls 0 3 (Some 2).
Proof.
  assert (LL : linked gcls 0 /\ linked gcls 3). { split; [exists [2 * 0; 2 * 1]|exists [2 * 1; 2 * 2; S (2 * 3)]]; (split; [cbn; tauto|split; [cbn; repeat constructor|cbn; tauto]]). }
  destruct LL as (L0 & L3). split; [exact gcls_usable|]. split; auto. split; auto. destruct (C70_variables true 6 gcls 0 3 gcls_usable L0 L3) as (g & i & j & r & E & EI & EJ & ED & N).
  vm_compute in E. injection E as <-. vm_compute in EI. injection EI as <-. vm_compute in EJ. injection EJ as <-. vm_compute in ED. injection ED as <-. exact N.
Qed.
Print Assumptions C70_variables_case.
