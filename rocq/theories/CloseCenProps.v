(** C74: closeness centralities. *)
Require Import List Arith Bool QArith.
Require Import Verif.Base Verif.Outcome Verif.GraphModel Verif.GraphSpec Verif.GraphCases Verif.DistSpec Verif.CloseModel Verif.CloseSpec Verif.CloseCenModel Verif.CloseCenProofs.
Import ListNotations.
Open Scope nat_scope.

(** Every node of the largest component gets the number of nodes divided by the sum of the distances to it; infinity exactly if that sum is 0. *)
Theorem C74_inside : forall g, closed (g_n g) (g_E g) -> 2 <= g_n g -> g_undir g = true ->
  exists vs, closenessCentrality g = Ok vs /\ length vs = g_n g /\ forall i, i < g_n g -> inScope g i LWCC = true ->
    exists T, sum_to (g_n g) (g_E g) i T /\ match nth i vs None with Some q => T <> 0 /\ (q == qnat (g_n g) / qnat T)%Q | None => T = 0 end.
Proof. exact (fun g A B C => match centrality_ok g A B C with ex_intro _ vs (conj E (conj L H)) => ex_intro _ vs (conj E (conj L (fun i Hi => proj1 (H i Hi)))) end). Qed.
Print Assumptions C74_inside.
(** Every other node gets the sum of the distances from it divided by the size of its component, and minus the sum if the components were not computed. *)
Theorem C74_outside : forall g, closed (g_n g) (g_E g) -> 2 <= g_n g -> g_undir g = true ->
  exists vs, closenessCentrality g = Ok vs /\ length vs = g_n g /\ forall i, i < g_n g -> inScope g i LWCC = false ->
    exists m q, nth i vs None = Some q /\ sum_from (g_n g) (g_E g) i m /\
      match g_wcc g with Some w => q = (qnat m / qnat (w_nodes w (w_id w i)))%Q | None => (q == - qnat m)%Q end.
Proof. exact (fun g A B C => match centrality_ok g A B C with ex_intro _ vs (conj E (conj L H)) => ex_intro _ vs (conj E (conj L (fun i Hi => proj2 (H i Hi)))) end). Qed.
Print Assumptions C74_outside.

(** In the largest component the smaller sum has the greater value. *)
Theorem C74_order : forall g i j T U, closed (g_n g) (g_E g) -> 2 <= g_n g -> g_undir g = true -> i < g_n g -> j < g_n g -> inScope g i LWCC = true -> inScope g j LWCC = true ->
  sum_to (g_n g) (g_E g) i T -> sum_to (g_n g) (g_E g) j U -> 0 < T -> T < U ->
  exists vs p q, closenessCentrality g = Ok vs /\ nth i vs None = Some p /\ nth j vs None = Some q /\ (q < p)%Q.
Proof. exact order_ok. Qed.
Print Assumptions C74_order.
(** In every other component the smaller sum has the smaller value. *)
Theorem C74_reversed : forall g w i j m k, closed (g_n g) (g_E g) -> 2 <= g_n g -> g_undir g = true -> i < g_n g -> j < g_n g -> inScope g i LWCC = false -> inScope g j LWCC = false ->
  g_wcc g = Some w -> w_id w i = w_id w j -> 0 < w_nodes w (w_id w i) -> sum_from (g_n g) (g_E g) i m -> sum_from (g_n g) (g_E g) j k -> m < k ->
  exists vs p q, closenessCentrality g = Ok vs /\ nth i vs None = Some p /\ nth j vs None = Some q /\ (p < q)%Q.
Proof. exact reversed_ok. Qed.
Print Assumptions C74_reversed.

Definition cshow (s : out graph) : option (out (list (option Q)) * list bool) :=
  match s with Ok g => Some (vs <- closenessCentrality g ;; Ok (map (option_map Qred) vs), map (fun i => inScope g i LWCC) (seq 0 (g_n g))) | Err _ => None end.
(** A path of four nodes and a path of three, with the components computed: in the larger component the inner nodes 1 and 2 have the greater values, in the smaller one the
    inner node 5 has the smaller value.  So a greater value does not mean a more central node. *)
Theorem C74_order_refuted : cshow (init_graph false true 7 pathcls) =
  Some (Ok [Some (7 # 6); Some (7 # 4); Some (7 # 4); Some (7 # 6); Some 1; Some (2 # 3); Some 1]%Q, [true; true; true; true; false; false; false]).
Proof. vm_compute. reflexivity. Qed.
Print Assumptions C74_order_refuted.
(** Without the components all values are negative. *)
Theorem C74_no_components_refuted : cshow (init_graph false false 7 pathcls) =
  Some (Ok [Some (-6 # 1); Some (-4 # 1); Some (-4 # 1); Some (-6 # 1); Some (-3 # 1); Some (-2 # 1); Some (-3 # 1)]%Q, [false; false; false; false; false; false; false]).
Proof. vm_compute. reflexivity. Qed.
Print Assumptions C74_no_components_refuted.
(** The graph of these clauses meets the conditions. *)
Example C74_case : match init_graph false true 7 pathcls with Ok g => closed (g_n g) (g_E g) /\ 2 <= g_n g /\ g_undir g = true | Err _ => False end.
Proof.
  vm_compute. split; [|split; [repeat constructor|reflexivity]]. intros x y H Hy. do 7 (destruct x as [|x]; [repeat (destruct Hy as [<-|Hy]; [repeat constructor|]); destruct Hy|]). do 7 apply Nat.succ_lt_mono in H. inversion H.
Qed.
Print Assumptions C74_case.
(** The nodes 1 and 0 meet the conditions of C74_order, the nodes 5 and 4 those of C74_reversed (the sums are the ones of C73_totals and C73_sum). *)
Example C74_order_case : match init_graph false true 7 pathcls with
  | Ok g => closenessTotals (g_n g) (g_E g) = Ok [6; 4; 4; 6; 3; 2; 3] /\ closenessSum (g_n g) (g_E g) 5 = Ok 2 /\ closenessSum (g_n g) (g_E g) 4 = Ok 3 /\
      match g_wcc g with Some w => w_id w 5 = w_id w 4 /\ w_nodes w (w_id w 5) = 3 | None => False end
  | Err _ => False end.
Proof. vm_compute. repeat split. Qed.
Print Assumptions C74_order_case.
