(** Model of Graph::closenessCentrality for the scope FULL and the sample size 1.0, and of Graph::closeness
    (src/candy/teexgraph/CenGraph.cpp:9-12, 66-124; Graph.cpp:167-178).  double and long double are exact numbers, the infinite value is None; the unused
    sum [total] is left out. *)
Require Import List Arith Bool QArith.
Require Import Verif.Base Verif.Outcome Verif.GraphModel Verif.CloseModel.
Import ListNotations.
Open Scope nat_scope.

Definition qnat (k : nat) : Q := inject_Z (Z.of_nat k).
(** CenGraph.cpp:10-12 with Graph.cpp:167-178: -1 is the number of nodes of a component if the components are not computed *)
Definition closeness (g : graph) (u : nat) : out Q :=
  m <- closenessSum (g_n g) (g_E g) u ;;
  Ok (match g_wcc g with Some w => qnat m / qnat (w_nodes w (w_id w u)) | None => qnat m / (- (1)) end)%Q.
(** CenGraph.cpp:117-121: the nodes [is], [t] is alllongarray *)
Fixpoint cen_results (g : graph) (t is : list nat) : out (list (option Q)) :=
  match is with
  | [] => Ok []
  | i :: r =>
    v <- (if inScope g i LWCC
          then Ok (if nth i t 0 =? 0 then None else Some (1 / (qnat (nth i t 0%nat) / qnat (g_n g)))%Q)
          else c <- closeness g i ;; Ok (Some c)) ;;
    vs <- cen_results g t r ;; Ok (v :: vs)
  end.
(** CenGraph.cpp:66-124 *)
Definition closenessCentrality (g : graph) : out (list (option Q)) :=
  if negb (g_undir g) || (g_n g <? 2) then Ok (repeat (Some (- (1))%Q) (g_n g))
  else t <- closenessTotals (g_n g) (g_E g) ;; cen_results g t (seq 0 (g_n g)).
