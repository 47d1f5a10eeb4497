(** What the listing of the gates should say. *)
Require Import List Arith NArith String Bool.
Require Import Verif.Base Verif.CNFModel Verif.DimacsModel Verif.MainModel Verif.GateModel Verif.GateSpec.
Import ListNotations.
Open Scope list_scope.

(** the clauses with the given numbers, one in a line, and an empty line *)
Definition paragraph (cs : list clause) (f : list nat) : list nat :=
  flat_map (fun c => flat_map (fun l => print_lit l ++ bytes " ") (cl cs c) ++ [10]) f ++ [10].
(** the output of a gate, its forward and its backward clauses *)
Definition described (cs : list clause) (g : gproblem) (v : var) : list nat :=
  match g_out (nth v (gates g) gate_none) with
  | Some o => bytes "Gate with output " ++ print_lit o ++ bytes " is defined by clauses " ++
      paragraph cs (g_fwd (nth v (gates g) gate_none)) ++ paragraph cs (g_bwd (nth v (gates g) gate_none))
  | None => []
  end.
(** every gate in the list occurs in a root clause, or is an input of a gate further to the left *)
Definition top_down (cs : list clause) (g : gproblem) (vs : list var) : Prop :=
  forall a v b, vs = a ++ v :: b ->
    (exists c l, In c (roots g) /\ In l (cl cs c) /\ lvar l = v) \/ (exists u l, In u a /\ In l (g_inp (nth u (gates g) gate_none)) /\ lvar l = v).
(** the gate that joins the roots and the remaining clauses, with the fresh variable n as output *)
Definition described_top (cs : list clause) (n : nat) (g : gproblem) : list nat :=
  bytes "Gate with output " ++ print_lit (mkLit n false) ++ bytes " is defined by clauses " ++
  flat_map (fun c => flat_map (fun l => print_lit l ++ bytes " ") (cl cs c) ++ print_lit (mkLit n true) ++ bytes " " ++ [10]) (roots g ++ remainder g) ++ [10] ++ [10].
