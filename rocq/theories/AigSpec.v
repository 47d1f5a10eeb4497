(** Specification vocabulary for cnf2aig: when an assignment is an evaluation of a circuit, and what a file in the ASCII AIGER
    format means. *)
Require Import List Arith Bool.
Require Import Verif.Base Verif.Outcome Verif.CNFModel Verif.GateModel Verif.AigModel.
Import ListNotations.

(** the value of an optional operand; a missing operand is true *)
Definition operand (x : assignment) (r : option lit) : bool := match r with Some l => lit_val x l | None => true end.
(** every and-gate has the value of the conjunction of its operands *)
Definition evaluation (a : aig) (x : assignment) : Prop :=
  forall o l r, In (o, l, r) (aig_ands a) -> lit_val x o = lit_val x l && operand x r.

(** An AIGER literal is twice its variable, plus one if negated, as in Base.v; variable 0 is the constant false. *)
Definition aiger_evaluation (f : aiger) (x : assignment) : Prop :=
  x 0 = false /\ forall o l r, In (o, l, r) (f_ands f) -> lit_val x o = lit_val x l && lit_val x r.
(** some assignment of the inputs makes the output true *)
Definition aiger_satisfiable (f : aiger) : Prop := exists x, aiger_evaluation f x /\ lit_val x (f_output f) = true.

Definition and_output (b : nat * nat * nat) : nat := fst (fst b).
(** The format (Biere, The AIGER And-Inverter Graph Format, section 3): the header counts what follows; inputs and the left-hand
    sides of and-gates are positive literals of different variables other than 0; no literal exceeds the maximal variable; every
    operand is a constant, an input or defined by an and-gate; definitions are not cyclic. *)
Record aiger_format (f : aiger) : Prop := {
  af_I : h_I f = length (f_inputs f);
  af_L : h_L f = 0;
  af_O : h_O f = 1;
  af_A : h_A f = length (f_ands f);
  af_distinct : NoDup (f_inputs f ++ map and_output (f_ands f));
  af_even : forall k, In k (f_inputs f ++ map and_output (f_ands f)) -> exists v, k = mkLit v false /\ 1 <= v <= h_M f;
  af_known : forall k, (k = f_output f \/ exists o l r, In (o, l, r) (f_ands f) /\ (k = l \/ k = r)) ->
    lvar k = 0 \/ In (mkLit (lvar k) false) (f_inputs f ++ map and_output (f_ands f));
  af_acyclic : exists rank : nat -> nat, forall o l r, In (o, l, r) (f_ands f) ->
    forall k, k = l \/ k = r -> In (mkLit (lvar k) false) (map and_output (f_ands f)) -> rank (lvar k) < rank (lvar o)
}.

(** the literals that a gate or a root uses: the forward clauses without the negated output, the roots and the remainder *)
Definition gate_uses (cs : list clause) (g : gproblem) (l : lit) : Prop :=
  (exists c, In c (roots g ++ remainder g) /\ In l (cl cs c)) \/ exists u, In l (g_inp (nth u (gates g) gate_none)).
