(** Specification vocabulary for the recursive clause order. *)
Require Import List Arith Bool.
Require Import Verif.Base Verif.Outcome Verif.CNFModel Verif.GateModel Verif.GateSpec.
Import ListNotations.

(** the gates that are simulated: all below the roots, with the filter only those that are not nested monotonically *)
Definition selected (filtered : bool) (gs : list gate) (rl : list lit) (v : var) : Prop :=
  reachable (fun _ => false) gs rl v /\ (filtered = true -> g_notMono (nth v gs gate_none) = true).
(** no root literal of a gate is preceded by one from which the gate is reached *)
Definition roots_apart (gs : list gate) (rl : list lit) : Prop :=
  forall a l b, rl = a ++ l :: b -> defined gs (lvar l) = true -> ~ reachable (fun _ => false) gs a (lvar l).
