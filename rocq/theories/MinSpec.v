(** What it means to keep a part of a model. *)
Require Import List Verif.Base.
Import ListNotations.

Definition agrees (a : assignment) (kept : list lit) : Prop := forall l, In l kept -> lit_holds a l.
(** every assignment that agrees with the kept literals satisfies the clauses *)
Definition implicant (kept : list lit) (f : formula) : Prop := forall a, agrees a kept -> sat a f.
(** no literal can be given up *)
Definition prime_implicant (kept : list lit) (f : formula) : Prop :=
  implicant kept f /\ forall l, In l kept -> exists a, (forall l', In l' kept -> l' <> l -> lit_holds a l') /\ ~ sat a f.

(** Numbers written as literals, the lowest bit first. *)
Definition bit (a : assignment) (l : lit) : nat := if lit_val a l then 1 else 0.
Fixpoint number (a : assignment) (bits : list lit) : nat := match bits with [] => 0 | l :: r => bit a l + 2 * number a r end.
(** how many of the literals are true *)
Fixpoint count_true (a : assignment) (ls : list lit) : nat := match ls with [] => 0 | l :: r => bit a l + count_true a r end.
