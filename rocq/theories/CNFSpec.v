(** Specification vocabulary for the problem container and result properties. *)
Require Import List Arith Bool Sorted Verif.Base Verif.CNFModel.

Definition strictly_sorted (c : clause) := StronglySorted lt c.
Definition same_literals (c d : clause) := forall l, In l c <-> In l d.
Definition occurs (f : formula) (v : var) : Prop := exists c l, In c f /\ In l c /\ lvar l = v.
Definition rename (r : var -> var) (l : lit) : lit := mkLit (r (lvar l)) (lsign l).

(** the literal [l] is the recorded value of its variable *)
Definition assigns (m : model) (l : lit) : Prop :=
  nth_error m (lvar l) = Some (Some (negb (lsign l))).
