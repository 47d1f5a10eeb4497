(** Specification for C56: which gate structures look like a miter. *)
Require Import List Arith Bool.
Require Import Verif.Base Verif.GateModel Verif.GateSpec.
Import ListNotations.

Definition inputs_of (gs : list gate) (v : var) : list lit := g_inp (nth v gs gate_none).
(** the output of a gate that is nested in the circuit with both signs *)
Definition nonmonotonous (gs : list gate) (v : var) : Prop := defined gs v = true /\ g_notMono (nth v gs gate_none) = true.
Definition monotonous (gs : list gate) (v : var) : Prop := defined gs v = true /\ g_notMono (nth v gs gate_none) = false.
(** the monotonously nested region below the roots *)
Inductive region (gs : list gate) (root_lits : list lit) : var -> Prop :=
| rg_root l : In l root_lits -> monotonous gs (lvar l) -> region gs root_lits (lvar l)
| rg_input v i : region gs root_lits v -> In i (inputs_of gs v) -> monotonous gs (lvar i) -> region gs root_lits (lvar i).
(** a gate of the region with an input that is not the output of a gate of the region *)
Definition border (gs : list gate) (root_lits : list lit) (v : var) : Prop :=
  region gs root_lits v /\ exists i, In i (inputs_of gs v) /\ ~ region gs root_lits (lvar i).
Definition next_to_nonmonotonous (gs : list gate) (root_lits : list lit) : Prop :=
  (exists l, In l root_lits /\ nonmonotonous gs (lvar l)) \/ (exists v i, region gs root_lits v /\ In i (inputs_of gs v) /\ nonmonotonous gs (lvar i)).
Definition two_input_variables (gs : list gate) (v : var) : Prop :=
  exists x y, x <> y /\ forall z, (exists i, In i (inputs_of gs v) /\ lvar i = z) <-> z = x \/ z = y.
(** all border gates together: every input literal belongs to one gate only, and its negation to one of them as well *)
Definition aig_inputs (gs : list gate) (root_lits : list lit) : Prop :=
  (forall u v i, border gs root_lits u -> border gs root_lits v -> In i (inputs_of gs u) -> In i (inputs_of gs v) -> u = v) /\
  (forall v i, border gs root_lits v -> In i (inputs_of gs v) -> exists u, border gs root_lits u /\ In (lneg i) (inputs_of gs u)).
(** two forward clauses of three literals with five different literals together *)
Definition xor_clauses (cs : list clause) (g : gate) : Prop :=
  exists c1 c2 ls, g_fwd g = [c1; c2] /\ length (cl cs c1) = 3 /\ length (cl cs c2) = 3 /\
    NoDup ls /\ length ls = 5 /\ (forall l, In l ls <-> In l (cl cs c1) \/ In l (cl cs c2)).
Definition xor_inputs (cs : list clause) (gs : list gate) (root_lits : list lit) : Prop :=
  (forall v, border gs root_lits v -> xor_clauses cs (nth v gs gate_none)) /\
  (forall u v i j, border gs root_lits u -> border gs root_lits v -> In i (inputs_of gs u) -> In j (inputs_of gs v) -> lvar i = lvar j -> u = v).
Definition miter_like (cs : list clause) (gs : list gate) (root_lits : list lit) : Prop :=
  (exists v, border gs root_lits v) /\ next_to_nonmonotonous gs root_lits /\ (forall v, border gs root_lits v -> two_input_variables gs v) /\
  (aig_inputs gs root_lits \/ xor_inputs cs gs root_lits).
