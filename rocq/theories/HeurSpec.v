(** Specification for C55: the input variables a gate output depends on, and what a refinement step removes. *)
Require Import List Arith Bool NArith Permutation.
Require Import Verif.Base Verif.GateModel Verif.GateSpec.
Import ListNotations.

(** [x] is an input of the circuit (no gate defines it) and an input of the gate of [v] or of a gate below it *)
Definition depends (gs : list gate) (v x : var) : Prop :=
  defined gs x = false /\
  exists u, (u = v \/ path (fun _ => false) gs v u) /\ exists i, In i (g_inp (nth u gs gate_none)) /\ lvar i = x.
(** [v] depends on more than [limit] inputs of the circuit *)
Definition depends_on_more (gs : list gate) (v : var) (limit : N) : Prop :=
  exists l, NoDup l /\ (forall x, In x l -> depends gs v x) /\ (limit < N.of_nat (length l))%N.

(** Heuristics.h:91-97: in step X all outputs that depend on more than iX input variables are removed, behind the last
    limit all outputs are.  [gone k v]: the steps 0 .. k remove the variable [v] *)
Definition gone (gs : list gate) (root_lits : list lit) (config : list N) (k : nat) (v : var) : Prop :=
  reachable (fun _ => false) gs root_lits v /\
  (length config <= k \/ exists i limit, i <= k /\ nth_error config i = Some limit /\ depends_on_more gs v limit).

(** the assignment satisfies the conjectures about the variables that are not removed *)
Definition respects (removed : var -> Prop) (eqs : list (list lit)) (bs : list lit) (a : assignment) : Prop :=
  (forall ls x y, In ls eqs -> In x ls -> In y ls -> ~ removed (lvar x) -> ~ removed (lvar y) -> lit_val a x = lit_val a y) /\
  (forall l, In l bs -> ~ removed (lvar l) -> lit_holds a l).
