(** Specification vocabulary for gates. *)
Require Import List Arith Bool NArith.
Require Import Verif.Base Verif.Outcome Verif.CNFModel Verif.GateModel.
Import ListNotations.

(** what CNFProblem guarantees of its clauses (C03) *)
Definition wf_problem (n : nat) (cs : list clause) : Prop :=
  forall c, In c cs -> NoDup c /\ ~ tautology c /\ forall l, In l c -> lvar l < n.

(** the resolvent of c (containing o) and d (containing the negation of o) *)
Definition resolvent (o : lit) (c d : clause) : clause :=
  filter (fun l => negb (l =? o)) c ++ filter (fun l => negb (l =? lneg o)) d.
(** among the clauses (numbers) R, all resolvents of clause number c on o are tautologies *)
Definition blocked (cs : list clause) (R : list nat) (o : lit) (c : nat) : Prop :=
  forall d, In d R -> In (lneg o) (cl cs d) -> tautology (resolvent o (cl cs c) (cl cs d)).

(** Operations of the block list that change or may change its state, and what they mean for the set of clauses:
    remove takes clauses away, strip takes away the unblocked clauses of a literal, the queries change nothing. *)
Inductive bop := BRemove (l : list nat) | BStrip (o : lit) | BNum (o : lit) | BSet (o : lit) | BMin.
Definition bstep (cs : list clause) (n : nat) (op : bop) (b : blocklist) : blocklist :=
  match op with
  | BRemove l => bl_remove cs l b
  | BStrip o => snd (stripUnblockedClauses cs o b)
  | BNum o => snd (getNumBlocked cs o b)
  | BSet o => snd (isBlockedSet cs o b)
  | BMin => snd (getMinimallyUnblockedLiteral cs n b)
  end.
Definition bop_ok (cs : list clause) (n : nat) (op : bop) : Prop :=
  match op with
  | BRemove l => forall c, In c l -> c < length cs
  | BStrip o | BNum o | BSet o => o < 2 * n
  | BMin => True
  end.
(** [history ops R]: after the operations exactly the clauses R are present *)
Inductive history (cs : list clause) : list bop -> list nat -> Prop :=
| h_nil : history cs [] (seq 0 (length cs))
| h_remove ops l R R' : history cs ops R -> NoDup R' -> (forall c, In c R' <-> In c R /\ ~ In c l) -> history cs (ops ++ [BRemove l]) R'
| h_strip ops o R R' : history cs ops R -> NoDup R' -> (forall c, In c R' <-> In c R /\ (In o (cl cs c) -> blocked cs R o c)) -> history cs (ops ++ [BStrip o]) R'
| h_num ops o R : history cs ops R -> history cs (ops ++ [BNum o]) R
| h_set ops o R : history cs ops R -> history cs (ops ++ [BSet o]) R
| h_min ops R : history cs ops R -> history cs (ops ++ [BMin]) R.
(** the block list built from the problem, after the operations *)
Definition block_state (cs : list clause) (n : nat) (ops : list bop) : blocklist := fold_left (fun b op => bstep cs n op b) ops (bl_new n cs).
(** exactly k numbers satisfy P *)
Definition count_is (P : nat -> Prop) (k : nat) : Prop := exists l, NoDup l /\ (forall x, In x l <-> P x) /\ length l = k.
(** k present clauses with the literal are not blocked on it *)
Definition unblocked_count (cs : list clause) (R : list nat) (o : lit) (k : nat) : Prop := count_is (fun c => In c R /\ In o (cl cs c) /\ ~ blocked cs R o c) k.

(** ** Gates *)
(** all clauses of the list (of numbers) hold *)
Definition holds (cs : list clause) (x : assignment) (f : list nat) : Prop := forall c, In c f -> sat_clause x (cl cs c).
(** the assignment that differs from x only in that the literal o is true *)
Definition make_true (x : assignment) (o : lit) : assignment := fun v => if v =? lvar o then negb (lsign o) else x v.
(** the clauses leave exactly one value for the variable of o, whatever the other variables are *)
Definition functional (cs : list clause) (o : lit) (f : list nat) : Prop :=
  forall x, (holds cs (make_true x o) f /\ ~ holds cs (make_true x (lneg o)) f) \/ (~ holds cs (make_true x o) f /\ holds cs (make_true x (lneg o)) f).
(** at least one value *)
Definition left_total (cs : list clause) (o : lit) (f : list nat) : Prop :=
  forall x, holds cs (make_true x o) f \/ holds cs (make_true x (lneg o)) f.
(** the solver answers unsatisfiable only for unsatisfiable formulas (C21) *)
Definition sound_solver (cfg : config) : Prop := forall k f, solver cfg k f = true -> unsat (problem f).
Definition gate_clauses (g : gate) : list nat := g_fwd g ++ g_bwd g.

(** ** Traversal *)
(** v is the output of an input gate of u, both not pruned *)
Definition child (prune : var -> bool) (gs : list gate) (u v : var) : Prop :=
  defined gs v = true /\ prune v = false /\ exists i, In i (g_inp (nth u gs gate_none)) /\ lvar i = v.
(** gates reached from the roots through gates that are not pruned *)
Inductive reachable (prune : var -> bool) (gs : list gate) (root_lits : list lit) : var -> Prop :=
| r_root l : In l root_lits -> defined gs (lvar l) = true -> prune (lvar l) = false -> reachable prune gs root_lits (lvar l)
| r_child u v : reachable prune gs root_lits u -> child prune gs u v -> reachable prune gs root_lits v.
Inductive path (prune : var -> bool) (gs : list gate) : var -> var -> Prop :=
| p_one u v : child prune gs u v -> path prune gs u v
| p_more u v w : child prune gs u v -> path prune gs v w -> path prune gs u w.
(** the events of one kind, in order *)
Definition backtracked (es : list event) : list var := flat_map (fun e => match e with EBacktrack v => [v] | _ => [] end) es.
Definition collected (es : list event) : list var := flat_map (fun e => match e with ECollect v => [v] | _ => [] end) es.
Definition input_vars (es : list event) : list var := flat_map (fun e => match e with EInput v => [v] | _ => [] end) es.
(** x occurs before y *)
Definition before {A} (x y : A) (l : list A) : Prop := exists a b c, l = a ++ x :: b ++ y :: c.
Definition acyclic (prune : var -> bool) (gs : list gate) : Prop := forall v, ~ path prune gs v v.
(** no access outside the array of gates *)
Definition in_range (gs : list gate) (root_lits : list lit) : Prop :=
  (forall l, In l root_lits -> lvar l < length gs) /\ (forall g l, In g gs -> In l (g_inp g) -> lvar l < length gs).

(** every clause of the gate contains the output variable and all input variables, and no two clauses have the same literals *)
Definition complete_clauses (cs : list clause) (g : gate) : Prop :=
  (forall c, In c (gate_clauses g) -> length (cl cs c) = S (length (nodup Nat.eq_dec (map lvar (g_inp g))))) /\
  (forall c d, In c (gate_clauses g) -> In d (gate_clauses g) -> (forall l, In l (cl cs c) <-> In l (cl cs d)) -> c = d).

(** the literals that occur when the gates are unfolded from the roots: an input under the output of its gate, a negated input
    under the negated output *)
Inductive occurs (root_lits : list lit) (gs : list gate) : lit -> Prop :=
| oc_root l : In l root_lits -> occurs root_lits gs l
| oc_pos u o l : occurs root_lits gs o -> g_out (nth u gs gate_none) = Some o -> In l (g_inp (nth u gs gate_none)) -> occurs root_lits gs l
| oc_neg u o l : occurs root_lits gs (lneg o) -> g_out (nth u gs gate_none) = Some o -> In (lneg l) (g_inp (nth u gs gate_none)) -> occurs root_lits gs l.
