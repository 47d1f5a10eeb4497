(** Vocabulary for C65: how often literals and variables occur, and searching without a conflict. *)
Require Import List Arith Bool QArith.
Require Import Verif.Base Verif.Outcome Verif.TrailModel Verif.TrailSpec Verif.BranchModel Verif.BranchSpec Verif.BranchCases.
Import ListNotations.
Local Open Scope nat_scope.

(** an occurrence in a clause of k literals counts 1/k *)
Definition weight (cs : list clause) (l : lit) : Q :=
  fold_right (fun c s => inject_Z (Z.of_nat (count_occ Nat.eq_dec c l)) / inject_Z (Z.of_nat (length c)) + s)%Q 0%Q cs.
Definition var_weight (cs : list clause) (v : var) : Q := (weight cs (mkLit v false) + weight cs (mkLit v true))%Q.
(** the clauses are over [n] variables *)
Definition over (n : nat) (cs : list clause) : Prop := forall c l, In c cs -> In l c -> lvar l < n.
Definition some_literal (cs : list clause) : Prop := exists c l, In c cs /\ In l c.

(** [m] is the greatest weight of a literal of [n] variables *)
Definition greatest (n : nat) (cs : list clause) (m : Q) : Prop :=
  (exists l, lvar l < n /\ (weight cs l == m)%Q) /\ forall l, lvar l < n -> (weight cs l <= m)%Q.

(** an unassigned decision variable *)
Definition choosable (t : trail_t) (v : var) : Prop := v < nvt t /\ isDecisionVar v t = true /\ vvalue t v = None.

(** The decision [p] is what the option promises: a choosable variable that occurs most, with the sign
    that occurs less; the positive sign if both occur equally often. *)
Definition sorted_choice (cs : list clause) (t : trail_t) (p : lit) : Prop :=
  choosable t (lvar p) /\
  (forall v, choosable t v -> (var_weight cs v <= var_weight cs (lvar p))%Q) /\
  (weight cs p <= weight cs (lneg p))%Q /\
  ((weight cs p == weight cs (lneg p))%Q -> lsign p = false).

(** Searching from the state [(t0, b0)] without a conflict: anything happens to the trail, the heuristic
    is asked and reset. *)
Inductive quiet_vs (t0 : trail_t) (b0 : vsids Qarith) : phase -> trail_t -> vsids Qarith -> Prop :=
| qv_start : quiet_vs t0 b0 Full t0 b0
| qv_trail ph t b o t' : quiet_vs t0 b0 ph t b -> trail_legal o t -> trail_exec o t = Ok t' -> quiet_vs t0 b0 (after_op o ph) t' b
| qv_assume ph t b ls : quiet_vs t0 b0 ph t b -> quiet_vs t0 b0 ph (setAssumptions ls t) b
| qv_flag ph t b v (x : bool) : quiet_vs t0 b0 ph t b -> quiet_vs t0 b0 (if x then Stale else ph) (setDecisionVar v x t) b
| qv_reset ph t b b' : quiet_vs t0 b0 ph t b -> nvt t <= length (vs_act Qarith b) -> vs_reset Qarith t b = Ok b' -> quiet_vs t0 b0 Full t b'
| qv_pick ph t b p q b' t' : quiet_vs t0 b0 ph t b -> ph <> Stale -> vs_pick Qarith t b = Ok (Some p, b') ->
    lvar q = lvar p -> decide q (newDecisionLevel t) = Ok t' -> quiet_vs t0 b0 Search t' b'
| qv_none ph t b b' : quiet_vs t0 b0 ph t b -> ph <> Stale -> vs_pick Qarith t b = Ok (None, b') -> quiet_vs t0 b0 Search t b'.
Inductive quiet_lr (t0 : trail_t) (b0 : lrb Qarith) : phase -> trail_t -> lrb Qarith -> Prop :=
| ql_start : quiet_lr t0 b0 Full t0 b0
| ql_trail ph t b o t' : quiet_lr t0 b0 ph t b -> trail_legal o t -> trail_exec o t = Ok t' -> quiet_lr t0 b0 (after_op o ph) t' b
| ql_assume ph t b ls : quiet_lr t0 b0 ph t b -> quiet_lr t0 b0 ph (setAssumptions ls t) b
| ql_flag ph t b v (x : bool) : quiet_lr t0 b0 ph t b -> quiet_lr t0 b0 (if x then Stale else ph) (setDecisionVar v x t) b
| ql_reset ph t b b' : quiet_lr t0 b0 ph t b -> nvt t <= length (lr_w Qarith b) -> lr_reset Qarith t b = Ok b' -> quiet_lr t0 b0 Full t b'
| ql_pick ph t b p b' t' : quiet_lr t0 b0 ph t b -> ph <> Stale -> lr_pick Qarith t b = Ok (Some p, b') ->
    decide p (newDecisionLevel t) = Ok t' -> quiet_lr t0 b0 Search t' b'
| ql_none ph t b b' : quiet_lr t0 b0 ph t b -> ph <> Stale -> lr_pick Qarith t b = Ok (None, b') -> quiet_lr t0 b0 Search t b'.
