(** Model of CNFProblem (src/candy/core/CNFProblem.{h,cc}) and CandySolverResult
    (src/candy/core/CandySolverResult.h), without text input/output. *)
Require Import List Arith Bool Verif.Base.
Import ListNotations.

(** std::sort on literals (CNFProblem.cc:115).  The order on [Lit::x] is total and equal
    keys are equal values, so every correct sorting algorithm returns this list. *)
Fixpoint insert (x : nat) (l : list nat) : list nat :=
  match l with
  | [] => [x]
  | y :: r => if x <=? y then x :: l else y :: insert x r
  end.
Definition sort (l : list nat) : list nat := fold_right insert [] l.

(** std::unique(begin, end, pred): keep an element iff it differs from the last kept one. *)
Fixpoint unique_from (eq : nat -> nat -> bool) (kept : nat) (l : list nat) : list nat :=
  match l with
  | [] => []
  | x :: r => if eq kept x then unique_from eq kept r else x :: unique_from eq x r
  end.
Definition unique (eq : nat -> nat -> bool) (l : list nat) : list nat :=
  match l with
  | [] => []
  | x :: r => x :: unique_from eq x r
  end.

(** CNFProblem.h: members [problem] and [variables]. *)
Record cnf := mkCnf { problem : list clause; variables : nat }.
Definition cnf_empty : cnf := mkCnf [] 0.

(** CNFProblem.cc:111-128, readClause.  [variables] is unsigned and literals are below 2^31,
    so the additions do not wrap. *)
Definition readClause (p : cnf) (c : clause) : cnf :=
  match c with
  | [] => mkCnf (problem p ++ [[]]) (variables p)
  | _ :: _ =>
    let s := sort c in
    let vs := max (variables p) (lvar (last s 0) + 1) in
    let u := unique Nat.eqb s in
    let isTautological :=
      negb (length (unique (fun l1 l2 => lvar l1 =? lvar l2) u) =? length u) in
    if isTautological then mkCnf (problem p) vs
    else mkCnf (problem p ++ [u]) vs
  end.

(** CNFProblem.cc:105-109, readClauses *)
Definition readClauses (p : cnf) (f : list clause) : cnf := fold_left readClause f p.

(** CandySolverResult.h:34, [std::vector<lbool> model]; l_Undef is [None]. *)
Definition model := list (option bool).

Definition set_nth {A} (n : nat) (x : A) (l : list A) : list A :=
  firstn n l ++ match skipn n l with [] => [] | _ :: r => x :: r end.

(** CandySolverResult.h:65-70, setModelValue *)
Definition setModelValue (m : model) (l : lit) : model :=
  let m := if length m <=? lvar l then m ++ repeat None (lvar l + 1 - length m) else m in
  set_nth (lvar l) (Some (negb (lsign l))) m.

(** CandySolverResult.h:59-63, setModel: write the trail in order *)
Definition setModel (m : model) (trail : list lit) : model := fold_left setModelValue trail m.

(** CandySolverResult.h:76-78, satisfies (bounds test included) *)
Definition satisfies (m : model) (l : lit) : bool :=
  (lvar l <? length m) &&
  match nth (lvar l) m None with Some b => eqb (xorb b (lsign l)) true | None => false end.

(** CandySolverResult.h:81-91, value(Var): [None] is an out-of-bounds read (undefined behaviour);
    [Some None] is lit_Undef. *)
Definition value (m : model) (v : var) : option (option lit) :=
  match nth_error m v with
  | None => None
  | Some (Some false) => Some (Some (mkLit v true))
  | Some (Some true) => Some (Some (mkLit v false))
  | Some None => Some None
  end.

(** CandySolverResult.h:93-104, getModelLiterals *)
Fixpoint getModelLiterals_from (v : var) (m : model) : list lit :=
  match m with
  | [] => []
  | Some b :: r => mkLit v (negb b) :: getModelLiterals_from (S v) r
  | None :: r => getModelLiterals_from (S v) r
  end.
Definition getModelLiterals (m : model) : list lit := getModelLiterals_from 0 m.

(** CNFProblem.cc:130-149, checkResult.  The diagnostic output reads [value] of every literal of
    the first clause that is not satisfied; [None] = that read is out of bounds. *)
Fixpoint checkResult (f : list clause) (m : model) : option bool :=
  match f with
  | [] => Some true
  | c :: r =>
    if existsb (satisfies m) c then checkResult r m
    else if forallb (fun l => match value m (lvar l) with None => false | Some _ => true end) c
         then Some false else None
  end.

(** CNFProblem.cc:155-166, normalizeVariableNames: [name] is the unordered_map (missing = the
    default Var() = -1 = [None]), [max] the counter. *)
Definition names := var -> option var.
Definition norm_lit (st : names * nat) (l : lit) : (names * nat) * lit :=
  let (name, mx) := st in
  match name (lvar l) with
  | Some w => ((name, mx), mkLit w (lsign l))
  | None => ((fun v => if v =? lvar l then Some mx else name v, S mx), mkLit mx (lsign l))
  end.
Fixpoint norm_clause (st : names * nat) (c : clause) : (names * nat) * clause :=
  match c with
  | [] => (st, [])
  | l :: r => let (st1, l') := norm_lit st l in
              let (st2, r') := norm_clause st1 r in (st2, l' :: r')
  end.
Fixpoint norm_clauses (st : names * nat) (f : list clause) : (names * nat) * list clause :=
  match f with
  | [] => (st, [])
  | c :: r => let (st1, c') := norm_clause st c in
              let (st2, r') := norm_clauses st1 r in (st2, c' :: r')
  end.
Definition normalizeVariableNames (p : cnf) : cnf :=
  let '((_, mx), f) := norm_clauses (fun _ => None, 0) (problem p) in mkCnf f mx.
