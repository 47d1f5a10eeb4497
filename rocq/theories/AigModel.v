(** Model of cnf2aig: src/candy/cnf2aig.cc, src/candy/gates/AIGProblem.h and GateProblem.h (normalizeRoots).

    The gates are those that the analysis (GateModel.v) reports.  An access outside an array is the outcome UB. *)
Require Import List Arith Bool.
Require Import Verif.Base Verif.Outcome Verif.CNFModel Verif.GateModel.
Import ListNotations.

(** ** GateProblem::normalizeRoots *)
(** GateProblem.h:34-42, the part that AIGProblem reads: output and forward clauses.  The clauses are given by value. *)
Record agate := mkAG { a_out : option lit; a_fwd : list clause }.
(** GateProblem.h:268-289: one more gate, whose output is the fresh variable nVars(), and whose forward clauses are the roots
    and the remainder, each with the negated output appended.  The code appends the literal to the problem's own clauses and
    copies them; the clauses of other gates are different objects (C34), so only the copies are visible afterwards. *)
Definition normalizeRoots (cs : list clause) (n : nat) (g : gproblem) : list agate :=
  map (fun gt => mkAG (g_out gt) (map (cl cs) (g_fwd gt))) (gates g) ++
  [mkAG (Some (mkLit n false)) (map (fun c => cl cs c ++ [mkLit n true]) (roots g ++ remainder g))].

(** ** AIGProblem *)
(** AIGProblem.h:55-62 without [ands]; [literals] is the stack, its head is back(); [ainputs] is the set of inputs in
    increasing order *)
Record astate := mkAS { var_count : nat; literals : list lit; ainputs : list var; visited : list bool; pands : list (lit * clause) }.
(** AIGProblem.h:65-72, for the problem after normalizeRoots: hasArtificialRoot() holds *)
Definition aig_new (n : nat) : astate := mkAS (S n) [mkLit n false] [] (repeat false (2 * S n)) [].

(** problem[var].isDefined(), GateProblem.h:40, 149-151 *)
Definition isDefined (gs : list agate) (v : var) : out bool :=
  match nth_error gs v with
  | Some g => Ok (match a_out g with Some _ => true | None => false end)
  | None => Err UB
  end.
(** std::set::insert *)
Fixpoint set_insert (v : nat) (l : list nat) : list nat :=
  match l with [] => [v] | x :: r => if v <? x then v :: l else if v =? x then l else x :: set_insert v r end.
(** AIGProblem.h:120-126 *)
Definition registerLiteral (gs : list agate) (l : lit) (s : astate) : out astate :=
  d <- isDefined gs (lvar l) ;;
  Ok (if d then mkAS (var_count s) (l :: literals s) (ainputs s) (visited s) (pands s)
      else mkAS (var_count s) (literals s) (set_insert (lvar l) (ainputs s)) (visited s) (pands s)).
(** AIGProblem.h:140-143 *)
Fixpoint registerLiterals (gs : list agate) (ls : list lit) (s : astate) : out astate :=
  match ls with [] => Ok s | l :: r => s1 <- registerLiteral gs l s ;; registerLiterals gs r s1 end.
(** AIGProblem.h:129-146, the loop: returns [conj], here [cj] *)
Fixpoint and_clauses (gs : list agate) (disjunctions : list clause) (cj : clause) (s : astate) : out (clause * astate) :=
  match disjunctions with
  | [] => Ok (cj, s)
  | [l] :: r => s1 <- registerLiteral gs l s ;; and_clauses gs r (cj ++ [l]) s1
  | c :: r =>
    let v := S (var_count s) in
    s1 <- registerLiterals gs c (mkAS v (literals s) (ainputs s) (visited s) (pands s)) ;;
    and_clauses gs r (cj ++ [mkLit v false]) (mkAS (var_count s1) (literals s1) (ainputs s1) (visited s1) (pands s1 ++ [(mkLit v true, map lneg c)]))
  end.
(** AIGProblem.h:128-148 *)
Definition createAndFromClauses (gs : list agate) (disjunctions : list clause) (output : lit) (s : astate) : out astate :=
  ' (cj, s1) <- and_clauses gs disjunctions [] s ;;
  Ok (mkAS (var_count s1) (literals s1) (ainputs s1) (visited s1) (pands s1 ++ [(output, cj)])).
(** AIGProblem.h:164-165: a vector one shorter than the clause receives the literals other than ~lit.  If ~lit is not in the
    clause the copy writes past the end of the vector.  If it occurs twice, the rest of the vector is lit_Undef, for which
    registerLiteral reads outside the array of gates (this does not happen: clauses of a CNFProblem have no duplicates). *)
Definition strip (l : lit) (c : clause) : out clause :=
  let r := filter (fun x => negb (x =? lneg l)) c in
  if S (length r) =? length c then Ok r else Err UB.
(** AIGProblem.h:162-167 *)
Fixpoint strip_all (l : lit) (cs : list clause) : out (list clause) :=
  match cs with [] => Ok [] | c :: r => x <- strip l c ;; y <- strip_all l r ;; Ok (x :: y) end.
(** AIGProblem.h:150-175 *)
Fixpoint createAnds (fuel : nat) (gs : list agate) (s : astate) : out astate :=
  match literals s with
  | [] => Ok s
  | l :: work =>
    match fuel with
    | O => Err Fuel
    | S fuel =>
      match nth_error (visited s) l with
      | None => Err UB
      | Some true => createAnds fuel gs (mkAS (var_count s) work (ainputs s) (visited s) (pands s))
      | Some false =>
        let s1 := mkAS (var_count s) work (ainputs s) (set_nth l true (visited s)) (pands s) in
        match nth_error gs (lvar l) with
        | None => Err UB
        | Some g => match a_out g with
                    | None => createAnds fuel gs s1
                    | Some _ => d <- strip_all l (a_fwd g) ;; s2 <- createAndFromClauses gs d l s1 ;; createAnds fuel gs s2
                    end
        end
      end
    end
  end.

(** AIGProblem.h:42-50; [None] is lit_Undef *)
Definition band : Type := (lit * lit * option lit)%type.
(** AIGProblem.h:177-191; [fuel] bounds the depth of the recursion, which does not end for an empty conjunction *)
Fixpoint convertNaryRecursive (fuel : nat) (cj : clause) (vc : nat) (ands : list band) : out (lit * nat * list band) :=
  match cj with
  | [l] => Ok (l, vc, ands)
  | _ =>
    match fuel with
    | O => Err Fuel
    | S fuel =>
      let pivot := length cj / 2 in
      ' (lf, vc1, ands1) <- convertNaryRecursive fuel (firstn pivot cj) vc ands ;;
      ' (rt, vc2, ands2) <- convertNaryRecursive fuel (skipn pivot cj) vc1 ands1 ;;
      Ok (mkLit (S vc2) false, S vc2, ands2 ++ [(mkLit (S vc2) false, lf, Some rt)])
    end
  end.
(** AIGProblem.h:193-210 *)
Fixpoint convertNaryAndsToBinaryAnds (ps : list (lit * clause)) (vc : nat) (ands : list band) : out (nat * list band) :=
  match ps with
  | [] => Ok (vc, ands)
  | (o, []) :: r => convertNaryAndsToBinaryAnds r vc ands
  | (o, [l]) :: r => convertNaryAndsToBinaryAnds r vc (ands ++ [(o, l, None)])
  | (o, cj) :: r =>
    let pivot := length cj / 2 in
    ' (lf, vc1, ands1) <- convertNaryRecursive (length cj) (firstn pivot cj) vc ands ;;
    ' (rt, vc2, ands2) <- convertNaryRecursive (length cj) (skipn pivot cj) vc1 ands1 ;;
    convertNaryAndsToBinaryAnds r vc2 (ands2 ++ [(o, lf, Some rt)])
  end.

(** the circuit: number of the last variable, inputs, root, and-gates *)
Record aig := mkAig { aig_vars : nat; aig_inputs : list var; aig_root : lit; aig_ands : list band }.
(** every visited literal pushes at most the literals of its gate *)
Definition aig_fuel (gs : list agate) : nat := S (2 * list_sum (map (fun g => list_sum (map (@length lit) (a_fwd g))) gs)).
(** AIGProblem.h:81-84 *)
Definition createAIG (n : nat) (gs : list agate) : out aig :=
  s <- createAnds (aig_fuel gs) gs (aig_new n) ;;
  ' (vc, ands) <- convertNaryAndsToBinaryAnds (pands s) (var_count s) [] ;;
  Ok (mkAig vc (ainputs s) (mkLit n false) ands).

(** ** The file *)
(** A file in the ASCII AIGER format: the header numbers M I L O A, then the literals of the inputs and of the output, then the
    and-gates.  The layout of lines is in AigTextModel.v. *)
Record aiger := mkAiger { h_M : nat; h_I : nat; h_L : nat; h_O : nat; h_A : nat; f_inputs : list nat; f_output : nat; f_ands : list (nat * nat * nat) }.

(** AIGProblem.h:96-99 *)
Fixpoint mark_negated (ands : list band) (negate : list bool) : out (list bool) :=
  match ands with
  | [] => Ok negate
  | (o, _, _) :: r =>
    if lsign o then (if lvar o <? length negate then mark_negated r (set_nth (lvar o) true negate) else Err UB)
    else mark_negated r negate
  end.
(** AIGProblem.h:86-92; (int)lit is 2*var+sign *)
Definition printLit (negate : list bool) (l : option lit) : out nat :=
  match l with
  | None => Ok 1
  | Some l => match nth_error negate (lvar l) with
              | Some b => Ok (if b then lneg l else l)
              | None => Err UB
              end
  end.
(** AIGProblem.h:102-105 *)
Fixpoint print_inputs (negate : list bool) (vs : list var) : out (list nat) :=
  match vs with [] => Ok [] | v :: r => x <- printLit negate (Some (mkLit v false)) ;; y <- print_inputs negate r ;; Ok (x :: y) end.
(** AIGProblem.h:109-116 *)
Fixpoint print_ands (negate : list bool) (ands : list band) : out (list (nat * nat * nat)) :=
  match ands with
  | [] => Ok []
  | (o, l, r) :: q =>
    x <- printLit negate (Some o) ;; y <- printLit negate (Some l) ;; z <- printLit negate r ;;
    t <- print_ands negate q ;; Ok ((x, y, z) :: t)
  end.
(** AIGProblem.h:94-117 *)
Definition printAIG (a : aig) : out aiger :=
  negate <- mark_negated (aig_ands a) (repeat false (aig_vars a)) ;;
  i <- print_inputs negate (aig_inputs a) ;;
  o <- printLit negate (Some (aig_root a)) ;;
  q <- print_ands negate (aig_ands a) ;;
  Ok (mkAiger (aig_vars a) (length (aig_inputs a)) 0 1 (length (aig_ands a)) i o q).

(** ** cnf2aig.cc:39-71, for the problem read from the file; the gate analyser has any options *)
Definition cnf2aig_circuit (cfg : config) (p : cnf) : out aig :=
  g <- analyze cfg p ;;
  createAIG (variables p) (normalizeRoots (problem p) (variables p) g).
Definition cnf2aig (cfg : config) (p : cnf) : out aiger :=
  if length (problem p) =? 0 then Ok (mkAiger 0 0 0 1 0 [] 1 [])
  else if (variables p =? 0) || existsb (fun c => length c =? 0) (problem p) then Ok (mkAiger 0 0 0 1 0 [] 0 [])
  else a <- cnf2aig_circuit cfg p ;; printAIG a.
