(** Model minimisation: minimizer/Minimizer.{h,cc} and GateProblem::getPrunedProblem. *)
Require Import List Arith Bool NArith.
Require Import Verif.Base Verif.Outcome Verif.CNFModel Verif.SolverModel Verif.GateModel.
Import ListNotations.

(** Minimizer.cc:36-41: the constructor switches pre- and inprocessing off (the option of the variable order only
    concerns the branching heuristic, which is an oracle) and makes a new solver. *)
Definition min_cfg (C : SolverModel.cfg) : SolverModel.cfg :=
  SolverModel.mkCfg false 0 (c_elim C) (c_asymm C) (c_lim C) (c_recalc C) (c_persist C) (c_median C) (c_first C) (c_inc C).

(** Minimizer.cc:49-62 purify.  [model.value] reads behind the end of the vector for a variable it does not have: UB. *)
Fixpoint purify_clause (m : model) (c : clause) : out clause :=
  match c with
  | [] => Ok []
  | l :: r =>
    match value m (lvar l) with
    | None => Err UB
    | Some v => r' <- purify_clause m r ;;
                Ok (if match v with Some l' => l' =? l | None => false end then mkLit (lvar l) false :: r' else r')
    end
  end.
Fixpoint purify (m : model) (cs : list clause) : out (list clause) :=
  match cs with
  | [] => Ok []
  | c :: r => c' <- purify_clause m c ;; r' <- purify m r ;; Ok (c' :: r')
  end.

(** GateProblem.h:178-189: the literals of the root clauses, sorted, without repetition *)
Definition getRootLiterals (cs : list clause) (g : gproblem) : list lit := to_set (flat_map (cl cs) (roots g)).
(** GateProblem.h:196-227 getPrunedProblem.  The head of [work] is the back of the vector; the stamp of visited
    variables is a list. *)
Fixpoint prune_loop (fuel : nat) (gs : list gate) (m : model) (work : list lit) (visited : list var) (res : list nat) : out (list nat) :=
  match work with
  | [] => Ok res
  | o :: work =>
    match fuel with
    | O => Err Fuel
    | S fuel =>
      let gt := nth (lvar o) gs gate_none in
      if defined gs (lvar o) && negb (existsb (Nat.eqb (lvar o)) visited) && (g_notMono gt || satisfies m o)
      then prune_loop fuel gs m (rev (g_inp gt) ++ work) (lvar o :: visited) (res ++ g_fwd gt ++ (if g_notMono gt then g_bwd gt else []))
      else prune_loop fuel gs m work visited res
    end
  end.
Definition prune_fuel (cs : list clause) (g : gproblem) : nat :=
  length (getRootLiterals cs g) + length (flat_map g_inp (gates g)).
Definition getPrunedProblem (cs : list clause) (g : gproblem) (m : model) : out (list nat) :=
  r <- prune_loop (prune_fuel cs g) (gates g) m (rev (getRootLiterals cs g)) [] (roots g) ;;
  Ok (r ++ remainder g).

(** Minimizer.h:55-69 *)
Definition halfAdder (a b sum carry : lit) : list clause := [[a; lneg b; sum]; [lneg a; b; sum]; [lneg a; lneg b; carry]].
Definition fullAdder (a b c sum carry : lit) : list clause :=
  [[a; b; lneg c; sum]; [a; lneg b; c; sum]; [lneg a; b; c; sum]; [lneg a; lneg b; lneg c; sum];
   [lneg a; lneg b; carry]; [lneg a; lneg c; carry]; [lneg b; lneg c; carry]].
(** CNFProblem.h:79-80 newVar *)
Definition newVar (p : cnf) : lit * cnf := (mkLit (variables p) false, mkCnf (problem p) (S (variables p))).
(** Minimizer.h:93-108: the two loops over the outputs of the halves; [b] may be shorter than [a], outputs of [b] behind
    the end of [a] are dropped *)
Fixpoint add_bits (a b : list lit) (carry : lit) (p : cnf) : list lit * lit * cnf :=
  match a with
  | [] => ([], carry, p)
  | x :: a' =>
    let '(sum, p1) := newVar p in
    let '(next, p2) := newVar p1 in
    let p3 := readClauses p2 (match b with y :: _ => fullAdder x y carry sum next | [] => halfAdder x carry sum next end) in
    let '(o, c, p4) := add_bits a' (tl b) next p3 in
    (sum :: o, c, p4)
  end.
(** Minimizer.h:75-113 genParCounter.  The recursion halves the inputs: [fuel] is their number. *)
Fixpoint genParCounter (fuel : nat) (inputs : list lit) (p : cnf) : list lit * cnf :=
  match inputs with
  | [] => ([], p)
  | [x] => ([x], p)
  | _ =>
    match fuel with
    | O => ([], p)
    | S fuel =>
      let h := length inputs / 2 in
      let (a, p1) := genParCounter fuel (firstn h inputs) p in
      let (b, p2) := genParCounter fuel (skipn h inputs) p1 in
      let '(o, c, p3) := add_bits a b (last inputs 0) p2 in
      (o ++ [c], p3)
    end
  end.
(** Minimizer.h:118-136 genLessThanConstraint *)
Fixpoint lessThan (outputs : list lit) (k : nat) (acc : list clause) : list clause :=
  match outputs with
  | [] => acc
  | o :: r => lessThan r (Nat.div2 k) (if Nat.odd k then map (fun c => c ++ [lneg o]) acc else acc ++ [[lneg o]])
  end.

Section Min.
(** [O k] are the answers of heuristics and callbacks during the k-th call of solve *)
Variables (C : SolverModel.cfg) (O : nat -> oracle) (sfuel : nat) (n : nat).
(** solver->init(problem) *)
Definition load (p : cnf) (s : SolverModel.solver) : out SolverModel.solver := solver_init (variables p) (problem p) true s.
(** Minimizer.cc:126-135, 168-173 *)
Definition trues (m : model) : list lit := map (fun v => mkLit v true) (filter (fun v => satisfies m (mkLit v false)) (seq 0 n)).
Definition others (m : model) : list lit := map (fun v => mkLit v true) (filter (fun v => negb (satisfies m (mkLit v false))) (seq 0 n)).
(** Minimizer.cc:116-137 *)
Fixpoint shrink (fuel k : nat) (card ass : list lit) (s : SolverModel.solver) : out (list lit * nat * SolverModel.solver) :=
  match fuel with
  | 0 => Err Fuel
  | S f =>
    s1 <- load (readClauses cnf_empty [card]) s ;;
    '(x, s2) <- solve C (O k) sfuel (solver_assume ass s1) ;;
    match r_status x with
    | Some true => shrink f (S k) (trues (r_model x)) (others (r_model x)) s2
    | _ => Ok (card, S k, s2)
    end
  end.
(** Minimizer.cc:148-165; [lessthan.clear()] keeps the number of variables *)
Fixpoint count_down (fuel k : nat) (outputs : list lit) (lt : cnf) (card : list lit) (s : SolverModel.solver) : out (list lit) :=
  match fuel with
  | 0 => Err Fuel
  | S f =>
    let lt1 := readClauses (mkCnf [] (variables lt)) (lessThan outputs (length card) []) in
    s1 <- load lt1 s ;;
    '(x, s2) <- solve C (O k) sfuel s1 ;;
    match r_status x with
    | Some true => count_down f (S k) outputs lt1 (trues (r_model x)) s2
    | _ => Ok card
    end
  end.
(** Minimizer.cc:106-174 iterativeMinimization *)
Definition iterativeMinimization (fuel : nat) (hs : list clause) (minimal : bool) : out (list lit) :=
  s0 <- load (readClauses cnf_empty hs) (solver_new C) ;;
  '(card, k, s1) <- shrink fuel 0 (map (fun v => mkLit v true) (seq 0 n)) [] s0 ;;
  card' <- (if minimal then
              let (outs, counter) := genParCounter n (map (fun v => mkLit v false) (seq 0 n)) cnf_empty in
              s2 <- load counter s1 ;; count_down fuel k outs cnf_empty card s2
            else Ok card) ;;
  Ok (map lneg card').
End Min.

(** Minimizer.cc:64-104 mimimizeModel; the result are the values set by setMinimizedModelValue, which works like
    setModelValue (CandySolverResult.h:111-116), in an empty vector.  The fuel of the solver loops is [fuel]; the gate
    analyser has its own configuration. *)
Definition mimimizeModel (C : SolverModel.cfg) (O : nat -> oracle) (G : GateModel.config) (fuel : nat) (p : cnf) (m : model)
    (pruning minimal project : bool) : out model :=
  g <- (if pruning || project then analyze G p else Ok (gp_new (variables p))) ;;
  hs <- (if pruning then ids <- getPrunedProblem (problem p) g m ;; purify m (map (cl (problem p)) ids)
         else purify m (problem p)) ;;
  k <- iterativeMinimization (min_cfg C) O fuel (variables p) fuel hs minimal ;;
  let k1 := if project then filter (fun l => negb (defined (gates g) (lvar l))) k else k in
  Ok (fold_left (fun r l => setModelValue r (if satisfies m l then l else lneg l)) k1 []).
