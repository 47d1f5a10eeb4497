(** Model of rsar/ARSolver.cc, ARSolver.h and frontend/SolverFactory.h: the solver with abstraction refinement. *)
Require Import List Arith Bool ZArith.
Require Import Verif.Base Verif.Outcome Verif.CNFModel Verif.SolverModel Verif.ApproxModel.
Import ListNotations.

(** A heuristic given by the caller (Heuristics.h:47-84) is a black box: what it marks in a step may
    depend on the number of the step and on the approximation. *)
Definition heuristic : Type := nat -> approx -> marks.

(** ARSolver.h:141-161 m_solver with the result of its last solve, maxVars, m_conjectures
    (equivalences and backbones), m_maxRefinementSteps, m_heuristics, m_approxLitsByAssumption (the
    newest entry first).  The strategy only lives during a solve. *)
Record arsolver := mkAr {
  ar_in : solver; ar_res : sresult; ar_vars : var; ar_eqs : list (list lit); ar_bs : list lit;
  ar_max : Z; ar_hs : list heuristic; ar_lits : list (lit * (lit * lit)) }.
Definition ar_with (s : solver) (x : sresult) (a : arsolver) : arsolver :=
  mkAr s x (ar_vars a) (ar_eqs a) (ar_bs a) (ar_max a) (ar_hs a) (ar_lits a).

(** ARSolver.cc:161-179 constructors; [max] is the option rsar-max-refinements *)
Definition ar_new (C : cfg) (eqs : list (list lit)) (bs : list lit) (max : Z) (hs : list heuristic) : arsolver :=
  mkAr (solver_new C) (mkRes None [] []) 0 eqs bs max hs [].
(** ARSolver.h:74-77 init *)
Definition ar_init (n : nat) (cs : list clause) (lemma : bool) (a : arsolver) : out arsolver :=
  s <- solver_init n cs lemma (ar_in a) ;;
  Ok (mkAr s (ar_res a) n (ar_eqs a) (ar_bs a) (ar_max a) (ar_hs a) (ar_lits a)).
(** ARSolver.h:113-115 getAssignment, then setAssumptions *)
Definition ar_assume (ls : list lit) (a : arsolver) : arsolver := ar_with (solver_assume ls (ar_in a)) (ar_res a) a.
(** ARSolver.h:79-81 *)
Definition ar_callback (cb : option Z) (a : arsolver) : arsolver := ar_with (setLearntCallback cb (ar_in a)) (ar_res a) a.

(** ** Heuristics of the solver *)
(** ARSolver.cc:139-159 garbage collector, always with stopAfterSecondRound; [round] counts from 1 *)
Definition gc_heuristic : heuristic := fun round s =>
  if round <? 3 then mkMarks (map lvar (bb_list (as_bbs s))) (map (fun e => map (fun i => lvar (fst i)) (ei_list e)) (as_eqs s))
  else mkMarks [] [].
(** ARSolver.cc:84-90, 100-106 the loops over some variables; [set]: m_currentConflictVars; result: the marked variables and the rest of the set *)
Fixpoint mark_set (vs : list var) (set : list var) : list var * list var :=
  match vs with
  | [] => ([], set)
  | v :: r => if existsb (Nat.eqb v) set then let '(m, s) := mark_set r (filter (fun w => negb (v =? w)) set) in (v :: m, s) else mark_set r set
  end.
Fixpoint mark_classes (es : list eqi) (set : list var) : list (list var) :=
  match es with
  | [] => []
  | e :: r => let '(m, s) := mark_set (map (fun i => lvar (fst i)) (ei_list e)) set in m :: mark_classes r s
  end.
(** ARSolver.cc:73-107; backbones are marked before the classes (Refinement.cc:178-194) *)
Definition conflict_heuristic (set : list var) : heuristic := fun _ s =>
  let '(m, rest) := mark_set (map lvar (bb_list (as_bbs s))) set in mkMarks m (mark_classes (as_eqs s) rest).
(** ARSolver.cc:223-236 createConflictGetter.  For a literal that is no assumption of the
    approximation C++ inserts the variable of the undefined literal, which is in no conjecture. *)
Definition conflict_vars (a : arsolver) : list var :=
  flat_map (fun l => match find (fun e => l =? fst e) (ar_lits a) with
                     | Some e => [lvar (fst (snd e)); lvar (snd (snd e))]
                     | None => []
                     end) (r_conflict (ar_res a)).
Fixpoint join_classes (a b : list (list var)) : list (list var) :=
  match a, b with x :: a', y :: b' => (x ++ y) :: join_classes a' b' | [], _ => b | _, [] => a end.
Definition join_marks (a b : marks) : marks := mkMarks (mk_bb a ++ mk_bb b) (join_classes (mk_eq a) (mk_eq b)).
(** ARSolver.cc:238-259 initialize adds the two heuristics behind those of the caller; Refinement.cc:178-194 asks all of them *)
Definition all_marks (a : arsolver) (round : nat) (s : approx) : marks :=
  fold_left (fun m h => join_marks m (h round s)) (ar_hs a ++ [gc_heuristic; conflict_heuristic (conflict_vars a)]) (mkMarks [] []).

(** ** solve *)
(** ARSolver.cc:184-193 addApproximationClauses; [v]: maxVars after createVariable (ARSolver.h:66-68) made the assumption variables *)
Definition addApproximationClauses (v : var) (n : enc) (a : arsolver) : out arsolver :=
  let p := readClauses (mkCnf [] 0) (n_clauses n) in
  s <- solver_init (variables p) (problem p) true (ar_in a) ;;
  Ok (mkAr s (ar_res a) v (ar_eqs a) (ar_bs a) (ar_max a) (ar_hs a)
           (fold_left (fun m c => (getAssumptionLit c, getNonAssumptionLits c) :: m) (n_clauses n) (ar_lits a))).
(** ARSolver.cc:196-202 deactivatedAssumptions *)
Definition deactivatedAssumptions (n : enc) : list lit := map (fun l => deactivatedAssumptionLit (lvar l)) (n_assume n).

Section Solve.
Variable C : cfg.
Variable Os : nat -> oracle.  (** answers of the environment during the calls of the inner solver *)
Variable fuel : nat.

Definition inner_solve (i : nat) (a : arsolver) : out (option bool * arsolver) :=
  ' (x, s) <- solve C (Os i) fuel (ar_in a) ;; Ok (r_status x, ar_with s x a).
Definition next_delta (i : nat) (r : strategy) (n : enc) (a : arsolver) : out (strategy * enc * arsolver) :=
  if (0 <? i) && negb (Z.of_nat i =? ar_max a)%Z
  then ' (r', n') <- rs_refine (all_marks a (S i) (rs_app r)) r ;;
       a' <- addApproximationClauses (rs_next r') n' a ;; Ok (r', n', a')
  else Ok (r, n, a).
(** ARSolver.cc:275-301 the loop; [k] bounds the iterations, [i] counts them *)
Fixpoint ar_loop (k i : nat) (r : strategy) (n : enc) (a : arsolver) : out (option bool * arsolver) :=
  match k with
  | 0 => Err Fuel
  | S k' =>
    ' (r1, n1, a1) <- next_delta i r n a ;;
    ' (sat, abort, a2) <-
      (if (ar_max a <? 0)%Z || (Z.of_nat i <? ar_max a)%Z
       then ' (sat, a2) <- inner_solve i (ar_assume (n_assume n1) a1) ;;
            Ok (sat, negb (match sat with Some true => true | _ => false end) || (n_enabled n1 =? 0), a2)
       else ' (sat, a2) <- inner_solve i (ar_assume (deactivatedAssumptions n1) a1) ;; Ok (sat, true, a2)) ;;
    if negb abort && (match sat with Some false => true | _ => false end) then ar_loop k' (S i) r1 n1 a2 else Ok (sat, a2)
  end.
(** ARSolver.cc:261-304 solve; the heuristics of the caller are moved into the strategy (:255) *)
Definition ar_solve (k : nat) (a : arsolver) : out (option bool * arsolver) :=
  if (ar_max a =? 0)%Z then inner_solve 0 a
  else
    let s0 := rs_new (ar_eqs a) (ar_bs a) (ar_vars a) in
    ' (r, n) <- rs_init (all_marks a 1 (rs_app s0)) s0 ;;
    a1 <- addApproximationClauses (rs_next r) n a ;;
    ' (sat, a2) <- ar_loop k 0 r n a1 ;;
    Ok (sat, mkAr (ar_in a2) (ar_res a2) (ar_vars a2) (ar_eqs a2) (ar_bs a2) (ar_max a2) [] (ar_lits a2)).
End Solve.

(** ** SolverFactory.h:33-76 createRSARSolver and Main.cc:227-240 *)
Inductive created := Created (a : arsolver) | NoSolver | Thrown.
(** [gates]: the number of gates, [None] if the analysis ran out of time; [conj]: the conjectures,
    [None] if the simulation ran out of time; [limits]: the numbers in the option rsar-heur-idc, whose
    test (:63) compares a pointer that is never null; [heur]: createInputDepCountRefinementHeuristic *)
Definition createRSARSolver (C : cfg) (min_gates : nat) (max : Z) (limits : list nat) (heur : list nat -> heuristic)
    (gates : option nat) (conj : option (list (list lit) * list lit)) : created :=
  match gates, conj with
  | Some g, Some (eqs, bs) =>
    if g <? min_gates then NoSolver
    else match eqs, bs with
         | [], [] => NoSolver
         | _, _ => match limits with [] => Thrown | _ => Created (ar_new C eqs bs max [heur limits]) end
         end
  | _, _ => NoSolver
  end.
(** Main.cc:227-240 one thread: [init] and [solve] are called on the result, which may be null *)
Definition rsar_main (C : cfg) (Os : nat -> oracle) (fuel k : nat) (p : cnf) (r : created) : option (out (option bool * arsolver)) :=
  match r with
  | Created a => Some (a1 <- ar_init (variables p) (problem p) true a ;; ar_solve C Os fuel k a1)
  | NoSolver => Some (Err UB)   (** null pointer *)
  | Thrown => None              (** uncaught exception *)
  end.
