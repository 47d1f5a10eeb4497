(** Model minimisation (minimizer/Minimizer.cc) on the solver with the restart policy of RestartModel.v.  MinModel.v has the same loops with
    arbitrary restarts, for which a search need not end. *)
Require Import List Arith Bool NArith.
Require Import Verif.Base Verif.Outcome Verif.CNFModel Verif.SolverModel Verif.RestartModel Verif.GateModel Verif.MinModel.
Import ListNotations.

Section Min.
(** [O k] and [bl k] are the answers of heuristics and comparisons during the k-th call of solve *)
Variables (C : SolverModel.cfg) (O : nat -> oracle) (bl : nat -> N -> bool) (sfuel : nat) (n : nat).
(** Minimizer.cc:116-137 *)
Fixpoint rshrink (fuel k : nat) (card ass : list lit) (q : rst) (s : SolverModel.solver) : out (list lit * nat * rst * SolverModel.solver) :=
  match fuel with
  | 0 => Err Fuel
  | S f =>
    s1 <- load (readClauses cnf_empty [card]) s ;;
    '(x, q2, s2) <- rsolve C (O k) (bl k) sfuel q (solver_assume ass s1) ;;
    match r_status x with
    | Some true => rshrink f (S k) (trues n (r_model x)) (others n (r_model x)) q2 s2
    | _ => Ok (card, S k, q2, s2)
    end
  end.
(** Minimizer.cc:148-165 *)
Fixpoint rcount_down (fuel k : nat) (outputs : list lit) (lt : cnf) (card : list lit) (q : rst) (s : SolverModel.solver) : out (list lit) :=
  match fuel with
  | 0 => Err Fuel
  | S f =>
    let lt1 := readClauses (mkCnf [] (variables lt)) (lessThan outputs (length card) []) in
    s1 <- load lt1 s ;;
    '(x, q2, s2) <- rsolve C (O k) (bl k) sfuel q s1 ;;
    match r_status x with
    | Some true => rcount_down f (S k) outputs lt1 (trues n (r_model x)) q2 s2
    | _ => Ok card
    end
  end.
(** Minimizer.cc:106-174; the queues of the restart policy are new with the solver (Restart.h:42-48) *)
Definition riterativeMinimization (nl nt : nat) (fuel : nat) (hs : list clause) (minimal : bool) : out (list lit) :=
  s0 <- load (readClauses cnf_empty hs) (solver_new C) ;;
  '(card, k, q1, s1) <- rshrink fuel 0 (map (fun v => mkLit v true) (seq 0 n)) [] (rst_new nl nt) s0 ;;
  card' <- (if minimal then
              let (outs, counter) := genParCounter n (map (fun v => mkLit v false) (seq 0 n)) cnf_empty in
              s2 <- load counter s1 ;; rcount_down fuel k outs cnf_empty card q1 s2
            else Ok card) ;;
  Ok (map lneg card').
End Min.
(** Minimizer.cc:64-104 *)
Definition rmimimizeModel (C : SolverModel.cfg) (O : nat -> oracle) (bl : nat -> N -> bool) (nl nt : nat) (G : GateModel.config) (fuel : nat) (p : cnf) (m : model)
    (pruning minimal project : bool) : out model :=
  g <- (if pruning || project then analyze G p else Ok (gp_new (variables p))) ;;
  hs <- (if pruning then ids <- getPrunedProblem (problem p) g m ;; purify m (map (cl (problem p)) ids)
         else purify m (problem p)) ;;
  k <- riterativeMinimization (min_cfg C) O bl fuel (variables p) nl nt fuel hs minimal ;;
  let k1 := if project then filter (fun l => negb (GateModel.defined (gates g) (lvar l))) k else k in
  Ok (fold_left (fun r l => setModelValue r (if satisfies m l then l else lneg l)) k1 []).
