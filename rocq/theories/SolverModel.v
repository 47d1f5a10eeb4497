(** Model of Candy::Solver (src/candy/core/Solver.h:88-503) for a single thread.

    The branching heuristic, the restart policy, the termination callback, the order of clauses in
    memory, the order of equal elements after std::sort and the number of simplification rounds are
    taken from an [oracle] that is asked with the number of questions asked so far, so that every
    behaviour of these components is the behaviour of some oracle.  Output, sonification and
    statistics are left out.  Loops carry [fuel]. *)
Require Import List Arith Bool NArith ZArith.
Require Import Verif.Base Verif.CNFModel Verif.Outcome Verif.TrailModel Verif.DbModel Verif.PropModel Verif.AnalyzeModel
  Verif.SimpModel Verif.ReduceModel.
Import ListNotations.

(** src/candy/frontend/CLIOptions.cc: preprocessing, inprocessing frequency, variable elimination,
    asymmetric reduction, resolvent limit, LBD recalculation, persistent LBD, keep median, first and
    incremental reduction interval *)
Record cfg := mkCfg {
  c_pre : bool; c_inproc : N; c_elim : bool; c_asymm : bool; c_lim : nat; c_recalc : bool;
  c_persist : N; c_median : bool; c_first : N; c_inc : N }.
Definition default_cfg : cfg := mkCfg true 0 true false 20 true 3 false 3000 1300.

Record oracle := mkOracle {
  o_term : nat -> bool;                    (* termCallback != 0 *)
  o_restart : nat -> bool;                 (* restart.trigger_restart() *)
  o_pick : nat -> lit;                     (* branch.pickBranchLit() *)
  o_ptr : nat -> db -> cid -> cid -> bool; (* order of clauses in memory *)
  o_vars : nat -> list var;                (* order of elimination *)
  o_cands : nat -> list cid }.             (* order of clauses with equal LBD *)

(** Solver.h:157-189; [sv_cb] is the maximal length if a learn callback is set, [sv_log] what it
    was called with, newest first *)
Record solver := mkSv {
  sv_d : db; sv_w : watches; sv_t : trail_t; sv_e : ve; sv_clk : nat;
  sv_calls : N; sv_nb : N; sv_conf : N; sv_last : N;
  sv_cb : option Z; sv_log : list (list Z) }.

Definition core (d : db) (w : watches) (t : trail_t) (s : solver) : solver :=
  mkSv d w t (sv_e s) (sv_clk s) (sv_calls s) (sv_nb s) (sv_conf s) (sv_last s) (sv_cb s) (sv_log s).
Definition with_e (e : ve) (s : solver) : solver :=
  mkSv (sv_d s) (sv_w s) (sv_t s) e (sv_clk s) (sv_calls s) (sv_nb s) (sv_conf s) (sv_last s) (sv_cb s) (sv_log s).
Definition tick (s : solver) : solver :=
  mkSv (sv_d s) (sv_w s) (sv_t s) (sv_e s) (S (sv_clk s)) (sv_calls s) (sv_nb s) (sv_conf s) (sv_last s) (sv_cb s) (sv_log s).
Definition with_red (calls nb last : N) (s : solver) : solver :=
  mkSv (sv_d s) (sv_w s) (sv_t s) (sv_e s) (sv_clk s) calls nb (sv_conf s) last (sv_cb s) (sv_log s).
Definition with_log (conf : N) (log : list (list Z)) (s : solver) : solver :=
  mkSv (sv_d s) (sv_w s) (sv_t s) (sv_e s) (sv_clk s) (sv_calls s) (sv_nb s) conf (sv_last s) (sv_cb s) log.

(** Solver.h:286-313 *)
Definition solver_new (C : cfg) : solver :=
  mkSv db_new [] trail_new ve_new 0 0 (c_first C) 0 0 None [].
(** Solver.h:150-154 *)
Definition setLearntCallback (cb : option Z) (s : solver) : solver :=
  mkSv (sv_d s) (sv_w s) (sv_t s) (sv_e s) (sv_clk s) (sv_calls s) (sv_nb s) (sv_conf s) (sv_last s) cb (sv_log s).
(** getAssignment().setAssumptions *)
Definition solver_assume (ls : list lit) (s : solver) : solver := core (sv_d s) (sv_w s) (setAssumptions ls (sv_t s)) s.

(** CandySolverResult.h:32-78 *)
Record sresult := mkRes { r_status : option bool; r_model : list (option bool); r_conflict : list lit }.
Definition set_model_value (m : list (option bool)) (l : lit) : list (option bool) :=
  set_nth (lvar l) (Some (negb (lsign l))) (if length m <=? lvar l then resize (S (lvar l)) None m else m).
Definition set_model (ls : list lit) : list (option bool) := fold_left set_model_value ls [].
(** CandySolverResult.h:76-78 *)
Definition res_satisfies (m : list (option bool)) (l : lit) : bool :=
  is_true (option_map (fun b => xorb b (lsign l)) (nth (lvar l) m None)).

(** ** Unit clauses, Solver.h:200-222 *)
Fixpoint pmu_facts (cs : list cid) (d : db) (t : trail_t) : out (db * trail_t) :=
  match cs with
  | [] => Ok (d, t)
  | c :: r => '(b, t1) <- fact (hd 0 (clits d c)) t ;; pmu_facts r (if b then d else emptyClause d) t1
  end.
Fixpoint pmu_units (ls : list lit) (d : db) (t : trail_t) : out (db * trail_t) :=
  match ls with
  | [] => Ok (d, t)
  | l :: r => '(_, d1) <- createClause [l] 0 false d ;; '(_, t1) <- fact l t ;; pmu_units r d1 t1
  end.
Definition pmu (d : db) (w : watches) (t : trail_t) : out (db * watches * trail_t) :=
  '(d1, t1) <- pmu_facts (getUnitClauses d) d t ;;
  if empt d1 then Ok (d1, w, t1)
  else
    '(k, d2, w2, t2) <- propagate d1 w t1 ;;
    match k with
    | Some _ => Ok (emptyClause d2, w2, t2)
    | None => '(d3, t3) <- pmu_units (skipn (length (tr t1)) (tr t2)) d2 t2 ;; Ok (d3, w2, t3)
    end.

Section Run.
Variables (C : cfg) (O : oracle).

(** ** Simplification, Solver.h:225-270 *)
Definition fail_if (b : bool) (d : db) : db := if b then d else emptyClause d.
Definition cleanup_if (n : nat) (s : sdb) : sdb := if 0 <? n then sdb_cleanup s else s.
(** one round; the number of changes, [None] if the loop is left *)
Definition simp_round (k : nat) (d : db) (w : watches) (t : trail_t) (s : sdb) (e : ve) :
  out (option nat * db * watches * trail_t * sdb * ve) :=
  '(d1, w1, t1) <- pmu d w t ;;
  if empt d1 then Ok (None, d1, w1, t1, s, e) else
  '(b, d2, s2, n1) <- subsume_all (o_ptr O k) d1 s ;;
  '(d3, w3, t3) <- pmu (fail_if b d2) w1 t1 ;;
  let s3 := cleanup_if (sub_nTouched n1) s2 in
  if empt d3 then Ok (None, d3, w3, t3, s3, e) else
  '(b, n2, d4, w4, t4, s4) <- asymm_reduce (c_asymm C) d3 w3 t3 s3 ;;
  '(d5, w5, t5) <- pmu (fail_if b d4) w4 t4 ;;
  let s5 := cleanup_if n2 s4 in
  if empt d5 then Ok (None, d5, w5, t5, s5, e) else
  '(b, n3, d6, s6, e6, t6) <- eliminate (c_elim C) (c_lim C) (o_vars O k) d5 s5 e t5 ;;
  Ok (Some (sub_nTouched n1 + n3 + n2), fail_if b d6, w5, t6, cleanup_if n3 s6, e6).
(** Solver.h:230-266; [num] and [max] are natural numbers and the comparison num > max * 0.1 of doubles is done exactly: the double
    product differs from max / 10 by less than a tenth, and it is max / 10 when this is a number of 32 bits *)
Fixpoint simp_loop (fuel : nat) (k num max : nat) (d : db) (w : watches) (t : trail_t) (s : sdb) (e : ve) :
  out (nat * db * watches * trail_t * ve) :=
  match fuel with
  | 0 => Err Fuel
  | S f =>
    if (max <? 10 * num) && negb (o_term O k) then
      '(b, d1, w1, t1, s1, e1) <- simp_round k d w t s e ;;
      match b with Some num => simp_loop f (S k) num (Nat.max num max) d1 w1 t1 s1 e1 | None => Ok (S k, d1, w1, t1, e1) end
    else Ok (S k, d, w, t, e)
  end.
Definition processClauseDatabase (fuel : nat) (s : solver) : out solver :=
  '(k, d, w, t, e) <- simp_loop fuel (sv_clk s) 1 0 (sv_d s) (sv_w s) (sv_t s) (sdb_init (sv_d s)) (sv_e s) ;;
  Ok (mkSv d w t e k (sv_calls s) (sv_nb s) (sv_conf s) (sv_last s) (sv_cb s) (sv_log s)).

(** ** Loading a problem, Solver.h:328-348.  Testing an unknown variable reads behind the end of a
    vector: UB. *)
Fixpoint init_undo_lits (ls : list lit) (d : db) (e : ve) (t : trail_t) : out (db * ve * trail_t) :=
  match ls with
  | [] => Ok (d, e, t)
  | l :: r =>
    if lvar l <? length (ec e) then
      if is_eliminated e (lvar l) then
        let '(cor, e1, t1) := undo_elimination (lvar l) e t in
        d1 <- fold_left (fun x c => y <- x ;; '(_, z) <- createClause c 0 false y ;; Ok z) cor (Ok d) ;;
        init_undo_lits r d1 e1 t1
      else init_undo_lits r d e t
    else Err UB
  end.
Fixpoint init_undo (cs : list clause) (d : db) (e : ve) (t : trail_t) : out (db * ve * trail_t) :=
  match cs with
  | [] => Ok (d, e, t)
  | c :: r =>
    if has_eliminated e then '(d1, e1, t1) <- init_undo_lits c d e t ;; init_undo r d1 e1 t1
    else Ok (d, e, t)
  end.
Definition solver_init (n : nat) (cs : list clause) (lemma : bool) (s : solver) : out solver :=
  d1 <- db_init n cs lemma (sv_d s) ;;
  '(d2, e2, t2) <- init_undo cs d1 (sv_e s) (sv_t s) ;;
  Ok (with_e e2 (core d2 (prop_init d2 (sv_w s)) (trail_init (nv d2) t2) s)).

(** ** Search, Solver.h:352-422 *)
(** Solver.h:272-282 *)
Definition to_dimacs (l : lit) : Z := (Z.of_nat (S (lvar l)) * (if lsign l then -1 else 1))%Z.
Definition ipasir_callback (ls : list lit) (s : solver) : solver :=
  match sv_cb s with
  | Some m => if (Z.of_nat (length ls) <=? m)%Z then with_log (sv_conf s) ((map to_dimacs ls ++ [0%Z]) :: sv_log s) s else s
  | None => s
  end.
(** pickBranchLit: some unassigned decision variable if there is one (VSIDS.h:248-263, C24) *)
Definition candidates (t : trail_t) : list var :=
  filter (fun v => is_undef (vvalue t v) && isDecisionVar v t) (seq 0 (nvt t)).
Definition pick (l : lit) (t : trail_t) : option lit :=
  if existsb (Nat.eqb (lvar l)) (candidates t) then Some l
  else match candidates t with [] => None | v :: _ => Some (mkLit v false) end.
(** Solver.h:391-406 *)
Inductive assume_res := AFail (c : list lit) | ANext (l : lit) | ANone.
Fixpoint assume_loop (k : nat) (d : db) (t : trail_t) : assume_res * trail_t :=
  match k with
  | 0 => (ANone, t)
  | S k =>
    if hasAssumptionsNotSet t then
      let p := nextAssumption t in
      match value t p with
      | Some true => assume_loop k d (newDecisionLevel t)
      | Some false => (AFail (analyzeFinal d t (lneg p)), t)
      | None => (ANext p, t)
      end
    else (ANone, t)
  end.

(** the result is the status, the conflict in terms of assumptions and the solver *)
Fixpoint search (fuel : nat) (s : solver) : out (option bool * list lit * solver) :=
  match fuel with
  | 0 => Err Fuel
  | S f =>
    '(k, d, w, t) <- propagate (sv_d s) (sv_w s) (sv_t s) ;;
    match k with
    | Some c =>
      if dlevel t =? 0 then Ok (Some false, [], core d w t s)
      else
        '(an, d0) <- handle_conflict d t c ;;
        let d1 := if c_recalc C then d0 else d in
        '(c', d2) <- createClause (an_learnt an) (N.of_nat (an_lbd an)) false d1 ;;
        let w2 := if 2 <? length (an_learnt an) then attachClause d2 c' w else w in
        '(_, t2) <- tpropagate (hd 0 (an_learnt an)) c' (backtrack (an_level an) t) ;;
        search f (ipasir_callback (an_learnt an) (with_log (sv_conf s + 1) (sv_log s) (core d2 w2 t2 s)))
    | None =>
      let s1 := tick (core d w t s) in
      if o_restart O (sv_clk s) then Ok (None, [], s1)
      else
        let '(r, t1) := assume_loop (S (length (assum t))) d t in
        let s2 := core d w t1 s1 in
        match r with
        | AFail cs => Ok (Some false, cs, s2)
        | ANext p => t2 <- decide p (newDecisionLevel t1) ;; search f (core d w t2 s2)
        | ANone =>
          match pick (o_pick O (sv_clk s)) t1 with
          | None => Ok (Some true, [], s2)
          | Some p => t2 <- decide p (newDecisionLevel t1) ;; search f (core d w t2 s2)
          end
        end
    end
  end.

(** ** Solve, Solver.h:425-503 *)
Fixpoint create_corr (cs : list clause) (d : db) (w : watches) : out (db * watches) :=
  match cs with
  | [] => Ok (d, w)
  | c :: r => '(c', d1) <- createClause c 0 false d ;;
              create_corr r d1 (if 2 <? length c then attachClause d1 c' w else w)
  end.
(** Solver.h:452-465 *)
Definition maintain (fuel : nat) (s : solver) : out solver :=
  let '(b, nb) := trigger_reduce (sv_calls s) (sv_nb s) (c_inc C) (sv_conf s) in
  if b then
    s1 <- (if (0 <? c_inproc C)%N && (sv_last s + c_inproc C <=? sv_calls s)%N
           then processClauseDatabase fuel (with_red (sv_calls s) nb (sv_calls s) s)
           else let '(inc, d) := reduce (c_persist C) (c_median C) (o_cands O (sv_clk s)) (sv_d s) in
                Ok (core d (sv_w s) (sv_t s)
                     (with_red (if inc then sv_calls s + 1 else sv_calls s)%N nb (sv_last s) (tick s)))) ;;
    let d := reorganize (sv_d s1) in
    Ok (core d (prop_reset d) (sv_t s1) s1)
  else Ok (with_red (sv_calls s) nb (sv_last s) s).
Definition solve_iter (fuel : nat) (s : solver) : out (option bool * list lit * solver) :=
  let s0 := core (sv_d s) (sv_w s) (trail_reset (sv_t s)) s in
  s1 <- maintain fuel s0 ;;
  '(d, w, t) <- pmu (sv_d s1) (sv_w s1) (sv_t s1) ;;
  let s2 := core d w t s1 in
  if empt d then Ok (Some false, [], s2) else search fuel s2.
Fixpoint solve_loop (n fuel : nat) (s : solver) : out (option bool * list lit * solver) :=
  match n with
  | 0 => Err Fuel
  | S n =>
    if o_term O (sv_clk s) then Ok (None, [], tick s)
    else '(r, cs, s1) <- solve_iter fuel (tick s) ;;
         match r with
         | None => solve_loop n fuel s1
         | Some _ => Ok (r, cs, s1)
         end
  end.
(** Solver.h:430-448 *)
Definition solve_start (fuel : nat) (s : solver) : out solver :=
  let t0 := trail_reset (sv_t s) in
  let w0 := prop_reset (sv_d s) in
  '(cor, e1, t1) <- ve_reset (sv_e s) t0 ;;
  '(d1, w1) <- create_corr cor (sv_d s) w0 ;;
  let s1 := with_e e1 (core d1 w1 t1 s) in
  if c_pre C
  then s2 <- processClauseDatabase fuel s1 ;; Ok (core (sv_d s2) (prop_reset (sv_d s2)) (sv_t s2) s2)
  else Ok s1.
(** Solver.h:480-500 *)
Definition solve_finish (r : option bool) (cs : list lit) (s : solver) : out (sresult * solver) :=
  match r with
  | Some true =>
    t <- propagate_eliminated (sv_e s) (sv_t s) ;;
    Ok (mkRes r (set_model (tr t)) cs, core (sv_d s) (sv_w s) (backtrack 0 t) s)
  | Some false =>
    Ok (mkRes r [] cs,
        core (if length cs =? 0 then emptyClause (sv_d s) else sv_d s) (sv_w s) (backtrack 0 (sv_t s)) s)
  | None => Ok (mkRes r [] cs, core (sv_d s) (sv_w s) (backtrack 0 (sv_t s)) s)
  end.
Definition solve (fuel : nat) (s : solver) : out (sresult * solver) :=
  s1 <- solve_start fuel s ;;
  '(r, cs, s2) <- (if empt (sv_d s1) then Ok (Some false, [], s1) else solve_loop fuel fuel s1) ;;
  solve_finish r cs s2.
End Run.
