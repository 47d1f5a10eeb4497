(** Model of Candy::Restart (src/candy/systems/Restart.h:34-78) and of the solver that uses it.

    The two comparisons of floating point numbers are taken from an oracle: [bl], asked with the number of conflicts, says
    whether the trail is large (Restart.h:58), [o_restart] of the solver's oracle, asked with the number of questions asked so
    far, whether the recent LBDs are large (Restart.h:66).  Everything else of the policy is exact. *)
Require Import List Arith Bool NArith ZArith.
Require Import Verif.Base Verif.Outcome Verif.ContainersModel Verif.TrailModel Verif.DbModel Verif.PropModel Verif.AnalyzeModel Verif.SolverModel.
Import ListNotations.

(** Restart.h:42; sumLBD is only used in the comparison *)
Record rst := mkRst { lbdQ : bqueue; trailQ : bqueue }.
(** Restart.h:42-48 *)
Definition rst_new (nl nt : nat) : rst := mkRst (bq_new nl) (bq_new nt).
(** a write outside of a queue (of size 0) and a division by 0 are undefined *)
Definition defined {A} (o : option A) : out A := match o with Some x => Ok x | None => Err UB end.
(** Restart.h:56-63; [conf] is the number of conflicts with the present one, [size] that of the trail *)
Definition process_conflict (bl : N -> bool) (conf size lbd : N) (q : rst) : out rst :=
  tq <- defined (bq_push size (trailQ q)) ;;
  lq <- (if (10000 <? conf)%N && bq_isvalid (lbdQ q)
         then _ <- defined (bq_getavg tq) ;; Ok (if bl conf then bq_fastclear (lbdQ q) else lbdQ q)
         else Ok (lbdQ q)) ;;
  lq <- defined (bq_push lbd lq) ;;
  Ok (mkRst lq tq).
(** Restart.h:65-72 *)
Definition trigger_restart (conf : N) (large : bool) (q : rst) : out (bool * rst) :=
  if (0 <? conf)%N && bq_isvalid (lbdQ q)
  then _ <- defined (bq_getavg (lbdQ q)) ;; Ok (if large then (true, mkRst (bq_fastclear (lbdQ q)) (trailQ q)) else (false, q))
  else Ok (false, q).

Section Run.
Variables (C : cfg) (O : oracle) (bl : N -> bool).
(** Solver.h:352-422: [search] with the restart policy *)
Fixpoint rsearch (fuel : nat) (q : rst) (s : solver) : out (option bool * list lit * rst * solver) :=
  match fuel with
  | 0 => Err Fuel
  | S f =>
    '(k, d, w, t) <- propagate (sv_d s) (sv_w s) (sv_t s) ;;
    match k with
    | Some c =>
      if dlevel t =? 0 then Ok (Some false, [], q, core d w t s)
      else
        '(an, d0) <- handle_conflict d t c ;;
        let d1 := if c_recalc C then d0 else d in
        q1 <- process_conflict bl (sv_conf s + 1) (N.of_nat (length (tr t))) (N.of_nat (an_lbd an)) q ;;
        '(c', d2) <- createClause (an_learnt an) (N.of_nat (an_lbd an)) false d1 ;;
        let w2 := if 2 <? length (an_learnt an) then attachClause d2 c' w else w in
        '(_, t2) <- tpropagate (hd 0 (an_learnt an)) c' (backtrack (an_level an) t) ;;
        rsearch f q1 (ipasir_callback (an_learnt an) (with_log (sv_conf s + 1) (sv_log s) (core d2 w2 t2 s)))
    | None =>
      let s1 := tick (core d w t s) in
      '(b, q1) <- trigger_restart (sv_conf s) (o_restart O (sv_clk s)) q ;;
      if b : bool then Ok (None, [], q1, s1)
      else
        let '(r, t1) := assume_loop (S (length (assum t))) d t in
        let s2 := core d w t1 s1 in
        match r with
        | AFail cs => Ok (Some false, cs, q1, s2)
        | ANext p => t2 <- decide p (newDecisionLevel t1) ;; rsearch f q1 (core d w t2 s2)
        | ANone =>
          match pick (o_pick O (sv_clk s)) t1 with
          | None => Ok (Some true, [], q1, s2)
          | Some p => t2 <- decide p (newDecisionLevel t1) ;; rsearch f q1 (core d w t2 s2)
          end
        end
    end
  end.
(** Solver.h:448-477 *)
Definition rsolve_iter (fuel : nat) (q : rst) (s : solver) : out (option bool * list lit * rst * solver) :=
  let s0 := core (sv_d s) (sv_w s) (trail_reset (sv_t s)) s in
  s1 <- maintain C O fuel s0 ;;
  '(d, w, t) <- pmu (sv_d s1) (sv_w s1) (sv_t s1) ;;
  let s2 := core d w t s1 in
  if empt d then Ok (Some false, [], q, s2) else rsearch fuel q s2.
Fixpoint rsolve_loop (n fuel : nat) (q : rst) (s : solver) : out (option bool * list lit * rst * solver) :=
  match n with
  | 0 => Err Fuel
  | S n =>
    if o_term O (sv_clk s) then Ok (None, [], q, tick s)
    else '(r, cs, q1, s1) <- rsolve_iter fuel q (tick s) ;;
         match r with
         | None => rsolve_loop n fuel q1 s1
         | Some _ => Ok (r, cs, q1, s1)
         end
  end.
(** Solver.h:425-503 *)
Definition rsolve (fuel : nat) (q : rst) (s : solver) : out (sresult * rst * solver) :=
  s1 <- solve_start C O fuel s ;;
  '(r, cs, q2, s2) <- (if empt (sv_d s1) then Ok (Some false, [], q, s1) else rsolve_loop fuel fuel q s1) ;;
  '(x, s3) <- solve_finish r cs s2 ;; Ok (x, q2, s3).
End Run.
