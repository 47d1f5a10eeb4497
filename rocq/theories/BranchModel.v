(** Model of the branching heuristics: Candy::VSIDS (src/candy/systems/branching/VSIDS.h:56-285),
    Candy::VSIDSC as far as it differs (VSIDSC.h:145-319), Candy::LRB (LRB.h:33-189) and the
    implicit learning heuristics on top of VSIDS (rsil/BranchingHeuristics.h/.cc,
    rsil/ImplicitLearningAdvice.h).

    Floating point numbers are left abstract: every definition takes the operations of [arith] as
    a parameter, so that the theorems hold for IEEE doubles and for any other numbers. *)
Require Import List Arith Bool NArith ZArith.
Require Import Verif.Base Verif.CNFModel Verif.Outcome Verif.TrailModel Verif.HeapModel.
Import ListNotations.

(** The operations on double used by the heuristics. *)
Record arith := mkArith {
  F : Type;
  f_zero : F;                     (* 0.0 *)
  f_one : F;                      (* 1 *)
  f_gt : F -> F -> bool;          (* x > y *)
  f_add : F -> F -> F;            (* x + y *)
  f_big : F -> bool;              (* x > 1e100 *)
  f_scale : F -> F;               (* x * 1e-100 *)
  f_decay : F -> F -> F;          (* var_inc * (1 / var_decay) *)
  f_hundredth : F -> F;           (* var_decay + 0.01 *)
  f_lrb : F -> F -> N -> F;       (* (1.0 - step_size) * weight + step_size * quotient *)
  f_shrink : F -> F }.            (* step_size > min_step_size ? step_size - 10e-6 : step_size *)

Definition oget {A} (x : option A) : out A := match x with Some a => Ok a | None => Err UB end.

(** trail.begin(level), Trail.h:173-175: trail_lim[level] behind the end is UB *)
Definition trail_from (lev : nat) (t : trail_t) : out (list lit) :=
  if lev <? length (lim t) then Ok (skipn (nth lev (lim t) 0) (tr t)) else Err UB.

(** the variables collected by reset, VSIDS.h:125-132, LRB.h:114-119 *)
Definition decision_vars (t : trail_t) : list var := filter (fun v => isDecisionVar v t) (seq 0 (nvt t)).

Section Numbers.
Variable A : arith.

(** VarOrderLt, VSIDS.h:63-71, LRB.h *)
Definition order (act : list (F A)) (x y : nat) : bool := f_gt A (nth x act (f_zero A)) (nth y act (f_zero A)).

(** pickBranchLit, VSIDS.h:266-282 and LRB.h:161-172 *)
Fixpoint pick_loop (fuel : nat) (lt : nat -> nat -> bool) (t : trail_t) (h : heap_t) : out (option var * heap_t) :=
  match fuel with
  | 0 => Err Fuel
  | S f =>
    if hempty h then Ok (None, h)
    else '(x, h1) <- oget (removeMin lt h) ;;
         if is_undef (vvalue t x) && isDecisionVar x t then Ok (Some x, h1) else pick_loop f lt t h1
  end.

(** ** VSIDS *)
(** VSIDS.h:73-82; the stamp is a local set (C09) *)
Record vsids := mkVS { vs_heap : heap_t; vs_act : list (F A); vs_pol : list bool; vs_inc : F A; vs_decay : F A }.
(** VSIDS.h:84-93 *)
Definition vs_new (decay : F A) : vsids := mkVS (mkHeap [] []) [] [] (f_one A) decay.

(** VSIDS.h:95-100 *)
Definition vs_clear (b : vsids) : out vsids :=
  h <- oget (hclear (vs_heap b)) ;; Ok (mkVS h [] [] (vs_inc b) (vs_decay b)).

(** VSIDS.h:123-134 *)
Definition vs_reset (t : trail_t) (b : vsids) : out vsids :=
  h <- oget (hbuild (order (vs_act b)) (decision_vars t) (vs_heap b)) ;;
  Ok (mkVS h (vs_act b) (vs_pol b) (vs_inc b) (vs_decay b)).

(** VSIDS.h:102-121.  [occ] is what opt_sort_variables computes for each variable from the relative
    occurrences (VSIDS.h:113-118: activity and polarity), [None] without the option (VSIDSC has no
    such option). *)
Definition vs_init (occ : option (var -> F A * bool)) (t : trail_t) (b : vsids) : out vsids :=
  let b1 := if length (vs_act b) <? nvt t
            then mkVS (hgrow (nvt t) (vs_heap b)) (resize (nvt t) (f_zero A) (vs_act b))
                      (resize (nvt t) true (vs_pol b)) (vs_inc b) (vs_decay b)
            else b in
  let b2 := match occ with
            | None => b1
            | Some o => mkVS (vs_heap b1) (map (fun v => fst (o v)) (seq 0 (nvt t)) ++ skipn (nvt t) (vs_act b1))
                             (map (fun v => snd (o v)) (seq 0 (nvt t)) ++ skipn (nvt t) (vs_pol b1))
                             (vs_inc b1) (vs_decay b1)
            end in
  vs_reset t b2.

(** VSIDS.h:139-142 and 149-152; the heap is not told about a new activity *)
Definition vs_setPolarity (v : var) (s : bool) (b : vsids) : out vsids :=
  p <- oget (upd (vs_pol b) v s) ;; Ok (mkVS (vs_heap b) (vs_act b) p (vs_inc b) (vs_decay b)).
Definition vs_setActivity (v : var) (x : F A) (b : vsids) : out vsids :=
  a <- oget (upd (vs_act b) v x) ;; Ok (mkVS (vs_heap b) a (vs_pol b) (vs_inc b) (vs_decay b)).

(** VSIDS.h:189-213.  [amount v inc] is the value added: var_inc in VSIDS (line 191),
    var_inc * (1 + centrality * factor) in VSIDSC (VSIDSC.h:212-216). *)
Definition vs_bump (amount : var -> F A -> F A) (v : var) (b : vsids) : out vsids :=
  a <- oget (upd (vs_act b) v (f_add A (nth v (vs_act b) (f_zero A)) (amount v (vs_inc b)))) ;;
  let big := f_big A (nth v a (f_zero A)) in
  let a1 := if big then map (f_scale A) a else a in
  let i1 := if big then f_scale A (vs_inc b) else vs_inc b in
  h <- (if inHeap (vs_heap b) v then oget (decrease (order a1) v (vs_heap b)) else Ok (vs_heap b)) ;;
  Ok (mkVS h a1 (vs_pol b) i1 (vs_decay b)).

(** VSIDS.h:223-234: the literals of all involved clauses, each variable once *)
Fixpoint vs_bump_all (amount : var -> F A -> F A) (ls : list lit) (st : vset) (b : vsids) : out vsids :=
  match ls with
  | [] => Ok b
  | l :: r => if st (lvar l) then vs_bump_all amount r st b
              else b1 <- vs_bump amount (lvar l) b ;; vs_bump_all amount r (vadd (lvar l) st) b1
  end.

(** VSIDS.h:252-258 *)
Fixpoint vs_refill (t : trail_t) (ls : list lit) (b : vsids) : out vsids :=
  match ls with
  | [] => Ok b
  | l :: r =>
    let v := lvar l in
    p <- oget (upd (vs_pol b) v (lsign l)) ;;
    h <- (if negb (inHeap (vs_heap b) v) && isDecisionVar v t
          then oget (hinsert (order (vs_act b)) v (vs_heap b)) else Ok (vs_heap b)) ;;
    vs_refill t r (mkVS h (vs_act b) p (vs_inc b) (vs_decay b))
  end.

(** VSIDS.h:215-259.  [step] is the test of line 217, [extra] the option glucose_style_extra_bump:
    its loop starts at trail.begin(decisionLevel()), which reads trail_lim behind its end (line
    238). *)
Definition vs_conflict (amount : var -> F A -> F A) (step extra : bool) (involved : list clause) (bl : nat)
  (t : trail_t) (b : vsids) : out vsids :=
  let b0 := mkVS (vs_heap b) (vs_act b) (vs_pol b) (vs_inc b)
                 (if step then f_hundredth A (vs_decay b) else vs_decay b) in
  b1 <- vs_bump_all amount (concat involved) vempty b0 ;;
  _ <- (if extra then trail_from (dlevel t) t else Ok []) ;;
  let b2 := mkVS (vs_heap b1) (vs_act b1) (vs_pol b1) (f_decay A (vs_inc b1) (vs_decay b1)) (vs_decay b1) in
  ls <- trail_from bl t ;;
  vs_refill t ls b2.

(** VSIDS.h:266-284 *)
Definition vs_pick (t : trail_t) (b : vsids) : out (option lit * vsids) :=
  '(x, h) <- pick_loop (S (hsize (vs_heap b))) (order (vs_act b)) t (vs_heap b) ;;
  let b1 := mkVS h (vs_act b) (vs_pol b) (vs_inc b) (vs_decay b) in
  match x with
  | None => Ok (None, b1)
  | Some v => s <- oget (nth_error (vs_pol b) v) ;; Ok (Some (mkLit v s), b1)
  end.

(** ** LRB *)
(** LRB.h:177-189; the counters are unbounded *)
Record lrb := mkLRB { lr_heap : heap_t; lr_w : list (F A); lr_pol : list bool; lr_ia : list N; lr_pa : list N; lr_step : F A }.
Definition lr_new (step : F A) : lrb := mkLRB (mkHeap [] []) [] [] [] [] step.

(** LRB.h:85-91 *)
Definition lr_clear (b : lrb) : out lrb :=
  h <- oget (hclear (lr_heap b)) ;;
  Ok (mkLRB h [] [] (map (fun _ => 0%N) (lr_ia b)) (map (fun _ => 0%N) (lr_pa b)) (lr_step b)).

(** LRB.h:113-121 *)
Definition lr_reset (t : trail_t) (b : lrb) : out lrb :=
  h <- oget (hbuild (order (lr_w b)) (decision_vars t) (lr_heap b)) ;;
  Ok (mkLRB h (lr_w b) (lr_pol b) (lr_ia b) (lr_pa b) (lr_step b)).

(** LRB.h:93-111.  interval_assigned and participated are resized to nVars, which may shrink them
    after clear; [occ] as for VSIDS *)
Definition lr_init (occ : option (var -> F A * bool)) (t : trail_t) (b : lrb) : out lrb :=
  let b1 := if length (lr_w b) <? nvt t
            then mkLRB (hgrow (nvt t) (lr_heap b)) (resize (nvt t) (f_zero A) (lr_w b))
                       (resize (nvt t) true (lr_pol b)) (resize (nvt t) 0%N (lr_ia b))
                       (resize (nvt t) 0%N (lr_pa b)) (lr_step b)
            else b in
  let b2 := match occ with
            | None => b1
            | Some o => mkLRB (lr_heap b1) (map (fun v => fst (o v)) (seq 0 (nvt t)) ++ skipn (nvt t) (lr_w b1))
                              (map (fun v => snd (o v)) (seq 0 (nvt t)) ++ skipn (nvt t) (lr_pol b1))
                              (lr_ia b1) (lr_pa b1) (lr_step b1)
            end in
  lr_reset t b2.

(** LRB.h:125-134: participated[v]++ once for each variable of the involved clauses *)
Fixpoint lr_count (ls : list lit) (st : vset) (pa : list N) : out (list N) :=
  match ls with
  | [] => Ok pa
  | l :: r => if st (lvar l) then lr_count r st pa
              else p <- oget (upd pa (lvar l) (nth (lvar l) pa 0 + 1)%N) ;; lr_count r (vadd (lvar l) st) p
  end.
(** LRB.h:138-140 *)
Fixpoint lr_assigned (ls : list lit) (ia : list N) : out (list N) :=
  match ls with
  | [] => Ok ia
  | l :: r => i <- oget (upd ia (lvar l) (nth (lvar l) ia 0 + 1)%N) ;; lr_assigned r i
  end.
(** LRB.h:145-155: the variable is inserted before its weight changes *)
Fixpoint lr_refill (t : trail_t) (ls : list lit) (b : lrb) : out lrb :=
  match ls with
  | [] => Ok b
  | l :: r =>
    let v := lvar l in
    p <- oget (upd (lr_pol b) v (lsign l)) ;;
    h <- (if negb (inHeap (lr_heap b) v) && isDecisionVar v t
          then oget (hinsert (order (lr_w b)) v (lr_heap b)) else Ok (lr_heap b)) ;;
    i <- oget (nth_error (lr_ia b) v) ;;
    if (0 <? i)%N then
      q <- oget (nth_error (lr_pa b) v) ;;
      w <- oget (upd (lr_w b) v (f_lrb A (lr_step b) (nth v (lr_w b) (f_zero A)) (q / i)%N)) ;;
      lr_refill t r (mkLRB h w p (set_nth v 0%N (lr_ia b)) (set_nth v 0%N (lr_pa b)) (lr_step b))
    else lr_refill t r (mkLRB h (lr_w b) p (lr_ia b) (lr_pa b) (lr_step b))
  end.
(** LRB.h:124-156 *)
Definition lr_conflict (involved : list clause) (bl : nat) (t : trail_t) (b : lrb) : out lrb :=
  pa <- lr_count (concat involved) vempty (lr_pa b) ;;
  all <- trail_from 0 t ;;
  ia <- lr_assigned all (lr_ia b) ;;
  ls <- trail_from bl t ;;
  lr_refill t ls (mkLRB (lr_heap b) (lr_w b) (lr_pol b) ia pa (f_shrink A (lr_step b))).

(** LRB.h:161-175 *)
Definition lr_pick (t : trail_t) (b : lrb) : out (option lit * lrb) :=
  '(x, h) <- pick_loop (S (hsize (lr_heap b))) (order (lr_w b)) t (lr_heap b) ;;
  let b1 := mkLRB h (lr_w b) (lr_pol b) (lr_ia b) (lr_pa b) (lr_step b) in
  match x with
  | None => Ok (None, b1)
  | Some v => s <- oget (nth_error (lr_pol b) v) ;; Ok (Some (mkLit v s), b1)
  end.

(** ** Implicit learning (RSIL) *)
(** ImplicitLearningAdvice.h, AdviceEntry / BudgetAdviceEntry: the first m_size literals, the
    backbone flag and, for the budget variant, the budget of each literal *)
Record advice := mkAdv { a_lits : list lit; a_bb : bool; a_bud : option (list Z) }.
Definition adv_new (budgets : option nat) : advice := mkAdv [] false (option_map (repeat 0%Z) budgets).

(** addLiteral; the array has maxSize-1 entries, writing behind it is UB *)
Definition addLiteral (maxSize : nat) (l : lit) (a : advice) : out advice :=
  if length (a_lits a) + 1 <? maxSize then Ok (mkAdv (a_lits a ++ [l]) (a_bb a) (a_bud a)) else Err UB.

Definition adv_upd (v : var) (f : advice -> out advice) (m : list advice) : out (list advice) :=
  a <- oget (nth_error m v) ;; a1 <- f a ;; Ok (set_nth v a1 m).

(** addEquivalenceConjecture, the inner loop for one key literal *)
Fixpoint add_entries (maxSize : nat) (key : lit) (ls : list lit) (m : list advice) : out (list advice) :=
  match ls with
  | [] => Ok m
  | e :: r => m1 <- (if key =? e then Ok m
                     else adv_upd (lvar key) (addLiteral maxSize (if lsign key then e else lneg e)) m) ;;
              add_entries maxSize key r m1
  end.
Fixpoint add_equiv_keys (maxSize : nat) (all keys : list lit) (m : list advice) : out (list advice) :=
  match keys with
  | [] => Ok m
  | k :: r => m0 <- adv_upd (lvar k) (fun a => Ok (mkAdv (a_lits a) false (a_bud a))) m ;;
              m1 <- add_entries maxSize k all m0 ;; add_equiv_keys maxSize all r m1
  end.
Fixpoint add_equivs (maxSize : nat) (cs : list (list lit)) (m : list advice) : out (list advice) :=
  match cs with
  | [] => Ok m
  | c :: r => m1 <- (if length c <=? maxSize then add_equiv_keys maxSize c c m else Ok m) ;; add_equivs maxSize r m1
  end.
(** addBackboneConjecture *)
Fixpoint add_backbones (maxSize : nat) (bs : list lit) (m : list advice) : out (list advice) :=
  match bs with
  | [] => Ok m
  | l :: r => m1 <- adv_upd (lvar l) (fun a => addLiteral maxSize l (mkAdv (a_lits a) true (a_bud a))) m ;;
              add_backbones maxSize r m1
  end.
(** ImplicitLearningAdvice::init on a new object *)
Definition adv_init (maxSize : nat) (budgets : bool) (equivs : list (list lit)) (backbones : list lit) (size : nat) : out (list advice) :=
  m <- add_equivs maxSize equivs (repeat (adv_new (if budgets then Some (maxSize - 1) else None)) size) ;;
  add_backbones maxSize backbones m.

(** BranchingHeuristics.h:418-450 *)
Definition canUse (a : advice) (i : nat) : bool :=
  match a_bud a with None => true | Some b => (0 <? nth i b 0)%Z end.
Definition used (a : advice) (i : nat) : advice :=
  match a_bud a with None => a | Some b => mkAdv (a_lits a) (a_bb a) (Some (set_nth i (nth i b 0 - 1)%Z b)) end.

(** BranchingHeuristics.h:486-499: [k] entries are left to try, [j] is the loop counter *)
Fixpoint advice_loop (k j level : nat) (t : trail_t) (cursor : lit) (a : advice) : out (option (lit * advice)) :=
  match k with
  | 0 => Ok None
  | S k =>
    let i := (level + j) mod length (a_lits a) in
    let p := nth i (a_lits a) 0 in
    if nvt t <=? lvar p then Err UB
    else if is_undef (vvalue t (lvar p)) && isDecisionVar (lvar p) t && canUse a i
         then Ok (Some (if lsign cursor then lneg p else p, used a i))
         else advice_loop k (S j) level t cursor a
  end.
(** BranchingHeuristics.h:469-502 *)
Fixpoint advice_scan (t : trail_t) (cursors : list lit) (m : list advice) : out (option lit * list advice) :=
  match cursors with
  | [] => Ok (None, m)
  | c :: r =>
    match nth_error m (lvar c) with
    | None => advice_scan t r m
    | Some a =>
      if a_bb a then advice_scan t r m
      else x <- advice_loop (length (a_lits a)) 0 (dlevel t) t c a ;;
           match x with
           | Some (p, a1) => Ok (Some p, set_nth (lvar c) a1 m)
           | None => advice_scan t r m
           end
    end
  end.
(** BranchingHeuristics.h:460-503 *)
Definition getAdvice (t : trail_t) (m : list advice) : out (option lit * list advice) :=
  match lim t with
  | [] => Ok (None, m)
  | _ => advice_scan t (skipn (last (lim t) 0) (tr t)) m
  end.
(** BranchingHeuristics.h:506-520 *)
Definition getSignAdvice (bb : bool) (l : lit) (m : list advice) : lit * list advice :=
  match nth_error m (lvar l) with
  | Some a => if bb && a_bb a && (length (a_lits a) =? 1) && canUse a 0
              then (lneg (nth 0 (a_lits a) 0), set_nth (lvar l) (used a 0) m) else (l, m)
  | None => (l, m)
  end.

(** BranchingHeuristics.h:66-82 *)
Record rsil := mkRSIL { rs_vsids : vsids; rs_adv : list advice; rs_ready : bool; rs_bb : bool }.
(** BranchingHeuristics.cc:34-119.  [g1] and [g2] are the results of the two calls of
    makeRSILDecision in the vanishing variant; they are true in the other variants. *)
Definition rs_pick (g1 g2 : bool) (t : trail_t) (b : rsil) : out (option lit * rsil) :=
  if rs_ready b then
    '(x, m) <- (if g1 then getAdvice t (rs_adv b) else Ok (None, rs_adv b)) ;;
    match x with
    | Some p => Ok (Some p, mkRSIL (rs_vsids b) m true (rs_bb b))
    | None =>
      '(y, v) <- vs_pick t (rs_vsids b) ;;
      match y with
      | None => Ok (None, mkRSIL v m true (rs_bb b))
      | Some p => let '(q, m1) := if g2 then getSignAdvice (rs_bb b) p m else (p, m) in
                  Ok (Some q, mkRSIL v m1 true (rs_bb b))
      end
    end
  else '(y, v) <- vs_pick t (rs_vsids b) ;; Ok (y, mkRSIL v (rs_adv b) false (rs_bb b)).

End Numbers.
