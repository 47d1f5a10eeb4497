(** Model of rsar/Heuristics.cc (the heuristic that counts input dependencies) and of
    systems/branching/rsil/RSARHeuristicsFilter.h. *)
Require Import List Arith Bool NArith ZArith.
Require Import Verif.Base Verif.Outcome Verif.CNFModel Verif.GateModel Verif.ApproxModel Verif.ARModel Verif.BranchModel.
Import ListNotations.
Open Scope nat_scope.

(** std::unordered_map with keys that are variables or pointers to gates (&gates[v], here v): an
    association list with at most one entry per key *)
Fixpoint aget {A} (k : var) (m : list (var * A)) : option A :=
  match m with [] => None | (k', x) :: r => if k =? k' then Some x else aget k r end.
Definition adel {A} (k : var) (m : list (var * A)) : list (var * A) := filter (fun e => negb (k =? fst e)) m.
Definition aput {A} (k : var) (x : A) (m : list (var * A)) : list (var * A) := (k, x) :: adel k m.
(** std::unordered_set<Var>::insert *)
Definition uput (v : var) (s : list var) : list var := if existsb (Nat.eqb v) s then s else v :: s.

(** std::numeric_limits<size_t>::max() (Heuristics.cc:116) *)
Definition size_max : N := 18446744073709551615%N.

(** Heuristics.cc:80-95 getDirectlyNestedGates, read at one gate: the gates among [outs] that have it
    as an input, once for every occurrence *)
Definition dependents (gs : list gate) (outs : list var) (v : var) : list var :=
  flat_map (fun o => flat_map (fun i => if defined gs (lvar i) && (lvar i =? v) then [o] else []) (g_inp (nth o gs gate_none))) outs.

(** inputDependencies (the set behind each pointer; a null pointer is a missing entry) and inputDependencyCount *)
Record dstate := mkD { d_sets : list (var * list var); d_counts : list (var * N) }.

(** :132-143: the inputs that are no outputs of other gates; the flag says that the limit is exceeded *)
Fixpoint own_inputs (gs : list gate) (max : N) (ins : list lit) (s : list var) : list var * bool :=
  match ins with
  | [] => (s, false)
  | i :: r =>
    if defined gs (lvar i) then own_inputs gs max r s
    else let s' := uput (lvar i) s in
         if (max <? N.of_nat (length s'))%N then (s', true) else own_inputs gs max r s'
  end.
(** gate.out.var(); only gates that are defined are asked *)
Definition out_var (gs : list gate) (v : var) : out var :=
  match g_out (nth v gs gate_none) with Some o => Ok (lvar o) | None => Err UB end.
(** :150-153 *)
Fixpoint push_sets (s : list var) (ds : list var) (sets : list (var * list var)) : out (list (var * list var)) :=
  match ds with
  | [] => Ok sets
  | d :: r => match aget d sets with
              | Some t => push_sets s r (aput d (fold_right uput t s) sets)
              | None => Err UB
              end
  end.
(** :159-161 *)
Fixpoint push_excess (gs : list gate) (ds : list var) (counts : list (var * N)) : out (list (var * N)) :=
  match ds with
  | [] => Ok counts
  | d :: r => o <- out_var gs d ;; push_excess gs r (aput o size_max counts)
  end.
(** :123-165 one iteration of the loop *)
Definition count_step (gs : list gate) (outs : list var) (max : N) (v : var) (d : dstate) : out dstate :=
  match aget v (d_sets d) with
  | None => Err UB
  | Some s =>
    let known := match aget v (d_counts d) with Some c => (c =? size_max)%N | None => false end in
    let '(s', exceeded) := if known then (s, true) else own_inputs gs max (g_inp (nth v gs gate_none)) s in
    o <- out_var gs v ;;
    if exceeded
    then c <- push_excess gs (dependents gs outs v) (aput o size_max (d_counts d)) ;; Ok (mkD (adel v (d_sets d)) c)
    else t <- push_sets s' (dependents gs outs v) (aput v s' (d_sets d)) ;;
         Ok (mkD (adel v t) (aput o (N.of_nat (length s')) (d_counts d)))
  end.
Fixpoint count_loop (gs : list gate) (outs : list var) (max : N) (vs : list var) (d : dstate) : out dstate :=
  match vs with [] => Ok d | v :: r => d' <- count_step gs outs max v d ;; count_loop gs outs max r d' end.
(** :101-168 countInputDependencies *)
Definition countInputDependencies (gs : list gate) (root_lits : list lit) (max : N) : out (list (var * N)) :=
  outs <- getTopoOrder gs root_lits ;;
  d <- count_loop gs outs max outs (mkD (map (fun v => (v, [])) outs) []) ;;
  Ok (d_counts d).

(** ** InputDepCountRefinementHeuristic *)
(** :186-187 m_deactivationsByStep, m_step *)
Record heur := mkHeur { h_sets : list (list var); h_step : nat }.
(** :214-225 the index of the first limit below the number *)
Fixpoint first_below (config : list N) (size : N) : nat :=
  match config with [] => 0 | c :: r => if (c <? size)%N then 0 else S (first_below r size) end.
Fixpoint upd_nth {A} (k : nat) (f : A -> A) (l : list A) : list A :=
  match l, k with [], _ => [] | x :: r, 0 => f x :: r | x :: r, S k' => x :: upd_nth k' f r end.
(** :201-226 init, with the constructor (:190-196); the order of the map does not matter *)
Definition h_new (gs : list gate) (root_lits : list lit) (config : list N) : out heur :=
  counts <- countInputDependencies gs root_lits (hd 0%N config) ;;
  Ok (mkHeur (fold_left (fun sets e => upd_nth (first_below config (snd e)) (uput (fst e)) sets) counts
                        (repeat [] (S (length config)))) 0).
(** :228-230 beginRefinementStep *)
Definition h_begin (h : heur) : heur := mkHeur (h_sets h) (S (h_step h)).
(** :58-73 genericMarkRemovals ([mark_set] of ARModel is the same loop) with :232-258 markRemovals for the
    variables [vs] of the backbones or of the implications of a class *)
Definition h_mark (vs : list var) (h : heur) : out (list var * heur) :=
  match h_step h with
  | 0 => Err UB
  | S k =>
    match nth_error (h_sets h) k with
    | None => Ok ([], h)
    | Some set => let '(m, rest) := mark_set vs set in Ok (m, mkHeur (upd_nth k (fun _ => rest) (h_sets h)) (h_step h))
    end
  end.
(** :260-268 probe *)
Definition h_probe (v : var) (h : heur) : out bool :=
  match h_step h with
  | 0 => Err UB
  | S k => match nth_error (h_sets h) k with None => Ok false | Some set => Ok (existsb (Nat.eqb v) set) end
  end.

(** ** The heuristic in a refinement strategy (Refinement.cc:178-194 with this heuristic alone) *)
Fixpoint h_classes (es : list eqi) (h : heur) : out (list (list var) * heur) :=
  match es with
  | [] => Ok ([], h)
  | e :: r => ' (m, h') <- h_mark (map (fun i => lvar (fst i)) (ei_list e)) h ;; ' (ms, h'') <- h_classes r h' ;; Ok (m :: ms, h'')
  end.
Definition h_round (s : approx) (h : heur) : out (marks * heur) :=
  let h1 := h_begin h in
  ' (b, h2) <- (match bb_list (as_bbs s) with [] => Ok ([], h1) | _ => h_mark (map lvar (bb_list (as_bbs s))) h1 end) ;;
  ' (ms, h3) <- h_classes (as_eqs s) h2 ;;
  Ok (mkMarks b ms, h3).
(** init (Refinement.cc:244-248) and [k] calls of refine (:250-255); result: the heuristic, the strategy, the clauses
    of all steps and the last delta *)
Fixpoint h_refine (k : nat) (h : heur) (s : strategy) (cs : list clause) (n : enc) : out (heur * strategy * list clause * enc) :=
  match k with
  | 0 => Ok (h, s, cs, n)
  | S k' => ' (m, h') <- h_round (rs_app s) h ;; ' (s', n') <- rs_refine m s ;; h_refine k' h' s' (cs ++ n_clauses n') n'
  end.
Definition h_run (k : nat) (h : heur) (s : strategy) : out (heur * strategy * list clause * enc) :=
  ' (m, h') <- h_round (rs_app s) h ;; ' (s', n) <- rs_init m s ;; h_refine k h' s' (n_clauses n) n.

(** ** RSARHeuristicsFilter.h *)
(** ImplicitLearningAdvice.h:99-105 and 197-202 removeLiteral *)
Definition removeLiteral (i : nat) (a : advice) : advice :=
  let n := length (a_lits a) in
  let drop {A} (d : A) (l : list A) := set_nth i (nth (n - 1) l d) l in
  if (1 <? n) && negb (S i =? n)
  then mkAdv (firstn (n - 1) (drop 0 (a_lits a))) (a_bb a) (option_map (drop 0%Z) (a_bud a))
  else mkAdv (firstn (n - 1) (a_lits a)) (a_bb a) (a_bud a).
(** :53-60 probe; [hs]: the answers of the heuristics *)
Definition any_probe (hs : list (var -> bool -> bool)) (v : var) (isBackbone : bool) : bool :=
  existsb (fun h => h v isBackbone) hs.
(** :75-81 from the last literal to the first *)
Fixpoint filter_lits (hs : list (var -> bool -> bool)) (k : nat) (a : advice) : advice :=
  match k with
  | 0 => a
  | S i => filter_lits hs i (if any_probe hs (lvar (nth i (a_lits a) 0)) (a_bb a) then removeLiteral i a else a)
  end.
(** :62-83 *)
Definition filter_entry (hs : list (var -> bool -> bool)) (v : var) (a : advice) : advice :=
  if length (a_lits a) =? 0 then a
  else if any_probe hs v (a_bb a) then mkAdv [] (a_bb a) (a_bud a)
  else filter_lits hs (length (a_lits a)) a.
(** :86-95 filterWithRSARHeuristics, from variable [v] on *)
Fixpoint filter_advice (hs : list (var -> bool -> bool)) (onlyBackbone : bool) (v : var) (m : list advice) : list advice :=
  match m with
  | [] => []
  | a :: r => (if negb onlyBackbone || a_bb a then filter_entry hs v a else a) :: filter_advice hs onlyBackbone (S v) r
  end.
