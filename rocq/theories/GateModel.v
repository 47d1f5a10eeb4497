(** Model of the gate recognition: BlockList.h, GateProblem.h (recognition part), GateAnalyzer.{h,cc}, GateBuilder.h,
    GateDFSTraversal.h (all src/candy/gates).

    Clauses are pointers in the code; here they are indices into the list [cs] of the problem's clauses.  Literals index the
    arrays; the theorems assume that all literals of the problem are below 2*nVars(), which CNFProblem guarantees (C03), and
    then no access is out of bounds. *)
Require Import List Arith Bool NArith.
Require Import Verif.Base Verif.Outcome Verif.CNFModel.
Import ListNotations.

Definition cl (cs : list clause) (c : nat) : clause := nth c cs [].

(** ** BlockList *)
(** BlockList.h:37-40; num_blocked has type uint16_t *)
Record blocklist := mkBL { index : list (list nat); num_blocked : list N }.
(** BlockList.h:40 *)
Definition num_invalid : N := 65535.
Definition to_u16 (n : N) : N := n mod 65536.
(** index[o] *)
Definition occs (b : blocklist) (o : lit) : list nat := nth o (index b) [].

(** BlockList.h:42-45 *)
Definition isBlocked_pair (o : lit) (c1 c2 : clause) : bool :=
  existsb (fun l1 => negb (l1 =? o) && existsb (fun l2 => l1 =? lneg l2) c2) c1.
(** BlockList.h:47-50 *)
Definition isBlocked (cs : list clause) (b : blocklist) (o : lit) (c : nat) : bool :=
  forallb (fun c2 => isBlocked_pair o (cl cs c) (cl cs c2)) (occs b (lneg o)).
(** BlockList.h:52-59 *)
Definition countBlocked (cs : list clause) (o : lit) (b : blocklist) : blocklist :=
  mkBL (index b) (set_nth o (fold_left (fun n c => if isBlocked cs b o c then to_u16 (n + 1) else n) (occs b o) 0%N) (num_blocked b)).

(** BlockList.h:62-71 *)
Fixpoint index_clause (c : nat) (ls : list lit) (ix : list (list nat)) : list (list nat) :=
  match ls with [] => ix | l :: r => index_clause c r (set_nth l (nth l ix [] ++ [c]) ix) end.
Definition bl_new (n : nat) (cs : list clause) : blocklist :=
  mkBL (fold_left (fun ix c => index_clause c (cl cs c) ix) (seq 0 (length cs)) (repeat [] (2 * n))) (repeat num_invalid (2 * n)).

(** BlockList.h:75-80 *)
Definition getNumBlocked (cs : list clause) (o : lit) (b : blocklist) : N * blocklist :=
  let b1 := if (nth o (num_blocked b) 0 =? num_invalid)%N then countBlocked cs o b else b in
  (nth o (num_blocked b1) 0%N, b1).

(** h.erase(std::remove(h.begin(), h.end(), clause), h.end()) for h = index[lit] *)
Definition erase (c : nat) (l : lit) (ix : list (list nat)) : list (list nat) :=
  set_nth l (filter (fun c' => negb (c' =? c)) (nth l ix [])) ix.
(** BlockList.h:85-88: one literal of a removed clause *)
Definition remove_lit (c : nat) (b : blocklist) (l : lit) : blocklist :=
  mkBL (erase c l (index b)) (set_nth (lneg l) num_invalid (set_nth l num_invalid (num_blocked b))).
(** BlockList.h:82-91 *)
Definition bl_remove (cs : list clause) (clauses : list nat) (b : blocklist) : blocklist :=
  fold_left (fun b c => fold_left (remove_lit c) (cl cs c) b) clauses b.

(** BlockList.h:101-103 *)
Definition isBlockedSet (cs : list clause) (o : lit) (b : blocklist) : bool * blocklist :=
  let (n, b1) := getNumBlocked cs o b in ((N.of_nat (length (occs b1 o)) =? n)%N, b1).

(** BlockList.h:109-116: one literal; [mn] is the uint16_t [min] *)
Definition min_step (cs : list clause) (st : option lit * N * blocklist) (l : lit) : option lit * N * blocklist :=
  let '(res, mn, b) := st in
  let total := N.of_nat (length (occs b l)) in
  let (n, b1) := getNumBlocked cs l b in
  let diff := (total - n)%N in
  if (0 <? diff)%N && (diff <? mn)%N then (Some l, diff, b1) else (res, mn, b1).
(** BlockList.h:108-117: [v] counts down from nVars()-1 *)
Fixpoint min_loop (cs : list clause) (v : nat) (st : option lit * N * blocklist) : option lit * N * blocklist :=
  match v with
  | O => st
  | S v => let '(_, mn, _) := st in
           if (1 <? mn)%N then min_loop cs v (min_step cs (min_step cs st (mkLit v true)) (mkLit v false)) else st
  end.
(** BlockList.h:105-119 *)
Definition getMinimallyUnblockedLiteral (cs : list clause) (n : nat) (b : blocklist) : option lit * blocklist :=
  let '(r, _, b1) := min_loop cs n (None, 65535%N, b) in (r, b1).

(** BlockList.h:131-141: one literal of a stripped clause *)
Definition strip_lit (o : lit) (c : nat) (b : blocklist) (l : lit) : blocklist :=
  let ix := erase c l (index b) in
  if l =? o then mkBL ix (set_nth (lneg l) (to_u16 (N.of_nat (length (nth (lneg l) ix [])))) (num_blocked b))
  else mkBL ix (set_nth (lneg l) num_invalid (set_nth l num_invalid (num_blocked b))).
(** BlockList.h:121-145 *)
Definition stripUnblockedClauses (cs : list clause) (o : lit) (b : blocklist) : list nat * blocklist :=
  let result := filter (fun c => negb (isBlocked cs b o c)) (occs b o) in
  (result, fold_left (fun b c => fold_left (strip_lit o c) (cl cs c) b) result b).

(** ** GateProblem *)
(** GateProblem.h:34-42 *)
Record gate := mkGate { g_out : option lit; g_fwd : list nat; g_bwd : list nat; g_notMono : bool; g_inp : list lit }.
Definition gate_none : gate := mkGate None [] [] false [].
(** GateProblem.h:50-56; the statistics are not modelled *)
Record gproblem := mkGP { roots : list nat; inputs : list bool; gates : list gate; remainder : list nat; gate_count : nat; monoton_gate_count : nat }.
(** GateProblem.h:64-70 *)
Definition gp_new (n : nat) : gproblem := mkGP [] (repeat false (2 * n)) (repeat gate_none n) [] 0 0.
(** GateProblem.h:76-86 *)
Definition setUsedAsInput (l : lit) (g : gproblem) : gproblem :=
  mkGP (roots g) (set_nth l true (inputs g)) (gates g) (remainder g) (gate_count g) (monoton_gate_count g).
Definition isNestedMonotonic (g : gproblem) (l : lit) : bool := negb (nth l (inputs g) false && nth (lneg l) (inputs g) false).
Definition getGate (g : gproblem) (o : lit) : gate := nth (lvar o) (gates g) gate_none.
(** GateProblem.h:94-98: the inputs *)
Definition gate_inputs (cs : list clause) (o : lit) (fwd : list nat) : list lit :=
  flat_map (fun c => filter (fun l => negb (l =? lneg o)) (cl cs c)) fwd.
(** GateProblem.h:88-105 *)
Definition addGate (cs : list clause) (o : lit) (fwd bwd : list nat) (g : gproblem) : gproblem :=
  let old := getGate g o in
  let notMono := negb (isNestedMonotonic g o) in
  let inp := unique Nat.eqb (sort (g_inp old ++ gate_inputs cs o fwd)) in
  let gt := mkGate (Some o) (g_fwd old ++ fwd) (g_bwd old ++ bwd) notMono inp in
  let g1 := mkGP (roots g) (inputs g) (set_nth (lvar o) gt (gates g)) (remainder g) (S (gate_count g)) (if notMono then monoton_gate_count g else S (monoton_gate_count g)) in
  fold_left (fun g l => let g1 := setUsedAsInput l g in if notMono then setUsedAsInput (lneg l) g1 else g1) inp g1.

(** ** GateAnalyzer *)
(** GateAnalyzer.h:79-90; [calls] counts the calls of the SAT solver *)
Record analyzer := mkGA { blist : blocklist; gprob : gproblem; calls : nat }.
(** GateAnalyzer.h:93-96 and the environment: [timeout k] tells whether the timeout has passed at the k-th test,
    [solver k f] whether the k-th call of the solver answers l_False for the formula f *)
Record config := mkCfg { maxTries : nat; usePatterns : bool; useSemantic : bool; useHolistic : bool; timeout : nat -> bool; solver : nat -> cnf -> bool }.

(** std::set<Lit>: the sorted list without duplicates *)
Definition to_set (l : list nat) : list nat := unique Nat.eqb (sort l).
(** GateAnalyzer.h:106-109 *)
Definition fixedClauseSize (cs : list clause) (f : list nat) (n : nat) : bool := forallb (fun c => length (cl cs c) =? n) f.
(** GateAnalyzer.cc:182-209.  pow is exact for the sizes that can occur. *)
Definition patternCheck (cs : list clause) (o : lit) (fwd bwd : list nat) : bool :=
  let fwd_inp := to_set (flat_map (fun c => filter (fun l => negb (l =? lneg o)) (cl cs c)) fwd) in
  let bwd_inp := to_set (map lneg (flat_map (fun c => filter (fun l => negb (l =? o)) (cl cs c)) bwd)) in
  if negb (if list_eq_dec Nat.eq_dec fwd_inp bwd_inp then true else false) then false
  else if (length fwd =? 1) && (length bwd =? 1) && (length (cl cs (hd 0 fwd)) =? 2) && (length (cl cs (hd 0 bwd)) =? 2) then true
  else if (length fwd =? 1) && fixedClauseSize cs bwd 2 then true
  else if (length bwd =? 1) && fixedClauseSize cs fwd 2 then true
  else if (length fwd =? length bwd) && (2 * N.of_nat (length fwd) =? 2 ^ (N.of_nat (length fwd_inp) / 2))%N
       then 2 * length (to_set (map lvar fwd_inp)) =? length fwd_inp
  else false.

(** GateAnalyzer.cc:212-222: the clauses of the gate without the output variable *)
Definition gate_constraint (cs : list clause) (o : lit) (fwd bwd : list nat) : cnf :=
  readClauses cnf_empty (map (fun c => filter (fun l => negb (lvar l =? lvar o)) (cl cs c)) (fwd ++ bwd)).
(** GateAnalyzer.cc:223-236: the clauses are sorted by address, which is irrelevant for the set *)
Definition resolution_environment (b : blocklist) (constraint : list clause) : list nat :=
  to_set (flat_map (fun c => flat_map (fun l => occs b l) c) constraint).
(** GateAnalyzer.cc:211-242 *)
Definition semantic_formula (cs : list clause) (b : blocklist) (o : lit) (fwd bwd : list nat) (holistic : bool) : cnf :=
  let k := gate_constraint cs o fwd bwd in
  let k1 := if holistic then readClauses k (map (cl cs) (resolution_environment b (problem k))) else k in
  normalizeVariableNames k1.
Definition semanticCheck (cfg : config) (cs : list clause) (o : lit) (fwd bwd : list nat) (holistic : bool) (a : analyzer) : bool * analyzer :=
  (solver cfg (calls a) (semantic_formula cs (blist a) o fwd bwd holistic), mkGA (blist a) (gprob a) (S (calls a))).

(** GateAnalyzer.cc:151-163: which test succeeds; [None] if none *)
Definition recognise (cfg : config) (cs : list clause) (o : lit) (fwd bwd : list nat) (a : analyzer) : bool * analyzer :=
  if isNestedMonotonic (gprob a) o then (true, a)
  else if usePatterns cfg && patternCheck cs o fwd bwd then (true, a)
  else
    let '(s, a1) := if useSemantic cfg then semanticCheck cfg cs o fwd bwd false a else (false, a) in
    if s then (true, a1)
    else if useHolistic cfg then semanticCheck cfg cs o fwd bwd true a1 else (false, a1).
(** GateAnalyzer.cc:146-177 *)
Definition isGate (cfg : config) (cs : list clause) (o : lit) (a : analyzer) : bool * analyzer :=
  if length (occs (blist a) (lneg o)) =? 0 then (false, a)
  else
    let (blocked, b1) := isBlockedSet cs o (blist a) in
    let a1 := mkGA b1 (gprob a) (calls a) in
    if blocked then
      let fwd := occs b1 (lneg o) in
      let bwd := occs b1 o in
      let (r, a2) := recognise cfg cs o fwd bwd a1 in
      if r then
        let g := addGate cs o fwd bwd (gprob a2) in
        let gt := getGate g o in
        (true, mkGA (bl_remove cs (g_bwd gt) (bl_remove cs (g_fwd gt) (blist a2))) g (calls a2))
      else (false, a2)
    else (false, a1).

(** GateAnalyzer.cc:126-132: one pass over the candidates; returns the next frontier *)
Fixpoint try_candidates (cfg : config) (cs : list clause) (cand : list lit) (frontier : list lit) (a : analyzer) : list lit * analyzer :=
  match cand with
  | [] => (frontier, a)
  | o :: r => let (b, a1) := isGate cfg cs o a in
              try_candidates cfg cs r (if b then frontier ++ g_inp (getGate (gprob a1) o) else frontier) a1
  end.
(** GateAnalyzer.cc:118-135 *)
Fixpoint gate_recognition (fuel : nat) (cfg : config) (cs : list clause) (frontier : list lit) (a : analyzer) : out analyzer :=
  match frontier with
  | [] => Ok a
  | _ => match fuel with
         | O => Err Fuel
         | S fuel => let (f, a1) := try_candidates cfg cs frontier [] a in gate_recognition fuel cfg cs f a1
         end
  end.

(** GateAnalyzer.cc:99-103: the root clauses become roots, their literals inputs *)
Definition add_roots (cs : list clause) (rs : list nat) (g : gproblem) : gproblem :=
  fold_left (fun g c => fold_left (fun g l => setUsedAsInput l g) (cl cs c)
    (mkGP (roots g ++ [c]) (inputs g) (gates g) (remainder g) (gate_count g) (monoton_gate_count g))) rs g.
Definition unit_ids (cs : list clause) : list nat := filter (fun c => length (cl cs c) =? 1) (seq 0 (length cs)).
(** GateAnalyzer.cc:66-106; [count] is the loop variable *)
Fixpoint analyze_loop (fuel : nat) (cfg : config) (cs : list clause) (n count : nat) (a : analyzer) : out analyzer :=
  match fuel with
  | O => Err Fuel
  | S fuel =>
    if ((maxTries cfg =? 0) || (count <? maxTries cfg)) && negb (timeout cfg count) then
      let '(stop, rs, b) :=
        if count =? 0 then (false, unit_ids cs, bl_remove cs (unit_ids cs) (blist a))
        else let (l, b1) := getMinimallyUnblockedLiteral cs n (blist a) in
             match l with
             | Some o => let (rs, b2) := stripUnblockedClauses cs o b1 in (false, rs, b2)
             | None => (true, [], b1)
             end in
      let a1 := mkGA b (gprob a) (calls a) in
      if stop then Ok a1
      else match rs with
           | [] => analyze_loop fuel cfg cs n (S count) a1
           | _ => let a2 := mkGA b (add_roots cs rs (gprob a)) (calls a) in
                  a3 <- gate_recognition (S (length cs)) cfg cs (flat_map (cl cs) rs) a2 ;;
                  analyze_loop fuel cfg cs n (S count) a3
           end
    else Ok a
  end.
(** GateAnalyzer.cc:108-113: the remaining clauses.  The code collects them in an unordered set; here in the order of the
    problem *)
Definition remaining (cs : list clause) (b : blocklist) : list nat :=
  filter (fun c => existsb (fun h => existsb (Nat.eqb c) h) (index b)) (seq 0 (length cs)).
(** GateAnalyzer.cc:34-52, 63-116: the result of analyze() for the problem [p] *)
Definition analyze (cfg : config) (p : cnf) : out gproblem :=
  let cs := problem p in let n := variables p in
  a <- analyze_loop (S (S (length cs))) cfg cs n 0 (mkGA (bl_new n cs) (gp_new n) 0) ;;
  let g := gprob a in
  Ok (mkGP (roots g) (inputs g) (gates g) (remainder g ++ remaining cs (blist a)) (gate_count g) (monoton_gate_count g)).

(** ** GateBuilder.h:32-54 *)
Definition and_gate (o l1 l2 : lit) (full : bool) : list clause :=
  if full then [[lneg o; l1]; [lneg o; l2]; [o; lneg l1; lneg l2]] else [[lneg o; l1]; [lneg o; l2]].
Definition or_gate (o l1 l2 : lit) (full : bool) : list clause :=
  if full then [[lneg o; l1; l2]; [o; lneg l1]; [o; lneg l2]] else [[lneg o; l1; l2]].
Definition xor_gate (o l1 l2 : lit) (full : bool) : list clause :=
  if full then [[lneg o; l1; l2]; [lneg o; lneg l1; lneg l2]; [o; l1; lneg l2]; [o; lneg l1; l2]] else [[lneg o; l1; l2]; [lneg o; lneg l1; lneg l2]].

(** ** GateDFSTraversal.h *)
(** The calls of the collector, in order *)
Inductive event := ECollect (v : var) | EBacktrack (v : var) | EInput (v : var).
(** A gate is a pointer &gates[v]; here the variable v.  [gs] is the array of gates. *)
Definition defined (gs : list gate) (v : var) : bool := match g_out (nth v gs gate_none) with Some _ => true | None => false end.
(** GateDFSTraversal.h:120-131: the inputs of a visited gate; the last pushed is on top of the stack (the head) *)
Fixpoint push_inputs (prune : var -> bool) (gs : list gate) (visited : list var) (ins : list lit) (work : list (var * bool)) (seen : list var)
    : list (var * bool) * list var * list event :=
  match ins with
  | [] => (work, seen, [])
  | i :: r =>
    let v := lvar i in
    if defined gs v && negb (existsb (Nat.eqb v) visited) && negb (prune v) then push_inputs prune gs visited r ((v, false) :: work) seen
    else if negb (defined gs v) && negb (existsb (Nat.eqb v) seen) then
      let '(w, s, es) := push_inputs prune gs visited r work (v :: seen) in (w, s, EInput v :: es)
    else push_inputs prune gs visited r work seen
  end.
(** GateDFSTraversal.h:105-136 *)
Fixpoint dfs_loop (fuel : nat) (prune : var -> bool) (gs : list gate) (work : list (var * bool)) (visited seen : list var) : out (list event) :=
  match work with
  | [] => Ok []
  | (v, back) :: r =>
    match fuel with
    | O => Err Fuel
    | S fuel =>
      if back then es <- dfs_loop fuel prune gs r visited seen ;; Ok (EBacktrack v :: es)
      else if existsb (Nat.eqb v) visited then dfs_loop fuel prune gs r visited seen
      else
        let '(w, s, es) := push_inputs prune gs (v :: visited) (g_inp (nth v gs gate_none)) ((v, true) :: r) seen in
        es' <- dfs_loop fuel prune gs w (v :: visited) s ;; Ok (ECollect v :: es ++ es')
    end
  end.
(** GateDFSTraversal.h:93-100: the initial stack *)
Definition dfs_start (prune : var -> bool) (gs : list gate) (root_lits : list lit) : list (var * bool) :=
  rev (map (fun v => (v, false)) (filter (fun v => defined gs v && negb (prune v)) (map lvar root_lits))).
(** the total number of stack operations is bounded *)
Definition dfs_fuel (gs : list gate) (root_lits : list lit) : nat :=
  length root_lits + length (flat_map g_inp gs) + length gs + 1.
(** GateDFSTraversal.h:84-137 *)
Definition traverseDFS (prune : var -> bool) (gs : list gate) (root_lits : list lit) : out (list event) :=
  dfs_loop (dfs_fuel gs root_lits) prune gs (dfs_start prune gs root_lits) [] [].
(** GateDFSTraversal.h:144-189 *)
Definition getTopoOrder (gs : list gate) (root_lits : list lit) : out (list var) :=
  es <- traverseDFS (fun _ => false) gs root_lits ;;
  Ok (flat_map (fun e => match e with EBacktrack v => [v] | _ => [] end) es).
