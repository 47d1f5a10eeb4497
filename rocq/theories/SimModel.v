(** Random simulation: src/candy/randomsimulation (clause order, propagation, partition, simulator).
    A simulation vector is the list of its 64-bit words.  The number of words is a macro (RANDSIM_VARSIMVECSIZE), so it is left open. *)
Require Import List Arith Bool NArith.
Require Import Verif.Base Verif.Outcome Verif.CNFModel Verif.GateModel.
Import ListNotations.
Open Scope nat_scope.

(** ** FastRand.h:18-24 *)
Definition W64 : N := 18446744073709551616%N.
Definition wtrunc (x : N) : N := (x mod W64)%N.
(** operator~ on uint64_t *)
Definition wnot (x : N) : N := N.lxor x (N.pred W64).
Definition rnd (s : N) : N :=
  let s1 := N.lxor s (N.shiftr s 12) in
  let s2 := N.lxor s1 (wtrunc (N.shiftl s1 25)) in
  let s3 := N.lxor s2 (N.shiftr s2 27) in
  wtrunc (s3 * 2685821657736338717)%N.

(** ** SimulationVector.h:68-150, SimulationVectors: one vector for every variable below the size *)
Definition vec := list N.
Definition vectors := list vec.
Definition vnot (x : vec) : vec := map wnot x.
Definition vmap2 (f : N -> N -> N) (x y : vec) : vec := map (fun p => f (fst p) (snd p)) (combine x y).
(** SimulationVector.h:180-184: the assertion is not compiled in; an index outside is undefined *)
Definition vget (vs : vectors) (v : var) : out vec := match nth_error vs v with Some x => Ok x | None => Err UB end.
Definition vset (vs : vectors) (v : var) (x : vec) : out vectors := if v <? length vs then Ok (set_nth v x vs) else Err UB.

(** ** ClauseOrder.cc:145-182: which half of the gate is evaluated; the output literal as it is pushed *)
Definition used_side (g : gate) (o : lit) : lit * list nat :=
  if g_notMono g || (length (g_fwd g) <=? length (g_bwd g)) then (lneg o, g_fwd g) else (o, g_bwd g).
(** the gates that pass the filter; [enabled] is m_enabledOutputs, None without a filter *)
Definition passes (enabled : option (list var)) (gs : list gate) (g : gate) (o : lit) : bool :=
  match enabled with
  | None => true
  | Some en => existsb (Nat.eqb (lvar o)) en &&
      forallb (fun i => negb (defined gs (lvar i) && negb (existsb (Nat.eqb (lvar i)) en))) (g_inp g)
  end.
Record order := mkOrder { o_steps : list (lit * list clause); o_inputs : list var; o_amount : nat }.
(** ClauseOrder.cc:302-345, readGates of the (default) non-recursive order; it never asks the filter for its variables, so with a
    filter the enabled variables stay the empty list: callers pass [Some []] *)
Definition readGates (enabled : option (list var)) (cs : list clause) (gs : list gate) (root_lits : list lit) : out order :=
  es <- traverseDFS (fun _ => false) gs root_lits ;;
  let outs := flat_map (fun e => match e with EBacktrack v => [v] | _ => [] end) es in
  let ins := flat_map (fun e => match e with EInput v => [v] | _ => [] end) es in
  let all := flat_map (fun e => match e with EBacktrack v | ECollect v | EInput v => [v] end) es in
  Ok (mkOrder
    (flat_map (fun v => let g := nth v gs gate_none in
       match g_out g with
       | Some o => if passes enabled gs g o then [(fst (used_side g o), map (cl cs) (snd (used_side g o)))] else []
       | None => []
       end) outs)
    ins (fold_left (fun m v => Nat.max m (S v)) all 0)).

(** ** Propagation.cc:74-130 *)
(** lines 85-112: the disjunction over the literals that do not belong to the output variable *)
Fixpoint clause_vec (vs : vectors) (o : var) (c : clause) (acc : vec) : out vec :=
  match c with
  | [] => Ok acc
  | l :: c' =>
      if lvar l =? o then clause_vec vs o c' acc
      else x <- vget vs (lvar l) ;; clause_vec vs o c' (vmap2 N.lor acc (if lsign l then x else vnot x))
  end.
Fixpoint gate_vec (K : nat) (vs : vectors) (o : var) (cs : list clause) (acc : vec) : out vec :=
  match cs with
  | [] => Ok acc
  | c :: cs' => x <- clause_vec vs o c (repeat 0%N K) ;; gate_vec K vs o cs' (vmap2 N.land acc x)
  end.
Definition propagate_gate (K : nat) (step : lit * list clause) (vs : vectors) : out vectors :=
  let '(ol, cs) := step in
  x <- gate_vec K vs (lvar ol) cs (repeat (N.pred W64) K) ;;
  vset vs (lvar ol) (if lsign ol then vnot x else x).
Fixpoint propagate (K : nat) (steps : list (lit * list clause)) (vs : vectors) : out vectors :=
  match steps with
  | [] => Ok vs
  | s :: steps' => vs' <- propagate_gate K s vs ;; propagate K steps' vs'
  end.
(** Randomization.cc: the words drawn for the inputs are arbitrary, [fill] gives them *)
Fixpoint randomize (ins : list var) (fill : var -> vec) (vs : vectors) : out vectors :=
  match ins with
  | [] => Ok vs
  | v :: ins' => vs' <- vset vs v (fill v) ;; randomize ins' fill vs'
  end.

(** ** Partition.cc *)
(** Partition.cc:172-181; varId has 28 bits *)
Record entry := mkE { gid : N; vid : var; bb : bool; bbv : bool; pol : bool }.
Definition trunc28 (v : var) : var := N.to_nat (N.of_nat v mod 268435456)%N.
(** the arrays m_partitioningPos and m_partitioningNeg always have the same length and are changed together; they are modelled as
    one list of pairs *)
Definition pairs := list (entry * entry).
Definition absorb (g w : N) : N := rnd (N.lxor g w).
(** Partition.cc:235-251 *)
Definition init_entry (vs : vectors) (v : var) : out (entry * entry) :=
  x <- vget vs v ;;
  let w := nth 0 x 0%N in
  Ok (mkE (rnd w) (trunc28 v) true (N.testbit w 0) true, mkE (rnd (wnot w)) (trunc28 v) false (N.testbit w 0) false).
(** Partition.cc:253-290, both halves *)
Definition upd_entry (initial : bool) (vs : vectors) (e : entry * entry) : out (entry * entry) :=
  let '(p, n) := e in
  x <- vget vs (vid p) ;;
  y <- vget vs (vid n) ;;
  Ok (mkE (fold_left absorb (if initial then tl x else x) (gid p)) (vid p)
          (bb p && forallb (fun w => if bbv p then N.eqb (wnot w) 0 else N.eqb w 0) x) (bbv p) (pol p),
      mkE (fold_left (fun g w => absorb g (wnot w)) (if initial then tl y else y) (gid n)) (vid n) (bb n) (bbv n) (pol n)).
Fixpoint mapM {A B} (f : A -> out B) (l : list A) : out (list B) :=
  match l with [] => Ok [] | x :: l' => y <- f x ;; r <- mapM f l' ;; Ok (y :: r) end.

(** Partition.cc:367-388: the map from group ids to entries is the list of all entries in the order of insertion; [order] has a
    group id for every first insertion, but both tests are made before the two insertions *)
Definition has_gid (g : N) (es : list entry) : bool := existsb (fun e => N.eqb (gid e) g) es.
Definition add_pair (st : list entry * list N) (q : entry * entry) : list entry * list N :=
  let '(es, ord) := st in let '(p, n) := q in
  let ord1 := if has_gid (gid p) es then ord else ord ++ [gid p] in
  let ord2 := if has_gid (gid n) es then ord1 else ord1 ++ [gid n] in
  (es ++ [p; n], ord2).
Definition getPartitionsByID (ps : pairs) : list entry * list N := fold_left add_pair ps ([], []).
Definition group (es : list entry) (g : N) : list entry := filter (fun e => N.eqb (gid e) g) es.
(** varIdToNegGroupId[v]: the last value stored, 0 if none *)
Definition neg_gid (ps : pairs) (v : var) : N :=
  match find (fun q => vid (fst q) =? v) (rev ps) with Some q => gid (snd q) | None => 0%N end.

(** Partition.cc:324-365 (without the counting of correlations, which only affects when a simulation is stopped) and 391-415.
    The entries below rewriteIdx are [done]; only they survive the resize, and a write at an index beyond the array is undefined *)
Fixpoint write_back (ps : pairs) (part : list entry) (done : pairs) : out pairs :=
  match part with
  | [] => Ok done
  | e :: part' =>
      if pol e then
        if length done <? length ps then
          write_back ps part' (done ++ [(e, mkE (neg_gid ps (vid e)) (vid e) false false false)])
        else Err UB
      else write_back ps part' done
  end.
Fixpoint compress_groups (ps : pairs) (es : list entry) (ord : list N) (done : pairs) : out pairs :=
  match ord with
  | [] => Ok done
  | g :: ord' =>
      match group es g with
      | [] => Err UB
      | (e0 :: _) as part =>
          if (1 <? length part) || (pol e0 && bb e0) then
            done' <- write_back ps part done ;; compress_groups ps es ord' done'
          else compress_groups ps es ord' done
      end
  end.
Definition compress (ps : pairs) : out pairs :=
  let '(es, ord) := getPartitionsByID ps in compress_groups ps es ord [].

(** Partition.cc:292-322; [sched] is the compression schedule.  The round counter is unbounded here (in the code it wraps
    after 2^32 updates). *)
Definition update (sched : nat -> bool) (outs : list var) (st : nat * pairs) (vs : vectors) : out (nat * pairs) :=
  let '(round, ps) := st in
  ps1 <- (if round =? 0 then i <- mapM (init_entry vs) outs ;; mapM (upd_entry true vs) (ps ++ i) else Ok ps) ;;
  ps2 <- mapM (upd_entry false vs) ps1 ;;
  ps3 <- (if sched round then compress ps2 else Ok ps2) ;;
  Ok (S round, ps3).
Fixpoint updates (sched : nat -> bool) (outs : list var) (st : nat * pairs) (hist : list vectors) : out (nat * pairs) :=
  match hist with
  | [] => Ok st
  | vs :: hist' => st' <- update sched outs st vs ;; updates sched outs st' hist'
  end.
(** Partition.cc:111-113, 136-138: the default and the null schedule *)
Definition log_sched (round : nat) : bool := (round =? 0) || N.eqb (N.land (N.of_nat round) (N.of_nat (round - 1))) 0.
Definition null_sched (round : nat) : bool := false.

(** Partition.cc:417-439: returns whether to ignore the group, and the seen variables *)
Fixpoint ignoring (part : list entry) (seen : list bool) (forSeen hasPos hasBb : bool) : out (bool * list bool) :=
  match part with
  | [] => Ok (forSeen || negb hasPos || hasBb, seen)
  | e :: part' =>
      match nth_error seen (vid e) with
      | None => Err UB
      | Some s => ignoring part' (set_nth (vid e) (s || pol e) seen) (forSeen || (negb (pol e) && s)) (hasPos || pol e) (hasBb || bb e)
      end
  end.
(** Partition.cc:441-458 *)
Definition class_of (part : list entry) : list lit := map (fun e => mkLit (vid e) (pol e)) (filter (fun e => negb (bb e)) part).
Definition add_class (part : list entry) (cls : list (list lit)) : list (list lit) :=
  if (1 <? length part) && (2 <=? length (class_of part)) then cls ++ [class_of part] else cls.
Fixpoint conj_groups (es : list entry) (ord : list N) (seen : list bool) (cls : list (list lit)) : out (list (list lit)) :=
  match ord with
  | [] => Ok cls
  | g :: ord' =>
      ' (ig, seen') <- ignoring (group es g) seen false false false ;;
      conj_groups es ord' seen' (if ig then cls else add_class (group es g) cls)
  end.
(** Partition.cc:460-496: equivalence classes and backbones *)
Definition getConjectures (outs : list var) (ps : pairs) : out (list (list lit) * list lit) :=
  let '(es, ord) := getPartitionsByID ps in
  let maxVar := fold_left Nat.max outs 0 in
  cls <- conj_groups es ord (repeat false (S maxVar)) [] ;;
  Ok (cls, map (fun q => mkLit (vid (fst q)) (bbv (fst q))) (filter (fun q => bb (fst q)) ps)).

(** ** RandomSimulator.cc:101-132 *)
(** one step: randomise the inputs, propagate *)
Definition sim_step (K : nat) (ord : order) (fill : var -> vec) (vs : vectors) : out vectors :=
  vs1 <- randomize (o_inputs ord) fill vs ;; propagate K (o_steps ord) vs1.
(** the vectors after every step *)
Fixpoint sim_steps (K : nat) (ord : order) (fills : list (var -> vec)) (vs : vectors) : out (list vectors) :=
  match fills with
  | [] => Ok []
  | f :: fills' => vs' <- sim_step K ord f vs ;; r <- sim_steps K ord fills' vs' ;; Ok (vs' :: r)
  end.
(** a run: [init] is the content of the simulation vectors after SimulationVectors::initialize, which constructs only the first
    vector (SimulationVector.cc:84-88) and leaves the rest as allocated; the number of steps is the length of [fills].  The
    partition only reads the vectors, so it is run on the recorded ones. *)
Definition run (K : nat) (sched : nat -> bool) (ord : order) (fills : list (var -> vec)) (init : vectors)
    : out (list vectors * (list (list lit) * list lit)) :=
  hist <- sim_steps K ord fills init ;;
  let outs := map (fun s => lvar (fst s)) (o_steps ord) in
  ' (_, ps) <- updates sched outs (0, []) hist ;;
  c <- getConjectures outs ps ;;
  Ok (hist, c).
