(** Drawing the simulation inputs, and the simulator's loop: randomsimulation/Randomization.cc and RandomSimulator.cc. *)
Require Import List Arith Bool NArith.
Require Import Verif.Base Verif.Outcome Verif.CNFModel Verif.GateModel Verif.SimModel.
Import ListNotations.
Open Scope nat_scope.

(** ** Randomization.cc *)
(** Randomization.cc:69-72 (and 198-201): nextRand returns the new state; [k] calls fill the words of one vector (lines 76-78) *)
Fixpoint draw_words (k : nat) (s : N) : vec * N :=
  match k with 0 => ([], s) | S k => let s1 := rnd s in let '(ws, s') := draw_words k s1 in (s1 :: ws, s') end.
(** Randomization.cc:74-81 and 151-155: fresh words for every index *)
Fixpoint draw_all (K : nat) (ins : list var) (s : N) (vs : vectors) : out (vectors * N) :=
  match ins with
  | [] => Ok (vs, s)
  | v :: ins' => let '(ws, s') := draw_words K s in vs' <- vset vs v ws ;; draw_all K ins' s' vs'
  end.
(** Randomization.cc:176-178 and 190-192: [k] further draws combined into one word, with | or with & *)
Fixpoint mix_word (op : N -> N -> N) (k : nat) (w s : N) : N * N :=
  match k with 0 => (w, s) | S k => let s1 := rnd s in mix_word op k (op w s1) s1 end.
Fixpoint mix_words (op : N -> N -> N) (k : nat) (x : vec) (s : N) : vec * N :=
  match x with
  | [] => ([], s)
  | w :: x' => let '(w', s1) := mix_word op k w s in let '(r, s2) := mix_words op k x' s1 in (w' :: r, s2)
  end.
Fixpoint mix_all (op : N -> N -> N) (k : nat) (ins : list var) (s : N) (vs : vectors) : out (vectors * N) :=
  match ins with
  | [] => Ok (vs, s)
  | v :: ins' => x <- vget vs v ;; let '(x', s') := mix_words op k x s in vs' <- vset vs v x' ;; mix_all op k ins' s' vs'
  end.

(** Randomization.cc:99-144: a cyclically biased strategy; the numbers are unsigned 32-bit *)
Record biased := mkBiased { b_state : N; b_min : N; b_max : N; b_step : N; b_true : bool; b_calls : N }.
Definition W32 : N := 4294967296%N.
(** Randomization.cc:166-168; the remainder by zero is undefined *)
Definition current_bias (b : biased) : out N :=
  let m := ((b_max b + 1) mod W32)%N in
  if N.eqb m 0 then Err UB else Ok (((b_min b + b_calls b * b_step b) mod W32) mod m)%N.
(** Randomization.cc:149-164, 170-196 *)
Definition biased_randomize (K : nat) (ins : list var) (b : biased) (vs : vectors) : out (vectors * biased) :=
  ' (vs1, s1) <- draw_all K ins (b_state b) vs ;;
  bias <- current_bias b ;;
  ' (vs2, s2) <- (if (1 <? bias)%N then mix_all (if b_true b then N.lor else N.land) (N.to_nat bias - 1) ins s1 vs1 else Ok (vs1, s1)) ;;
  Ok (vs2, mkBiased s2 (b_min b) (b_max b) (b_step b) (b_true b) ((b_calls b + 1) mod W32)%N).

(** the strategies; an alternating one has its two parts, its period and its own counter of invocations *)
Inductive strategy := Simple (s : N) | Biased (b : biased) | Alternating (a b : strategy) (period calls : N).
(** Randomization.cc:253-261: the counter is compared but never advanced; the division by zero is undefined *)
Fixpoint randomize_with (K : nat) (ins : list var) (r : strategy) (vs : vectors) : out (vectors * strategy) :=
  match r with
  | Simple s => ' (vs', s') <- draw_all K ins s vs ;; Ok (vs', Simple s')
  | Biased b => ' (vs', b') <- biased_randomize K ins b vs ;; Ok (vs', Biased b')
  | Alternating a b p c =>
      if N.eqb p 0 then Err UB
      else if N.eqb ((c / p) mod 2) 0 then ' (vs', a') <- randomize_with K ins a vs ;; Ok (vs', Alternating a' b p c)
      else ' (vs', b') <- randomize_with K ins b vs ;; Ok (vs', Alternating a b' p c)
  end.
(** Randomization.cc:61-63, 83-85: createSimpleRandomization *)
Definition simple_rz : strategy := Simple 65535%N.
(** Randomization.cc:204-214 *)
Definition cyclic_rz (min max step : N) (to_true : bool) : strategy := Biased (mkBiased 65535%N min max step to_true 0%N).
(** Randomization.cc:89-95 *)
Definition biased_rz (bias : N) (to_true : bool) : strategy := cyclic_rz bias bias 0%N to_true.
(** Randomization.cc:264-270 *)
Definition alternate_rz (a b : strategy) (period : N) : strategy := Alternating a b period 0%N.
(** RandomSimulator.cc:193-200: the strategy of a builder that was given none *)
Definition default_rz : strategy := alternate_rz (cyclic_rz 1 5 1 true) (cyclic_rz 1 5 1 false) 5.

(** ** RandomSimulator.cc *)
(** the simulator keeps its strategy, its vectors and its partition (round counter and entries) between runs, lines 69-78 *)
Record sim := mkSim { m_rz : strategy; m_vs : vectors; m_part : nat * pairs }.
Inductive ending := Conj (cls : list (list lit)) (bbs : list lit) | OutOfTime.
(** lines 104-105: nSteps is an unsigned int, a vector stands for 64 K assignments *)
Definition real_steps (K : nat) (n : N) : N := let w := (64 * N.of_nat K)%N in (n / w + (if N.eqb (n mod w) 0 then 0 else 1))%N.
(** lines 112-114 *)
Definition sim_round (K : nat) (sched : nat -> bool) (ord : order) (st : sim) : out sim :=
  ' (vs1, rz') <- randomize_with K (o_inputs ord) (m_rz st) (m_vs st) ;;
  vs2 <- propagate K (o_steps ord) vs1 ;;
  part <- update sched (map (fun s => lvar (fst s)) (o_steps ord)) (m_part st) vs2 ;;
  Ok (mkSim rz' vs2 part).
(** lines 111-129.  [worth] gives the answers of isFurtherSimulationWorthwile (lines 80-83, a comparison of floating point numbers)
    and [late] says in which steps the time limit is found to be exceeded.  [n] is the number of steps left for a bounded run, and a
    bound on the modelled steps for an unbounded one.  The step counter is unbounded (in the code it wraps after 2^32 steps). *)
Fixpoint sim_loop (K : nat) (sched : nat -> bool) (ord : order) (worth late : nat -> bool) (bounded : bool) (n step : nat) (st : sim) : out (bool * sim) :=
  match n with
  | 0 => if bounded then Ok (false, st) else Err Fuel
  | S n' =>
      st' <- sim_round K sched ord st ;;
      if (10 <? step) && negb (worth step) then Ok (false, st')
      else if late step then Ok (true, st')
      else sim_loop K sched ord worth late bounded n' (S step) st'
  end.
(** lines 101-132: the exception leaves the simulator as it is *)
Definition run_impl (K : nat) (sched : nat -> bool) (ord : order) (worth late : nat -> bool) (bounded : bool) (n : nat) (st : sim) : out (ending * sim) :=
  ' (expired, st') <- sim_loop K sched ord worth late bounded n 0 st ;;
  if expired then Ok (OutOfTime, st')
  else ' (cls, bbs) <- getConjectures (map (fun s => lvar (fst s)) (o_steps ord)) (snd (m_part st')) ;; Ok (Conj cls bbs, st').
(** lines 90-99: run with a number of steps and a time limit *)
Definition run_steps (K : nat) (sched : nat -> bool) (ord : order) (worth late : nat -> bool) (n : N) (st : sim) : out (ending * sim) :=
  run_impl K sched ord worth late true (N.to_nat (real_steps K n)) st.
(** lines 85-88: run without a bound; [fuel] bounds the modelled steps *)
Definition run_open (K : nat) (sched : nat -> bool) (ord : order) (worth : nat -> bool) (fuel : nat) (st : sim) : out (ending * sim) :=
  run_impl K sched ord worth (fun _ => false) false fuel st.
(** lines 44-59, 68-78: a simulator before its first run; [init] is the content of the simulation vectors *)
Definition fresh_sim (rz : strategy) (init : vectors) : sim := mkSim rz init (0, []).
