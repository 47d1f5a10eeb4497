(** Specification vocabulary for drawing simulation inputs and for the simulator's loop. *)
Require Import List Arith Bool NArith.
Require Import Verif.Base Verif.Outcome Verif.CNFModel Verif.GateModel Verif.SimModel Verif.SimSpec Verif.RsilSpec Verif.RandModel.
Import ListNotations.

(** the place of an input in the list of inputs *)
Fixpoint place (v : var) (ins : list var) : nat := match ins with [] => 0 | u :: ins' => if u =? v then 0 else S (place v ins') end.
(** vectors after the inputs were given new words; everything else is as before *)
Definition filled (ins : list var) (fill : var -> vec) (vs vs' : vectors) : Prop :=
  length vs' = length vs /\ forall v, nth v vs' [] = if existsb (Nat.eqb v) ins then fill v else nth v vs [].
(** the generator's state after [n] numbers *)
Definition state_after (s : N) (n : nat) : N := match n with 0 => s | S n => random s n end.
(** Word number [t] of [n] words drawn from state [s] with [b - 1] extra draws for each: its own number, combined with the [b - 1] numbers
    that belong to it. *)
Definition mixed (op : N -> N -> N) (s : N) (n b t : nat) : N :=
  fold_left op (map (fun j => random s (n + t * (b - 1) + j)) (seq 0 (b - 1))) (random s t).
(** the words that input [v] gets *)
Definition drawn (op : N -> N -> N) (K : nat) (ins : list var) (s : N) (b : nat) (v : var) : vec :=
  map (fun i => mixed op s (length ins * K) b (place v ins * K + i)) (seq 0 K).
(** the bias of call number [c], as it is documented *)
Definition documented_bias (min max step : N) (c : nat) : N := ((min + N.of_nat c * step) mod (max + 1))%N.
(** parameters for which no remainder or quotient by zero is taken *)
Fixpoint usable (r : strategy) : Prop :=
  match r with
  | Simple _ => True
  | Biased b => (b_max b < 2 ^ 32 - 1)%N
  | Alternating a b p _ => p <> 0%N /\ usable a /\ usable b
  end.
(** [n] calls of a strategy, on the same vectors *)
Fixpoint calls (K : nat) (ins : list var) (n : nat) (r : strategy) (vs : vectors) : out (list vectors * strategy) :=
  match n with
  | 0 => Ok ([], r)
  | S n => ' (vs1, r1) <- randomize_with K ins r vs ;; ' (l, r2) <- calls K ins n r1 vs1 ;; Ok (vs1 :: l, r2)
  end.
(** the vectors after each of [n] rounds: draw the inputs, evaluate the gates *)
Fixpoint vectors_of (K : nat) (ord : order) (r : strategy) (init : vectors) (n : nat) : out (list vectors * strategy) :=
  match n with
  | 0 => Ok ([], r)
  | S n =>
      ' (hist, r1) <- vectors_of K ord r init n ;; ' (vs1, r2) <- randomize_with K (o_inputs ord) r1 (last hist init) ;;
      vs2 <- propagate K (o_steps ord) vs1 ;; Ok (hist ++ [vs2], r2)
  end.
(** a simulator that has made [n] rounds, in one run or in several *)
Definition has_made (K : nat) (sched : nat -> bool) (ord : order) (r : strategy) (init : vectors) (n : nat) (st : sim) : Prop :=
  exists hist, vectors_of K ord r init n = Ok (hist, m_rz st) /\ m_vs st = last hist init /\
    updates sched (map (fun s => lvar (fst s)) (o_steps ord)) (0, []) hist = Ok (m_part st).
(** classes and backbones that say exactly which output literals never differed and which were never false in the recorded rounds *)
Definition exact_conjectures (K : nat) (outs : list var) (hist : list vectors) (cls : list (list lit)) (bbs : list lit) : Prop :=
  (forall l, In l bbs <-> In (lvar l) outs /\ always K hist l) /\
  (forall l m, In (lvar l) outs -> In (lvar m) outs -> lvar l <> lvar m ->
     (alike K hist l m <-> (exists c, In c cls /\ ((In l c /\ In m c) \/ (In (lneg l) c /\ In (lneg m) c))) \/
                           (In l bbs /\ In m bbs) \/ (In (lneg l) bbs /\ In (lneg m) bbs))) /\
  (forall c, In c cls -> 2 <= length c /\ forall l, In l c -> In (lvar l) outs /\ ~ always K hist l /\ ~ always K hist (lneg l)).
(** The steps of a run are numbered from 0.  It gives up after step 11 or a later one if going on is not worthwhile. *)
Definition gives_up (worth : nat -> bool) (k : nat) : bool := (11 <=? k) && negb (worth k).
(** how many steps a run of at most [R] steps makes, and whether it ends because time is up: the first step after which it gives up or is late
    is the last one *)
Definition steps_made (worth late : nat -> bool) (R m : nat) (expired : bool) : Prop :=
  (m = R /\ expired = false /\ forall k, k < R -> gives_up worth k = false /\ late k = false) \/
  (1 <= m <= R /\ (forall k, k < m - 1 -> gives_up worth k = false /\ late k = false) /\
   if expired then gives_up worth (m - 1) = false /\ late (m - 1) = true else gives_up worth (m - 1) = true).
