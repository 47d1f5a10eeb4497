(** C59: how the inputs of a random simulation are drawn, and how many rounds a run makes. *)
Require Import List Arith Bool NArith.
Require Import Verif.Base Verif.Outcome Verif.CNFModel Verif.GateModel Verif.GateSpec Verif.BranchSpec Verif.SimModel Verif.SimSpec Verif.SimHist Verif.SimProp Verif.SimCases Verif.RsilSpec.
Require Import Verif.RandModel Verif.RandSpec Verif.RandProofs Verif.RandRun Verif.RandCases.
Import ListNotations.

(** Every strategy whose parameters are usable gives each input K new words of 64 bits and changes no other vector. *)
Theorem C59_words : forall K ins r, NoDup ins -> usable r -> forall vs, (forall v, In v ins -> v < length vs) ->
  exists vs' r' fill, randomize_with K ins r vs = Ok (vs', r') /\ usable r' /\ filled ins fill vs vs' /\ forall v, wf_vec K (fill v).
Proof. exact randomize_with_ok. Qed.
Print Assumptions C59_words.
(** The simple strategy: the words are successive numbers of the generator. *)
Theorem C59_simple : forall K ins s, NoDup ins -> forall vs, (forall v, In v ins -> v < length vs) ->
  exists vs', randomize_with K ins (Simple s) vs = Ok (vs', Simple (state_after s (length ins * K))) /\ filled ins (fun v => map (fun i => random s (place v ins * K + i)) (seq 0 K)) vs vs'.
Proof. exact simple_ok. Qed.
Print Assumptions C59_simple.
(** The cyclic strategy: in call number i the words are combined from as many numbers as the documented bias of that call says (a bias of 0
    counts as 1), by disjunction or by conjunction, and no number of the generator is used twice. *)
Theorem C59_cyclic : forall K ins min max step t n vs, NoDup ins -> (forall v, In v ins -> v < length vs) -> (max < 2 ^ 32 - 1)%N -> (min + N.of_nat n * step < 2 ^ 32)%N -> (N.of_nat n < 2 ^ 32)%N ->
  exists l r, calls K ins n (cyclic_rz min max step t) vs = Ok (l, r) /\ length l = n /\
    forall i, i < n -> filled ins (drawn (if t then N.lor else N.land) K ins (state_after 65535 (length ins * K * list_sum (map (fun c => N.to_nat (N.max 1 (documented_bias min max step c))) (seq 0 i)))) (N.to_nat (N.max 1 (documented_bias min max step i))))
      (nth i (vs :: l) []) (nth i l []).
Proof. exact cyclic_ok. Qed.
Print Assumptions C59_cyclic.
(** The direction is the opposite of the documented one.  In the simulated assignments a set bit is false (see C40): compared to unbiased
    drawing from the same state, the strategy "biased to true" never makes an input true, and the one "biased to false" never makes one false. *)
Theorem C59_direction : forall K ins b vs v1 b1 v2 r2, NoDup ins -> (forall v, In v ins -> v < length vs) -> (b_max b < 2 ^ 32 - 1)%N ->
  randomize_with K ins (Biased b) vs = Ok (v1, b1) -> randomize_with K ins (Simple (b_state b)) vs = Ok (v2, r2) ->
  forall v j, In v ins -> j < 64 * K -> sim_assignment v2 j v = negb (b_true b) -> sim_assignment v1 j v = negb (b_true b).
Proof. exact direction. Qed.
Print Assumptions C59_direction.
(** For example an input that should be true with a chance of 31 in 32 is true in 2 of the first 64 assignments. *)
Theorem C59_direction_refuted : exists vs r, randomize_with 1 [0] (biased_rz 5 true) [[0%N]] = Ok (vs, r) /\ length (filter (fun j => sim_assignment vs j 0) (seq 0 64)) = 2.
Proof. exact direction_refuted. Qed.
Print Assumptions C59_direction_refuted.
(** An alternating strategy never reaches its second part, whatever the period: any number of calls are calls of the first part. *)
Theorem C59_alternate_refuted : forall K ins n a b p vs l r, (1 <= p)%N -> calls K ins n (alternate_rz a b p) vs = Ok (l, r) <-> exists a', calls K ins n a vs = Ok (l, a') /\ r = Alternating a' b p 0.
Proof. exact alternate_refuted. Qed.
Print Assumptions C59_alternate_refuted.
(** In particular the default strategy, which should change its direction every five calls. *)
Theorem C59_default_refuted : exists l r, calls 1 [0] 6 default_rz [[0%N]] = Ok (l, r) /\ r = Alternating (Biased (mkBiased (state_after 65535 16) 1 5 1 true 6)) (cyclic_rz 1 5 1 false) 5 0.
Proof. exact default_refuted. Qed.
Print Assumptions C59_default_refuted.
(** Parameters that are not usable divide by zero. *)
Theorem C59_undefined : forall K ins vs, (forall v, In v ins -> v < length vs) -> NoDup ins ->
  randomize_with K ins (cyclic_rz 1 4294967295 1 true) vs = Err UB /\ randomize_with K ins (alternate_rz simple_rz simple_rz 0) vs = Err UB.
Proof. exact undefined. Qed.
Print Assumptions C59_undefined.

(** Whatever the strategy draws, every number of rounds can be made, and every simulated assignment satisfies the gates. *)
Theorem C59_rounds : forall cfg p g, wf_problem (variables p) (problem p) -> analyze cfg p = Ok g ->
  forall K ord init rz, backward_covered (problem p) (gates g) -> readGates None (problem p) (gates g) (root_lits p g) = Ok ord ->
  wf_vectors K (o_amount ord) init -> usable rz -> forall n, (exists hist r, vectors_of K ord rz init n = Ok (hist, r)) /\
  forall hist r, vectors_of K ord rz init n = Ok (hist, r) -> length hist = n /\ (forall vs, In vs hist -> wf_vectors K (o_amount ord) vs) /\
    forall a v, simulated K hist a -> In v (outputs ord) -> holds (problem p) a (gate_clauses (nth v (gates g) gate_none)).
Proof. exact rounds_ok. Qed.
Print Assumptions C59_rounds.
(** A run for n assignments, on a new simulator or on one that has made rounds before.  R, the number of rounds of 64 K assignments, is the
    least that suffices.  The run makes R rounds unless the heuristic stops it (not before its twelfth round) or the time is up.  It ends with
    the exception exactly if the time is up; else its conjectures are exact for all rounds the simulator has made, in this run and before. *)
Theorem C59_run : forall cfg p g, wf_problem (variables p) (problem p) -> analyze cfg p = Ok g ->
  forall K sched ord init rz, 1 <= K -> backward_covered (problem p) (gates g) -> readGates None (problem p) (gates g) (root_lits p g) = Ok ord ->
  wf_vectors K (o_amount ord) init -> (N.of_nat (o_amount ord) <= 2 ^ 28)%N -> usable rz ->
  forall worth late n R n0 st, (0 < n)%N -> (n <= N.of_nat R * (64 * N.of_nat K) < n + 64 * N.of_nat K)%N ->
  (forall i hist r, i <= n0 + R -> vectors_of K ord rz init i = Ok (hist, r) -> no_collisions K (outputs ord) hist) -> has_made K sched ord rz init n0 st ->
  exists m expired e st', steps_made worth late R m expired /\
    run_steps K sched ord worth late n st = Ok (e, st') /\ has_made K sched ord rz init (n0 + m) st' /\
    if expired then e = OutOfTime
    else exists hist cls bbs, e = Conj cls bbs /\ vectors_of K ord rz init (n0 + m) = Ok (hist, m_rz st') /\ exact_conjectures K (outputs ord) hist cls bbs /\ good_conjectures (o_amount ord) cls bbs.
Proof. exact run_steps_ok. Qed.
Print Assumptions C59_run.
(** A run without a bound makes k + 1 rounds, where k is the first number from 11 on at which the heuristic says stop. *)
Theorem C59_open : forall cfg p g, wf_problem (variables p) (problem p) -> analyze cfg p = Ok g ->
  forall K sched ord init rz, 1 <= K -> backward_covered (problem p) (gates g) -> readGates None (problem p) (gates g) (root_lits p g) = Ok ord ->
  wf_vectors K (o_amount ord) init -> (N.of_nat (o_amount ord) <= 2 ^ 28)%N -> usable rz ->
  forall worth n0 st k fuel, 11 <= k -> worth k = false -> (forall i, 11 <= i < k -> worth i = true) -> k < fuel ->
  (forall i hist r, i <= n0 + S k -> vectors_of K ord rz init i = Ok (hist, r) -> no_collisions K (outputs ord) hist) -> has_made K sched ord rz init n0 st ->
  exists hist cls bbs st', run_open K sched ord worth fuel st = Ok (Conj cls bbs, st') /\ has_made K sched ord rz init (n0 + S k) st' /\
       vectors_of K ord rz init (n0 + S k) = Ok (hist, m_rz st') /\ exact_conjectures K (outputs ord) hist cls bbs /\ good_conjectures (o_amount ord) cls bbs.
Proof. exact run_open_ok. Qed.
Print Assumptions C59_open.
(** It never returns if the heuristic never says so, in particular if it is disabled, as it is by default. *)
Theorem C59_forever : forall cfg p g, wf_problem (variables p) (problem p) -> analyze cfg p = Ok g ->
  forall K sched ord init rz, 1 <= K -> backward_covered (problem p) (gates g) -> readGates None (problem p) (gates g) (root_lits p g) = Ok ord ->
  wf_vectors K (o_amount ord) init -> (N.of_nat (o_amount ord) <= 2 ^ 28)%N -> usable rz ->
  forall worth n0 st fuel, (forall k, 11 <= k -> worth k = true) ->
  (forall i hist r, i <= n0 + fuel -> vectors_of K ord rz init i = Ok (hist, r) -> no_collisions K (outputs ord) hist) -> has_made K sched ord rz init n0 st ->
  run_open K sched ord worth fuel st = Err Fuel.
Proof. exact run_forever. Qed.
Print Assumptions C59_forever.
(** A new simulator has made no rounds. *)
Theorem C59_fresh : forall K sched ord init rz, has_made K sched ord rz init 0 (fresh_sim rz init).
Proof. exact fresh_ok. Qed.
Print Assumptions C59_fresh.

(** The hypotheses are met: the problem of C40_case with the default strategy; 300 assignments take three rounds of 128, and a run that ran out
    of time after two rounds is continued. *)
Example C59_default : usable default_rz /\ map (documented_bias 1 5 1) (seq 0 8) = [1; 2; 3; 4; 5; 0; 1; 2]%N.
Proof. exact default_ok. Qed.
Example C59_case : (forall i h r, i <= 0 + 3 -> vectors_of 2 scase_ord default_rz zeros i = Ok (h, r) -> no_collisions 2 (outputs scase_ord) h) /\
  (exists st, run_steps 2 log_sched scase_ord (fun _ => true) (fun _ => false) 300 (fresh_sim default_rz zeros) = Ok (Conj [[5; 3; 1]] [], st) /\ m_vs st = last (hist_of 3) zeros) /\
  (exists st st', run_steps 2 log_sched scase_ord (fun _ => true) (fun k => k =? 1) 300 (fresh_sim default_rz zeros) = Ok (OutOfTime, st) /\ m_vs st = last (hist_of 2) zeros /\
     run_steps 2 log_sched scase_ord (fun _ => true) (fun _ => false) 100 st = Ok (Conj [[5; 3; 1]] [], st') /\ m_vs st' = last (hist_of 3) zeros) /\
  (exists st, run_open 2 log_sched scase_ord (fun _ => false) 20 (fresh_sim default_rz zeros) = Ok (Conj [[5; 3; 1]] [], st) /\ m_vs st = last (hist_of 12) zeros).
Proof. exact run_case. Qed.
Example C59_cyclic_case : NoDup [3; 4] /\ (forall v, In v [3; 4] -> v < length zeros) /\ (exists l r, calls 2 [3; 4] 3 (cyclic_rz 1 5 1 false) zeros = Ok (l, r) /\ nth 3 (nth 2 l []) [] = drawn N.land 2 [3; 4] (state_after 65535 12) 3 3 /\
  nth 3 (nth 2 l []) [] = [11400286313250816; 4616224871146332673]%N).
Proof. exact cyclic_case. Qed.
