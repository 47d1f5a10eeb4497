(** Specification vocabulary for the variants of implicit learning. *)
Require Import List Arith Bool NArith ZArith.
Require Import Verif.Base Verif.Outcome Verif.CNFModel Verif.TrailModel Verif.GateModel Verif.SimModel Verif.BranchModel Verif.BranchSpec Verif.GateSpec Verif.SimSpec Verif.SimProp Verif.SimCases Verif.RsilModel.
Import ListNotations.
Open Scope nat_scope.

Section Numbers.
Variable A : arith.
(** what plain VSIDS would decide *)
Definition vsids_pick (c : trail_t * vsids A) : option lit := match vs_pick A (fst c) (snd c) with Ok (r, _) => r | Err _ => None end.
(** the decisions on the variable [y] that differ from those of VSIDS *)
Definition overrides (y : var) (calls : list (trail_t * vsids A)) (rs : list (option lit)) : list ((trail_t * vsids A) * option lit) :=
  filter (fun cr => match snd cr with
                    | Some p => (lvar p =? y) && negb (match vsids_pick (fst cr) with Some q => q =? p | None => false end)
                    | None => false
                    end) (combine calls rs).
(** the calls are those of a search: between two of them VSIDS and the trail change as in C24, the conjectures are about known variables *)
Definition searching (n : nat) (calls : list (trail_t * vsids A)) : Prop :=
  forall c, In c calls -> n <= nvt (fst c) /\ exists ext okamt d0 ph, vs_reach A ext okamt d0 ph (fst c) (snd c) /\ ph <> Stale.
End Numbers.

(** the numbers that the generator delivers after the state [s]: the i-th *)
Fixpoint random (s : N) (i : nat) : N := match i with 0 => rnd s | S i => random (rnd s) i end.
(** the answers of successive calls of makeRSILDecision *)
Fixpoint decisions (k : nat) (s : vanish) : list bool :=
  match k with 0 => [] | S k => fst (makeRSILDecision s) :: decisions k (snd (makeRSILDecision s)) end.
(** how often the probability has been halved before call [i]: first after [first] calls, then after each further [half] calls *)
Definition halvings (first half i : N) : N := if (i <? first)%N then 0%N else N.min 64 (1 + (i - first) / half).

(** what the flags ask for; None: they are rejected *)
Definition requested (static lrb vsidsc rsil : bool) (adv_size : nat) (m : kind) : solver_type :=
  mkST static (if lrb then LRB else if rsil then RSIL m adv_size else if vsidsc then VSIDSC else VSIDS).

(** what the simulation needs (C40): enough words, an input for every step, memory of the right size, variables below 2^28, no gate whose
    clauses mention other variables, no collision of fingerprints *)
Definition simulable (K : nat) (fills : list (var -> vec)) (init : vectors) (p : cnf) (g : gproblem) : Prop :=
  1 <= K /\ fills <> [] /\ backward_covered (problem p) (gates g) /\
  forall ord, readGates None (problem p) (gates g) (root_lits p g) = Ok ord ->
    wf_vectors K (o_amount ord) init /\ (forall f v, In f fills -> In v (o_inputs ord) -> wf_vec K (f v)) /\ (N.of_nat (o_amount ord) <= 2 ^ 28)%N /\
    (forall hist, sim_steps K ord fills init = Ok hist -> no_collisions K (outputs ord) hist).
(** the conditions under which the simulation is run to its end *)
Definition simulation_wanted (o : rsil_opts) (p : cnf) (g : gproblem) (miter : Prop) : Prop :=
  ro_gate_timeout o = false /\ ro_num o * variables p < gate_count g * ro_den o /\ (ro_miters o = true -> miter) /\ ro_sim_timeout o = false.
(** the unordered pairs of positions of a list *)
Fixpoint pairs_of {B} (l : list B) : list (B * B) := match l with [] => [] | x :: r => map (fun y => (x, y)) r ++ pairs_of r end.
