(** C55: the refinement heuristic that counts input dependencies. *)
Require Import List Arith Bool NArith ZArith Permutation.
Require Import Verif.Base Verif.Outcome Verif.CNFModel Verif.GateModel Verif.GateSpec Verif.ApproxModel Verif.ApproxSpec Verif.ARModel Verif.BranchModel
  Verif.SimProp Verif.GateCases Verif.HeurModel Verif.HeurSpec Verif.HeurRun Verif.HeurFilter Verif.HeurCases.
Import ListNotations.
Open Scope nat_scope.

(** With the gates the analysis found and any limits, the heuristic can be built and any number of refinement steps can be taken:
    no null pointer, no step behind the end. *)
Theorem C55_defined : forall cfg p g config eqs bs next k, wf_problem (variables p) (problem p) -> analyze cfg p = Ok g -> (N.of_nat (variables p) < size_max)%N ->
  distinct_vars (concat eqs ++ bs) -> (forall l, In l (concat eqs ++ bs) -> lvar l < next) ->
  exists h h' s cs n, h_new (gates g) (root_lits p g) config = Ok h /\ h_run k h (rs_new eqs bs next) = Ok (h', s, cs, n).
Proof. exact (fun cfg p g config eqs bs next k WF AN SM DV NX => heur_defined cfg p g (root_lits p g) config eqs bs next WF AN (fun l H => root_range p g l WF H) SM DV k). Qed.
Print Assumptions C55_defined.

(** After the initial step and [k] refinements the assumptions switch on exactly the conjectures about variables that these steps do not remove. *)
Theorem C55_steps_sound : forall cfg p g config eqs bs next k h h' s cs n a, wf_problem (variables p) (problem p) -> analyze cfg p = Ok g -> (N.of_nat (variables p) < size_max)%N ->
  distinct_vars (concat eqs ++ bs) -> (forall l, In l (concat eqs ++ bs) -> lvar l < next) ->
  h_new (gates g) (root_lits p g) config = Ok h -> h_run k h (rs_new eqs bs next) = Ok (h', s, cs, n) ->
  sat a cs -> (forall l, In l (n_assume n) -> lit_holds a l) -> respects (gone (gates g) (root_lits p g) config k) eqs bs a.
Proof. exact (fun cfg p g config eqs bs next k h h' s cs n a WF AN SM DV NX => heur_sound cfg p g (root_lits p g) config eqs bs next WF AN (fun l H => root_range p g l WF H) SM DV NX k h h' s cs n a). Qed.
Print Assumptions C55_steps_sound.
Theorem C55_steps_complete : forall cfg p g config eqs bs next k h h' s cs n a, wf_problem (variables p) (problem p) -> analyze cfg p = Ok g -> (N.of_nat (variables p) < size_max)%N ->
  distinct_vars (concat eqs ++ bs) -> (forall l, In l (concat eqs ++ bs) -> lvar l < next) ->
  h_new (gates g) (root_lits p g) config = Ok h -> h_run k h (rs_new eqs bs next) = Ok (h', s, cs, n) ->
  respects (gone (gates g) (root_lits p g) config k) eqs bs a -> exists b, agree_below next b a /\ sat b cs /\ (forall l, In l (n_assume n) -> lit_holds b l).
Proof. exact (fun cfg p g config eqs bs next k h h' s cs n a WF AN SM DV NX => heur_complete cfg p g (root_lits p g) config eqs bs next WF AN (fun l H => root_range p g l WF H) SM DV NX k h h' s cs n a). Qed.
Print Assumptions C55_steps_complete.

(** Behind the last limit no assumption is left when all conjectures are about outputs of gates below the roots, so the loop of
    abstraction and refinement ends with the exact problem. *)
Theorem C55_last : forall cfg p g config eqs bs next k h h' s cs n, wf_problem (variables p) (problem p) -> analyze cfg p = Ok g -> (N.of_nat (variables p) < size_max)%N ->
  distinct_vars (concat eqs ++ bs) -> (forall l, In l (concat eqs ++ bs) -> lvar l < next) ->
  h_new (gates g) (root_lits p g) config = Ok h -> h_run k h (rs_new eqs bs next) = Ok (h', s, cs, n) ->
  length config <= k -> (forall l, In l (concat eqs ++ bs) -> reachable (fun _ => false) (gates g) (root_lits p g) (lvar l)) -> n_enabled n = 0.
Proof.
  exact (fun cfg p g config eqs bs next k h h' s cs n WF AN SM DV NX E1 E2 L H => heur_last cfg p g (root_lits p g) config eqs bs next WF AN (fun l H => root_range p g l WF H) SM DV NX k h h' s cs n E1 E2
    (fun l K => conj (H l K) (or_introl L))).
Qed.
Print Assumptions C55_last.

(** In step [k] the question whether a variable is removed is answered with yes exactly for the variables this step removes and no earlier step does. *)
Theorem C55_probe : forall cfg p g config h k v, wf_problem (variables p) (problem p) -> analyze cfg p = Ok g -> (N.of_nat (variables p) < size_max)%N ->
  h_new (gates g) (root_lits p g) config = Ok h ->
  exists b, h_probe v (Nat.iter (S k) h_begin h) = Ok b /\
    (b = true <-> gone (gates g) (root_lits p g) config k v /\ forall i, i < k -> ~ gone (gates g) (root_lits p g) config i v).
Proof. exact (fun cfg p g config h k v WF AN SM => heur_probe cfg p g (root_lits p g) config h k v WF AN (fun l H => root_range p g l WF H) SM). Qed.
Print Assumptions C55_probe.

(** Not so when a variable is in a class and a backbone: here the first step removes variable 0, but its class keeps it. *)
Theorem C55_shared_refuted : exists eqs bs next h h' s cs n a, conj_ok eqs bs next /\ h_new (gates hcase_g) [0] [3%N; 2%N] = Ok h /\
  h_run 0 h (rs_new eqs bs next) = Ok (h', s, cs, n) /\ respects (gone (gates hcase_g) [0] [3%N; 2%N] 0) eqs bs a /\
  ~ exists b, agree_below next b a /\ sat b cs /\ (forall l, In l (n_assume n) -> lit_holds b l).
Proof. exact shared_refuted. Qed.
Print Assumptions C55_shared_refuted.

(** The filter of the advice for branching: a variable that a heuristic removes loses all its literals, the others lose exactly the
    literals of such variables, and every literal keeps its budget. *)
Theorem C55_filter : forall hs m onlyBackbone v a, nth_error m v = Some a -> exists r, nth_error (filter_advice hs onlyBackbone 0 m) v = Some r /\ a_bb r = a_bb a /\
  (onlyBackbone = true -> a_bb a = false -> r = a) /\
  ((onlyBackbone = false \/ a_bb a = true) ->
    (any_probe hs v (a_bb a) = true -> a_lits r = []) /\
    (any_probe hs v (a_bb a) = false ->
      Permutation (a_lits r) (filter (fun l => negb (any_probe hs (lvar l) (a_bb a))) (a_lits a)) /\
      forall b, a_bud a = Some b -> length (a_lits a) <= length b -> exists b', a_bud r = Some b' /\
        Permutation (combine (a_lits r) b') (filter (fun e => negb (any_probe hs (lvar (fst e)) (a_bb a))) (combine (a_lits a) b)))).
Proof. exact filter_spec. Qed.
Print Assumptions C55_filter.

Example C55_case : wf_problem 7 hcase /\ analyze patterns_only (mkCnf hcase 7) = Ok hcase_g /\ root_lits (mkCnf hcase 7) hcase_g = [0] /\
  h_new (gates hcase_g) [0] [3%N; 2%N] = Ok hcase_h /\ distinct_vars (concat [[2; 4]] ++ [0]) /\
  depends_on_more (gates hcase_g) 2 2 /\ gone (gates hcase_g) [0] [3%N; 2%N] 1 2 /\ ~ gone (gates hcase_g) [0] [3%N; 2%N] 0 2 /\
  (exists h s cs n, h_run 0 hcase_h (rs_new [[2; 4]] [0] 7) = Ok (h, s, cs, n) /\ n_enabled n = 2) /\
  (exists h s cs n, h_run 1 hcase_h (rs_new [[2; 4]] [0] 7) = Ok (h, s, cs, n) /\ n_enabled n = 0).
Proof. exact hcase_ok. Qed.
Example C55_filter_case : filter_advice [fun v _ => (v =? 2)] false 0 [mkAdv [4; 6; 8; 5] false (Some [7; 8; 9; 10]%Z); mkAdv [6] true None; mkAdv [0] false None] =
  [mkAdv [8; 6] false (Some [9; 8; 9; 10]%Z); mkAdv [6] true None; mkAdv [] false None].
Proof. exact filter_case. Qed.
