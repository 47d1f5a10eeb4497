(** C24: property theorems about the branching heuristics. *)
Require Import List Arith Bool QArith.
Require Import Verif.Base Verif.CNFModel Verif.Outcome Verif.TrailModel Verif.TrailSpec Verif.HeapModel Verif.SolverModel Verif.BranchModel Verif.BranchSpec Verif.BranchProofs Verif.BranchMore Verif.BranchAdvice Verif.BranchCases.
Import ListNotations.
Local Open Scope nat_scope.

(** C24 for VSIDS (and VSIDSC, whose bump amounts differ): after every history, whatever the numbers
    are (they may be NaN), pickBranchLit terminates without an invalid access and returns a literal
    of an unassigned decision variable with its saved sign, or none and then every decision variable
    is assigned. *)
Theorem C24_vsids : forall A ext okamt d0 ph t b, vs_reach A ext okamt d0 ph t b -> ph <> Stale ->
  exists r b', vs_pick A t b = Ok (r, b') /\ good_pick t r /\
    forall p, r = Some p -> nth_error (vs_pol A b) (lvar p) = Some (lsign p).
Proof. exact vs_pick_good. Qed.
Print Assumptions C24_vsids.

(** C24 for LRB *)
Theorem C24_lrb : forall A ph t b, lr_reach A ph t b -> ph <> Stale ->
  exists r b', lr_pick A t b = Ok (r, b') /\ good_pick t r /\
    forall p, r = Some p -> nth_error (lr_pol A b) (lvar p) = Some (lsign p).
Proof. exact lr_pick_good. Qed.
Print Assumptions C24_lrb.

(** C24 for implicit learning (RSIL) in all its variants: the conjectures, the budgets and the random
    choices of the vanishing variant never make it miss an unassigned decision variable, nor pick
    another one. *)
Theorem C24_rsil : forall A ext okamt d0 ph t v maxSize budgets equivs backbones n m0 m ready bb g1 g2,
  vs_reach A ext okamt d0 ph t v -> ph <> Stale ->
  2 <= maxSize -> good_conjectures n equivs backbones -> n <= nvt t ->
  adv_init maxSize budgets equivs backbones n = Ok m0 -> adv_reach A m0 m ->
  exists r b', rs_pick A g1 g2 t (mkRSIL A v m ready bb) = Ok (r, b') /\ good_pick t r /\
    ((rs_vsids A b' = v /\ r <> None) \/
     exists r0, vs_pick A t v = Ok (r0, rs_vsids A b') /\ option_map lvar r = option_map lvar r0) /\
    rs_ready A b' = ready /\ rs_bb A b' = bb.
Proof. exact rs_pick_good_flags. Qed.
Print Assumptions C24_rsil.

(** building the advice table never leaves its bounds *)
Theorem C24_rsil_init : forall equivs backbones maxSize budgets size, 2 <= maxSize -> good_conjectures size equivs backbones ->
  exists m, adv_init maxSize budgets equivs backbones size = Ok m /\ length m = size.
Proof. intros e b k bu s H1 H2. destruct (adv_init_spec e b k bu s H1 H2) as (m & E & L & _). eauto. Qed.
Print Assumptions C24_rsil_init.

(** The advice does what RSIL is for: it picks a literal that contradicts a conjectured equivalence
    one of whose literals was assigned on the current decision level. *)
Theorem C24_rsil_advice : forall A maxSize budgets equivs backbones n m0 m t p m',
  2 <= maxSize -> good_conjectures n equivs backbones -> n <= nvt t ->
  adv_init maxSize budgets equivs backbones n = Ok m0 -> adv_reach A m0 m ->
  getAdvice t m = Ok (Some p, m') ->
  exists c l, In c equivs /\ In l (skipn (last (lim t) 0) (tr t)) /\ contradicts c l p.
Proof. exact getAdvice_contradicts. Qed.
Print Assumptions C24_rsil_advice.

(** ... and a decision on a conjectured backbone variable contradicts the backbone. *)
Theorem C24_rsil_backbone : forall A maxSize equivs backbones n m0 l, 2 <= maxSize -> good_conjectures n equivs backbones ->
  adv_init maxSize false equivs backbones n = Ok m0 -> In l backbones ->
  forall s m, adv_reach A m0 m -> fst (getSignAdvice true (mkLit (lvar l) s) m) = lneg l.
Proof. exact sign_backbone. Qed.
Print Assumptions C24_rsil_backbone.

(** The search of C01-C05 takes an arbitrary choice function for its decisions: every good pick is
    such a choice, so those theorems hold for the solver with these heuristics. *)
Theorem C24_solver_choice : forall t r, good_pick t r -> exists l, SolverModel.pick l t = r.
Proof. exact good_pick_pick. Qed.
Print Assumptions C24_solver_choice.

(** No call of the heuristics leaves the bounds of an array, with the obligations of the callers: the
    variables of the clauses are known, and the conflict level is above the backtrack level. *)
Theorem C24_vsids_defined : forall A ext okamt d0 ph t b, vs_reach A ext okamt d0 ph t b ->
  (exists b', vs_clear A b = Ok b') /\ (forall occ, exists b', vs_init A occ t b = Ok b') /\
  (nvt t <= length (vs_act A b) -> exists b', vs_reset A t b = Ok b') /\
  (ph <> Stale -> nvt t <= length (vs_act A b)) /\
  (ph <> Stale -> forall amount step involved bl, bl < dlevel t ->
     (forall c l, In c involved -> In l c -> lvar l < nvt t) ->
     exists b', vs_conflict A amount step false involved bl t b = Ok b').
Proof. exact vs_defined. Qed.
Print Assumptions C24_vsids_defined.

Theorem C24_lrb_defined : forall A ph t b, lr_reach A ph t b ->
  (exists b', lr_clear A b = Ok b') /\ (forall occ, exists b', lr_init A occ t b = Ok b') /\
  (nvt t <= length (lr_w A b) -> exists b', lr_reset A t b = Ok b') /\
  (ph <> Stale -> nvt t <= length (lr_w A b)) /\
  (ph <> Stale -> forall involved bl, bl < dlevel t ->
     (forall c l, In c involved -> In l c -> lvar l < nvt t) ->
     exists b', lr_conflict A involved bl t b = Ok b').
Proof. exact lr_defined. Qed.
Print Assumptions C24_lrb_defined.

(** VSIDS picks a variable of maximal activity, if the arithmetic respects the order. *)
Theorem C24_vsids_max : forall A pos dcy d0 ph t b p b', ordered A pos dcy -> dcy d0 ->
  vs_reach A false (okpos A pos) d0 ph t b -> ph <> Stale -> vs_pick A t b = Ok (Some p, b') ->
  forall v, v < nvt t -> isDecisionVar v t = true -> vvalue t v = None ->
  f_gt A (nth v (vs_act A b) (f_zero A)) (nth (lvar p) (vs_act A b) (f_zero A)) = false.
Proof. exact vs_pick_max. Qed.
Print Assumptions C24_vsids_max.

(** exact arithmetic with the formulas of the code does *)
Theorem C24_exact_arithmetic : ordered Qarith (fun i => 0 <= i)%Q (fun d => 0 < d)%Q.
Proof. exact Qarith_ordered. Qed.
Print Assumptions C24_exact_arithmetic.

(** LRB does not: it changes weights without telling the heap (LRB.h:145-155). *)
Theorem C24_lrb_max_refuted : exists t b p b', lr_reach Qarith Search t b /\ lr_pick Qarith t b = Ok (Some p, b') /\
  exists v, v < nvt t /\ isDecisionVar v t = true /\ vvalue t v = None /\
  (nth (lvar p) (lr_w Qarith b) 0 < nth v (lr_w Qarith b) 0)%Q.
Proof. exact lrb_order. Qed.
Print Assumptions C24_lrb_max_refuted.

(** Neither does VSIDS once an activity was set from outside (VSIDS.h:149-152; VSIDSC.h:500). *)
Theorem C24_activity_refuted : exists t b p b',
  vs_reach Qarith true (okpos Qarith (fun i => 0 <= i)%Q) (80 # 100) Full t b /\ vs_pick Qarith t b = Ok (Some p, b') /\
  exists v, v < nvt t /\ isDecisionVar v t = true /\ vvalue t v = None /\
  (nth (lvar p) (vs_act Qarith b) 0 < nth v (vs_act Qarith b) 0)%Q.
Proof. exact activity_order. Qed.
Print Assumptions C24_activity_refuted.

(** The option for the Glucose extra bump reads behind the end of trail_lim at every conflict. *)
Theorem C24_extra_bump_refuted : forall A amount step involved bl t b,
  exists e, vs_conflict A amount step true involved bl t b = Err e.
Proof. exact vs_extra. Qed.
Print Assumptions C24_extra_bump_refuted.

(** The hypothesis on the phase is needed: after backtracking behind its back, the heuristic can
    find nothing although a decision variable is unassigned. *)
Theorem C24_stale_refuted : exists t b b',
  vs_reach Qarith false (okpos Qarith (fun i => 0 <= i)%Q) (80 # 100) Stale t b /\
  vs_pick Qarith t b = Ok (None, b') /\ nvt t = 2 /\ isDecisionVar 0 t = true /\ vvalue t 0 = None.
Proof. exact stale_pick. Qed.
Print Assumptions C24_stale_refuted.

(** Non-vacuity *)
Example C24_vsids_case : exists t b,
  vs_reach Qarith false (okpos Qarith (fun i => 0 <= i)%Q) (80 # 100) Search t b /\
  (exists b', vs_pick Qarith t b = Ok (Some (mkLit 1 true), b')) /\ vvalue t 0 <> None /\ vvalue t 1 = None /\ vvalue t 3 = None.
Proof. exact vsids_case. Qed.
Example C24_vsids_none_case : exists t b,
  vs_reach Qarith false (okpos Qarith (fun i => 0 <= i)%Q) (80 # 100) Search t b /\
  (exists b', vs_pick Qarith t b = Ok (None, b')) /\ nvt t = 2.
Proof. exact vsids_none_case. Qed.
Example C24_lrb_case : exists t b, lr_reach Qarith Search t b /\ exists b', lr_pick Qarith t b = Ok (Some (mkLit 2 true), b').
Proof. exact lrb_case. Qed.
Example C24_rsil_case : good_conjectures 4 the_classes the_backbones /\
  exists t v m b', adv_init 3 false the_classes the_backbones 4 = Ok m /\
  vs_reach Qarith false (okpos Qarith (fun i => 0 <= i)%Q) (80 # 100) Search t v /\ nvt t = 4 /\
  In (mkLit 0 true) (tr t) /\ rs_pick Qarith true true t (mkRSIL Qarith v m true true) = Ok (Some (mkLit 3 true), b').
Proof. exact (conj the_conjectures_good rsil_case). Qed.
