(** C13 and C18: property theorems about the trail. *)
Require Import List Arith Bool Verif.Base Verif.Outcome Verif.TrailModel Verif.TrailSpec Verif.TrailLemmas.
Import ListNotations.

(** C13: no variable is on the trail twice. *)
Theorem C13_no_variable_twice : forall t, trail_reach t ->
  NoDup (map lvar (tr t)) /\ length (tr t) <= nvt t.
Proof. exact reach_nodup. Qed.
Print Assumptions C13_no_variable_twice.

(** C13: the values are exactly those of the literals on the trail. *)
Theorem C13_values : forall t, trail_reach t -> forall l,
  (value t l = Some true <-> In l (tr t)) /\
  (value t l = Some false <-> In (lneg l) (tr t)) /\
  (value t l = None <-> ~ In (lvar l) (map lvar (tr t))).
Proof. exact reach_values. Qed.
Print Assumptions C13_values.

(** C13: the level of an assigned variable is the number of decision levels opened at or before its
    position. *)
Theorem C13_levels : forall t, trail_reach t -> forall i l, nth_error (tr t) i = Some l ->
  level t (lvar l) = length (filter (fun start => start <=? i) (lim t)) /\ level t (lvar l) <= dlevel t.
Proof. exact reach_levels. Qed.
Print Assumptions C13_levels.

(** C13: backtracking to level k restores exactly the state in which level k+1 was opened: the
    literals on the trail, every value, every level and reason of an assigned variable, and the
    number of levels. *)
Theorem C13_backtrack_restores : forall t0 t2, trail_reach t0 ->
  within (dlevel t0) (newDecisionLevel t0) t2 ->
  let t3 := backtrack (dlevel t0) t2 in
  tr t3 = tr t0 /\ lim t3 = lim t0 /\ (forall l, value t3 l = value t0 l) /\
  (forall l, In l (tr t0) -> level t3 (lvar l) = level t0 (lvar l) /\ reason t3 (lvar l) = reason t0 (lvar l)).
Proof. exact reach_restore. Qed.
Print Assumptions C13_backtrack_restores.

(** C13: no legal operation leaves the bounds of the arrays. *)
Theorem C13_defined : forall t o, trail_reach t -> trail_legal o t -> exists t', trail_exec o t = Ok t'.
Proof. exact reach_defined. Qed.
Print Assumptions C13_defined.

(** the last hypothesis of a legal propagation is needed: propagating a literal that is true
    already puts it on the trail twice (Trail.h:258-269 only tests for false). *)
Theorem C13_propagate_true_twice_refuted : exists t l, trail_reach t /\ lvar l < nvt t /\ dlevel t = 0 /\
  exists t', trail_exec (OpPropagate l 0) t = Ok t' /\ ~ NoDup (map lvar (tr t')).
Proof. exact propagate_twice. Qed.
Print Assumptions C13_propagate_true_twice_refuted.

(** C18 *)
Theorem C18_lbd : forall t ls,
  computeLBD t ls = length (nodup Nat.eq_dec (map (fun l => level t (lvar l)) ls)).
Proof. exact computeLBD_spec. Qed.
Print Assumptions C18_lbd.

(** C18: computeLBD indexes a stamp of nVars entries with a level.  Levels can be as large as the
    number of opened levels, which (assumptions that are already true open a level too) exceeds the
    number of variables: the access is out of bounds for this legal history. *)
Theorem C18_stamp_index_refuted : exists t l, trail_reach t /\ In l (tr t) /\ nvt t < level t (lvar l).
Proof. exact lbd_out_of_bounds. Qed.
Print Assumptions C18_stamp_index_refuted.
(** C18: the index is within the bounds when every opened level holds a literal and the current one
    at least two, which is the situation of a conflict without repeated assumptions. *)
Theorem C18_stamp_index : forall t, trail_reach t ->
  (forall k, 0 < k <= dlevel t -> exists l, In l (tr t) /\ level t (lvar l) = k) ->
  (exists l m, In l (tr t) /\ In m (tr t) /\ l <> m /\ level t (lvar l) = dlevel t /\ level t (lvar m) = dlevel t) ->
  forall l, In l (tr t) -> level t (lvar l) < nvt t.
Proof. exact lbd_in_bounds. Qed.
Print Assumptions C18_stamp_index.

(** A concrete history: two variables at level 0, a decision, a propagation under it, a nested
    decision. *)
Definition ex_ops : list trail_op :=
  [OpInit 5; OpFact 0; OpNewLevel; OpDecide 3; OpPropagate 4 7; OpNewLevel; OpDecide 8].
Fixpoint run_ops (os : list trail_op) (t : trail_t) : out trail_t :=
  match os with [] => Ok t | o :: r => t1 <- trail_exec o t ;; run_ops r t1 end.
Example C13_example : exists t, run_ops ex_ops trail_new = Ok t /\ trail_reach t /\
  tr t = [0; 3; 4; 8] /\ dlevel t = 2 /\ tr (backtrack 1 t) = [0; 3; 4] /\
  computeLBD t [3; 4; 8; 0] = 3.
Proof.
  eexists. split; [vm_compute; reflexivity|]. split; [|vm_compute; auto].
  eapply tr_step with (o := OpDecide 8). eapply tr_step with (o := OpNewLevel).
  eapply tr_step with (o := OpPropagate 4 7). eapply tr_step with (o := OpDecide 3).
  eapply tr_step with (o := OpNewLevel). eapply tr_step with (o := OpFact 0).
  eapply tr_step with (o := OpInit 5). apply tr_new.
  all: try (vm_compute; reflexivity); vm_compute; repeat split; try discriminate; auto.
Qed.
Example C13_example_within : exists t0 t2, trail_reach t0 /\
  within (dlevel t0) (newDecisionLevel t0) t2 /\ tr t2 = [0; 2; 4] /\ tr t0 = [0].
Proof.
  eexists. eexists. split; [|split].
  - eapply tr_step with (o := OpFact 0). eapply tr_step with (o := OpInit 5). apply tr_new.
    all: try (vm_compute; reflexivity); vm_compute; repeat split; auto.
  - eapply w_step with (o := OpPropagate 4 1). eapply w_step with (o := OpDecide 2). apply w_refl.
    all: try (vm_compute; reflexivity); vm_compute; repeat split; try discriminate; auto.
  - vm_compute. auto.
Qed.
