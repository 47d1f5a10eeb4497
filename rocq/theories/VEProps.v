(** C28: variable elimination (VariableElimination.h). *)
Require Import List Arith Bool NArith Lia.
Require Import Verif.Base Verif.Outcome Verif.TrailModel Verif.TrailSpec Verif.DbModel Verif.PropSpec Verif.SimpModel Verif.SimpSpec
  Verif.VESpec Verif.VELemmas Verif.SimpProps.
Import ListNotations.

(** [d0] are the clauses before, [d] those after any number of rounds of subsumption and variable
    elimination.  [lim] is the limit on the length of resolvents, [cand] the order of elimination,
    [t] the trail at the time of the elimination. *)

(** the elimination completes (with the default limit of 20, and all others below 2^16) *)
Theorem C28_elimination_defined : forall d0 d s e active lim cand t, dreach d0 -> empt d0 = false -> no_deleted d0 ->
  simplified d0 d s e -> nvt t = nv d0 -> 0 < lim -> (N.of_nat lim < 65536)%N ->
  exists r, eliminate active lim cand d s e t = Ok r.
Proof. exact elim_defined. Qed.
Print Assumptions C28_elimination_defined.

(** every model of the original is a model of the result *)
Theorem C28_models_kept : forall d0 d s e, dreach d0 -> empt d0 = false -> no_deleted d0 -> simplified d0 d s e ->
  forall a, sat a (live_formula d0) -> sat a (live_formula d).
Proof. exact elim_models. Qed.
Print Assumptions C28_models_kept.

(** the elimination reports a contradiction only if there is one *)
Theorem C28_contradiction : forall d0 d s e active lim cand t k d' s' e' t', dreach d0 -> empt d0 = false -> no_deleted d0 ->
  simplified d0 d s e -> nvt t = nv d0 ->
  eliminate active lim cand d s e t = Ok (false, k, d', s', e', t') -> unsat (live_formula d0).
Proof. exact elim_false. Qed.
Print Assumptions C28_contradiction.

(** every model of the result is extended by the reconstruction to a model of the original *)
Theorem C28_models_extend : forall d0 d s e t, dreach d0 -> empt d0 = false -> no_deleted d0 -> simplified d0 d s e ->
  trail_reach t -> nvt t = nv d0 -> assigns t (nv d0) (fun v => ~ eliminated e v) ->
  trail_satisfies t (live_formula d) ->
  exists t', propagate_eliminated e t = Ok t' /\ assigns t' (nv d0) (fun _ => True) /\
    (forall l b, value t l = Some b -> value t' l = Some b) /\ trail_satisfies t' (live_formula d0).
Proof. exact (elim_reconstruct false). Qed.
Print Assumptions C28_models_extend.

(** also if the search has deleted learnt clauses in the meantime *)
Theorem C28_models_extend_kept : forall d0 d s e t, dreach d0 -> empt d0 = false -> no_deleted d0 -> simplified d0 d s e ->
  trail_reach t -> nvt t = nv d0 -> assigns t (nv d0) (fun v => ~ eliminated e v) ->
  trail_satisfies t (kept_formula d) ->
  exists t', propagate_eliminated e t = Ok t' /\ assigns t' (nv d0) (fun _ => True) /\
    (forall l b, value t l = Some b -> value t' l = Some b) /\ trail_satisfies t' (kept_formula d0).
Proof. exact (elim_reconstruct true). Qed.
Print Assumptions C28_models_extend_kept.

(** eliminated variables occur in no clause of the result *)
Theorem C28_variables_gone : forall d0 d s e, dreach d0 -> empt d0 = false -> no_deleted d0 -> simplified d0 d s e ->
  forall c l, In c (live_formula d) -> In l c -> ~ eliminated e (lvar l).
Proof. exact elim_gone. Qed.
Print Assumptions C28_variables_gone.

(** assumption variables and assigned variables are not eliminated; eliminated variables are no
    longer decided on *)
Theorem C28_frozen : forall d0 d s e active lim cand t b k d' s' e' t', dreach d0 -> empt d0 = false -> no_deleted d0 ->
  simplified d0 d s e -> nvt t = nv d0 -> length (dec t) = nvt t ->
  eliminate active lim cand d s e t = Ok (b, k, d', s', e', t') ->
  (forall v, eliminated e v -> eliminated e' v) /\
  (forall v, eliminated e' v -> eliminated e v \/
     (v < nvt t /\ vvalue t v = None /\ ~ In v (map lvar (assum t)) /\ isDecisionVar v t' = false)) /\
  (forall v, vvalue t' v = vvalue t v).
Proof. exact elim_which. Qed.
Print Assumptions C28_frozen.

(** Seven clauses over six variables, assumptions x2 and x4, then also x1: three variables are
    eliminated in two rounds; a model of the resolvents is extended. *)
Definition ve_problem : formula := [[0; 2; 4]; [1; 6; 2]; [1; 5; 8]; [3; 9]; [7; 8; 4]; [10; 8; 3]; [11; 9; 7]].
Definition ve_d0 : db := Eval vm_compute in get db_new (db_init 6 ve_problem true db_new).
Definition ve_t : trail_t := Eval vm_compute in setAssumptions [8; 4] (trail_init 6 trail_new).
Definition ve_bad := (true, 0, db_new, mkS [] [], ve_new, trail_new).
Definition ve_s1 := Eval vm_compute in get ve_bad (eliminate true 3 [] ve_d0 (sdb_init ve_d0) ve_new ve_t).
Definition ve_d1 := Eval vm_compute in snd (fst (fst (fst ve_s1))).
Definition ve_sd1 := Eval vm_compute in snd (fst (fst ve_s1)).
Definition ve_e1 := Eval vm_compute in snd (fst ve_s1).
Definition ve_t2 : trail_t := Eval vm_compute in setAssumptions [2; 8; 4] (trail_init 6 trail_new).
Definition ve_s2 := Eval vm_compute in get ve_bad (eliminate true 20 [] ve_d1 (sdb_cleanup ve_sd1) ve_e1 ve_t2).
Definition ve_d2 := Eval vm_compute in snd (fst (fst (fst ve_s2))).
Definition ve_sd2 := Eval vm_compute in snd (fst (fst ve_s2)).
Definition ve_e2 := Eval vm_compute in snd (fst ve_s2).
Definition ve_m : trail_t := Eval vm_compute in
  get trail_new (t1 <- decide 2 (newDecisionLevel (trail_init 6 trail_new)) ;;
                 t2 <- decide 9 (newDecisionLevel t1) ;; decide 4 (newDecisionLevel t2)).
Example C28_case :
  dreach ve_d0 /\ empt ve_d0 = false /\ no_deleted ve_d0 /\ simplified ve_d0 ve_d2 ve_sd2 ve_e2 /\
  ev ve_e2 = [0; 5; 3] /\ live_formula ve_d2 = [[3; 9]; [8; 2; 4]] /\
  trail_reach ve_m /\ nvt ve_m = nv ve_d0 /\ assigns ve_m (nv ve_d0) (fun v => ~ eliminated ve_e2 v) /\
  trail_satisfies ve_m (live_formula ve_d2) /\
  exists t', propagate_eliminated ve_e2 ve_m = Ok t' /\ tr t' = [2; 9; 4; 6; 10; 1].
Proof.
  split; [apply (dr_load db_new 6 ve_problem); [constructor|clauses_ok|vm_compute; reflexivity]|].
  split; [reflexivity|]. split; [intros c Hc; vm_compute in Hc; intuition (subst; reflexivity)|].
  split.
  { apply (sm_eliminate _ true 20 [] ve_t2 ve_d1 (sdb_cleanup ve_sd1) ve_e1 1 _ _ _ (snd ve_s2)); [|reflexivity|vm_compute; reflexivity].
    apply sm_cleanup. apply (sm_eliminate _ true 3 [] ve_t ve_d0 (sdb_init ve_d0) ve_new 2 _ _ _ (snd ve_s1)); [constructor|reflexivity|vm_compute; reflexivity]. }
  split; [reflexivity|]. split; [vm_compute; reflexivity|]. split.
  { eapply tr_step with (o := OpDecide 4). eapply tr_step with (o := OpNewLevel). eapply tr_step with (o := OpDecide 9).
    eapply tr_step with (o := OpNewLevel). eapply tr_step with (o := OpDecide 2). eapply tr_step with (o := OpNewLevel).
    eapply tr_step with (o := OpInit 6). apply tr_new.
    all: try (vm_compute; reflexivity); vm_compute; repeat split; try discriminate; auto. }
  split; [reflexivity|]. split.
  { intros v Hv. unfold eliminated. vm_compute in Hv.
    do 6 (destruct v as [|v]; [vm_compute; split; intros; intuition (congruence || discriminate)|]). lia. }
  split; [|eexists; split; vm_compute; reflexivity].
  intros c Hc. vm_compute in Hc. destruct Hc as [<-|[<-|[]]].
  - exists 9. split; [simpl; auto|reflexivity].
  - exists 2. split; [simpl; auto|reflexivity].
Qed.
