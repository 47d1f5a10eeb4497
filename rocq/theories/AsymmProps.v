(** C29: asymmetric variable reduction (AsymmetricVariableReduction.h). *)
Require Import List Arith Bool NArith Lia.
Require Import Verif.Base Verif.Outcome Verif.TrailModel Verif.DbModel Verif.PropModel Verif.PropSpec Verif.AnalyzeSpec Verif.SimpModel Verif.SimpSpec
  Verif.AsymmSpec Verif.AsymmLemmas Verif.SimpProps.
Import ListNotations.

(** [d0], [w0], [t0] are the clauses, the watch lists and the trail (on decision level 0) before,
    [d], [w], [t] those after any number of rounds of subsumption and asymmetric variable
    reduction.  The watch lists may refer to clauses that were replaced in the meantime. *)
Theorem C29_reduction_defined : forall d0 w0 t0 d w t s, areach d0 w0 t0 None -> dlevel t0 = 0 -> no_deleted d0 -> empt d0 = false ->
  reduced d0 w0 t0 d w t s -> forall active, exists r, asymm_reduce active d w t s = Ok r.
Proof. exact asymm_defined. Qed.
Print Assumptions C29_reduction_defined.

Theorem C29_models : forall d0 w0 t0 d w t s, areach d0 w0 t0 None -> dlevel t0 = 0 -> no_deleted d0 -> empt d0 = false ->
  reduced d0 w0 t0 d w t s -> equiv (live_formula d0) (live_formula d).
Proof. exact asymm_models. Qed.
Print Assumptions C29_models.

Theorem C29_contradiction : forall d0 w0 t0 d w t s, areach d0 w0 t0 None -> dlevel t0 = 0 -> no_deleted d0 -> empt d0 = false ->
  reduced d0 w0 t0 d w t s -> forall active k d' w' t' s',
  asymm_reduce active d w t s = Ok (false, k, d', w', t', s') -> unsat (live_formula d0).
Proof. exact asymm_false. Qed.
Print Assumptions C29_contradiction.

(** a problem clause is only replaced by a subset of it that is itself never deleted *)
Theorem C29_problem_clauses_kept : forall d0 w0 t0 d w t s, areach d0 w0 t0 None -> dlevel t0 = 0 -> no_deleted d0 -> empt d0 = false ->
  reduced d0 w0 t0 d w t s -> forall c, In c (kept_formula d0) -> exists c', In c' (kept_formula d) /\ incl c' c.
Proof. exact asymm_kept. Qed.
Print Assumptions C29_problem_clauses_kept.

(** the trail is restored *)
Theorem C29_clauses_wellformed : forall d0 w0 t0 d w t s, areach d0 w0 t0 None -> dlevel t0 = 0 -> no_deleted d0 -> empt d0 = false ->
  reduced d0 w0 t0 d w t s ->
  nv d = nv d0 /\ empt d = false /\ tr t = tr t0 /\ forall c, In c (live_formula d) -> clause_ok (nv d0) c /\ c <> [].
Proof. exact asymm_new. Qed.
Print Assumptions C29_clauses_wellformed.

(** x0 | x1 | x2 with ~x3 and x3 | x1 | x2 | ~x0, ~x4 | x1, x4 | x2: one literal of the first clause
    is redundant *)
Definition as_problem : formula := [[0; 2; 4]; [7]; [6; 2; 4; 1]; [9; 2]; [8; 4]].
Definition as_d0 : db := Eval vm_compute in get db_new (db_init 5 as_problem true db_new).
Definition as_w0 := Eval vm_compute in prop_reset as_d0.
Definition as_t0 : trail_t := Eval vm_compute in snd (get (true, trail_new) (fact 7 (trail_init 5 trail_new))).
Example C29_case : areach as_d0 as_w0 as_t0 None /\ dlevel as_t0 = 0 /\ no_deleted as_d0 /\ empt as_d0 = false /\
  exists k d w t s, asymm_reduce true as_d0 as_w0 as_t0 (sdb_init as_d0) = Ok (true, k, d, w, t, s) /\ 0 < k /\
    reduced as_d0 as_w0 as_t0 d w t s /\ ~ In [0; 2; 4] (live_formula d) /\ In [2; 4] (kept_formula d).
Proof.
  split; [|split; [reflexivity|split; [|split; [reflexivity|]]]].
  - apply (ar_fact as_d0 as_w0 (trail_init 5 trail_new) 1 7 true); try reflexivity; [|vm_compute; auto].
    apply (ar_init 5 as_problem); [clauses_ok|vm_compute; reflexivity].
  - intros c Hc. vm_compute in Hc. intuition (subst; reflexivity).
  - eexists. eexists. eexists. eexists. eexists. split; [vm_compute; reflexivity|]. split; [lia|]. split.
    + eapply (rd_asymm as_d0 as_w0 as_t0 true); [apply rd_start|vm_compute; reflexivity].
    + vm_compute. intuition discriminate.
Qed.
