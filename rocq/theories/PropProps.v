(** C14 and C15: unit propagation (Propagate.h) is sound and complete on every reachable state. *)
Require Import List Arith Bool NArith Permutation Lia.
Require Import Verif.Base Verif.CNFModel Verif.Outcome Verif.TrailModel Verif.DbModel Verif.PropModel Verif.PropSpec Verif.PropLemmas.
Import ListNotations.

(** propagate() never runs into undefined behaviour and ends *)
Theorem C14_propagate_defined : forall d w t, preach d w t None ->
  exists k d' w' t', propagate d w t = Ok (k, d', w', t').
Proof. exact propagate_defined. Qed.
Print Assumptions C14_propagate_defined.

(** the clause vector keeps its clauses up to the order of literals, and every literal added to the
    trail has a reason in the database whose other literals are false *)
Theorem C14_propagate_reasons : forall d w t k d' w' t',
  preach d w t None -> propagate d w t = Ok (k, d', w', t') ->
  cls d' = cls d /\ (forall c, Permutation (clits d c) (clits d' c)) /\
  exists new, tr t' = tr t ++ new /\
    forall l, In l new -> exists c, reason t' (lvar l) = Some c /\ In c (cls d') /\ In l (clits d' c) /\
      forall m, In m (clits d' c) -> m <> l -> value t' m = Some false.
Proof. exact propagate_new. Qed.
Print Assumptions C14_propagate_reasons.

Theorem C14_propagate_entailed : forall d w t k d' w' t',
  preach d w t None -> propagate d w t = Ok (k, d', w', t') ->
  forall l, In l (tr t') -> entails (db_formula d ++ units (tr t)) [l].
Proof. exact propagate_entailed. Qed.
Print Assumptions C14_propagate_entailed.

Theorem C14_propagate_conflict : forall d w t c d' w' t',
  preach d w t None -> propagate d w t = Ok (Some c, d', w', t') ->
  In c (cls d') /\ (forall m, In m (clits d' c) -> value t' m = Some false) /\
  unsat (db_formula d ++ units (tr t)).
Proof. exact propagate_conflict. Qed.
Print Assumptions C14_propagate_conflict.

(** unit clauses do not take part in propagation: they are asserted as facts on level 0 *)
Theorem C15_propagate_complete : forall d w t d' w' t',
  preach d w t None -> propagate d w t = Ok (None, d', w', t') ->
  forall c, In c (cls d') -> 2 <= length (clits d' c) ->
  (exists m, In m (clits d' c) /\ value t' m = Some true) \/
  (exists m1 m2, In m1 (clits d' c) /\ In m2 (clits d' c) /\ m1 <> m2 /\
     value t' m1 = None /\ value t' m2 = None).
Proof. exact propagate_complete. Qed.
Print Assumptions C15_propagate_complete.

(** Two decisions on [x0 | x1 | x2], [~x0 | x1], [~x1 | x2 | x3], [x0 | x3 | x4]: the first one
    propagates nothing, the second one a chain of literals through binary and long clauses. *)
Ltac clauses_ok := repeat (apply Forall_cons || apply Forall_nil);
  (split; [repeat constructor; cbn; intuition discriminate | cbn; intros l Hl; intuition (subst; cbn; lia)]).
Definition ex_cnf : formula := [[0; 2; 4]; [1; 2]; [3; 4; 6]; [0; 6; 8]].
Definition get {A} (x : A) (o : out A) : A := match o with Ok y => y | _ => x end.
Definition ex_d : db := Eval vm_compute in get db_new (db_init 5 ex_cnf true db_new).
Definition ex_w : watches := Eval vm_compute in prop_reset ex_d.
Definition ex_t1 : trail_t := Eval vm_compute in get trail_new (decide 7 (newDecisionLevel (trail_init 5 trail_new))).
Definition ex_s1 := Eval vm_compute in get (None, db_new, [], trail_new) (propagate ex_d ex_w ex_t1).
Definition ex_d2 := snd (fst (fst ex_s1)).
Definition ex_w2 := snd (fst ex_s1).
Definition ex_t2 : trail_t := Eval vm_compute in get trail_new (decide 5 (newDecisionLevel (snd ex_s1))).
Definition ex_s3 := Eval vm_compute in get (None, db_new, [], trail_new) (propagate ex_d2 ex_w2 ex_t2).

Lemma ex_reach : preach ex_d2 ex_w2 ex_t2 None.
Proof.
  eapply pr_decide with (l := 5) (t := newDecisionLevel (snd ex_s1)).
  - apply pr_level; [|reflexivity]. eapply pr_propagate with (d := ex_d) (w := ex_w) (t := ex_t1).
    + eapply pr_decide with (l := 7) (t := newDecisionLevel (trail_init 5 trail_new)).
      * apply pr_level; [|reflexivity]. change ex_w with (prop_reset ex_d). apply pr_init with (cs := ex_cnf).
        -- clauses_ok.
        -- vm_compute; reflexivity.
      * vm_compute; lia.
      * vm_compute; reflexivity.
      * vm_compute; reflexivity.
    + vm_compute; reflexivity.
  - vm_compute; lia.
  - vm_compute; reflexivity.
  - vm_compute; reflexivity.
Qed.
Example C14_C15_reachable : exists k d' w' t', preach ex_d2 ex_w2 ex_t2 None /\ propagate ex_d2 ex_w2 ex_t2 = Ok (k, d', w', t') /\ tr ex_t2 = [7; 5] /\ tr t' = [7; 5; 3; 1] /\ k = Some 0.
Proof.
  exists (fst (fst (fst ex_s3))), (snd (fst (fst ex_s3))), (snd (fst ex_s3)), (snd ex_s3).
  split; [apply ex_reach|]. split; [vm_compute; reflexivity|]. vm_compute. auto.
Qed.
(** ... and the first propagation ended without conflict *)
Example C15_no_conflict : exists d' w' t', preach ex_d ex_w ex_t1 None /\ propagate ex_d ex_w ex_t1 = Ok (None, d', w', t').
Proof.
  exists ex_d2, ex_w2, (snd ex_s1). split; [|vm_compute; reflexivity].
  eapply pr_decide with (l := 7) (t := newDecisionLevel (trail_init 5 trail_new)).
  - apply pr_level; [|reflexivity]. change ex_w with (prop_reset ex_d). apply pr_init with (cs := ex_cnf).
    + clauses_ok.
    + vm_compute; reflexivity.
  - vm_compute; lia.
  - vm_compute; reflexivity.
  - vm_compute; reflexivity.
Qed.
