(** C46: the static propagator (StaticPropagate.h) is sound and complete on every reachable state, keeps
    exactly one watcher per clause, and agrees with the propagator of Propagate.h. *)
Require Import List Arith Bool NArith Permutation Lia.
Require Import Verif.Base Verif.CNFModel Verif.Outcome Verif.TrailModel Verif.DbModel Verif.PropModel Verif.PropSpec
  Verif.StaticModel Verif.StaticSpec Verif.StaticMore.
Import ListNotations.

(** propagate() never runs into undefined behaviour and ends *)
Theorem C46_propagate_defined : forall d s t, sreach d s t None ->
  exists k s' t', spropagate d s t = Ok (k, s', t').
Proof. exact spropagate_defined. Qed.
Print Assumptions C46_propagate_defined.

(** every literal added to the trail has a reason in the database whose other literals are false *)
Theorem C46_propagate_reasons : forall d s t k s' t',
  sreach d s t None -> spropagate d s t = Ok (k, s', t') ->
  exists new, tr t' = tr t ++ new /\
    forall l, In l new -> exists c, reason t' (lvar l) = Some c /\ In c (cls d) /\ In l (clits d c) /\
      forall m, In m (clits d c) -> m <> l -> value t' m = Some false.
Proof. exact spropagate_new. Qed.
Print Assumptions C46_propagate_reasons.

Theorem C46_propagate_entailed : forall d s t k s' t',
  sreach d s t None -> spropagate d s t = Ok (k, s', t') ->
  forall l, In l (tr t') -> entails (db_formula d ++ units (tr t)) [l].
Proof. exact spropagate_entailed. Qed.
Print Assumptions C46_propagate_entailed.

Theorem C46_propagate_conflict : forall d s t c s' t',
  sreach d s t None -> spropagate d s t = Ok (Some c, s', t') ->
  In c (cls d) /\ (forall m, In m (clits d c) -> value t' m = Some false) /\
  unsat (db_formula d ++ units (tr t)).
Proof. exact spropagate_conflict. Qed.
Print Assumptions C46_propagate_conflict.

Theorem C46_propagate_complete : forall d s t s' t',
  sreach d s t None -> spropagate d s t = Ok (None, s', t') ->
  forall c, In c (cls d) -> 2 <= length (clits d c) ->
  (exists m, In m (clits d c) /\ value t' m = Some true) \/
  (exists m1 m2, In m1 (clits d c) /\ In m2 (clits d c) /\ m1 <> m2 /\
     value t' m1 = None /\ value t' m2 = None).
Proof. exact spropagate_complete. Qed.
Print Assumptions C46_propagate_complete.

(** a clause of three or more literals has one watcher, which is in exactly the lists of the negations of
    two of its literals *)
Theorem C46_watched : forall d s t k c, sreach d s t k -> In c (cls d) -> 3 <= length (clits d c) ->
  exists i x y, x <> y /\ In x (clits d c) /\ In y (clits d c) /\
    forall q, watches_of s c q = if (q =? lneg x) || (q =? lneg y) then [i] else [].
Proof. exact sreach_watched. Qed.
Print Assumptions C46_watched.

(** detachClause removes the watchers of the clause from all lists, and nothing else *)
Theorem C46_detach : forall d s t k c, sreach d s t k ->
  smem (sdetach d c s) = smem s /\
  forall q, nth q (slists (sdetach d c s)) [] =
    filter (fun i => negb (cref (wat (smem s) i) =? c)) (nth q (slists s) []).
Proof. exact sdetach_spec. Qed.
Print Assumptions C46_detach.

(** both propagators find a conflict in the same states, and the same assignment if there is none *)
Theorem C46_agree : forall d w s t k d' w' t1 ks s' t2, preach d w t None -> sreach d s t None ->
  propagate d w t = Ok (k, d', w', t1) -> spropagate d s t = Ok (ks, s', t2) ->
  (k = None <-> ks = None) /\ (k = None -> forall l, value t1 l = value t2 l).
Proof. exact propagators_agree. Qed.
Print Assumptions C46_agree.

(** Two decisions on [x0 | x1 | x2], [~x0 | x1], [~x1 | x2 | x3], [x0 | x3 | x4] *)
Ltac clauses_ok := repeat (apply Forall_cons || apply Forall_nil);
  (split; [repeat constructor; cbn; intuition discriminate | cbn; intros l Hl; intuition (subst; cbn; lia)]).
Definition sx_cnf : formula := [[0; 2; 4]; [1; 2]; [3; 4; 6]; [0; 6; 8]].
Definition sget {A} (x : A) (o : out A) : A := match o with Ok y => y | _ => x end.
Definition sx_d : db := Eval vm_compute in sget db_new (db_init 5 sx_cnf true db_new).
Definition sx_s : sprop := Eval vm_compute in sprop_reset sx_d.
Definition sx_t1 : trail_t := Eval vm_compute in sget trail_new (decide 7 (newDecisionLevel (trail_init 5 trail_new))).
Definition sx_s1 := Eval vm_compute in sget (None, sprop_clear, trail_new) (spropagate sx_d sx_s sx_t1).
Definition sx_s2 := snd (fst sx_s1).
Definition sx_t2 : trail_t := Eval vm_compute in sget trail_new (decide 5 (newDecisionLevel (snd sx_s1))).
Definition sx_s3 := Eval vm_compute in sget (None, sprop_clear, trail_new) (spropagate sx_d sx_s2 sx_t2).

Lemma sx_reach1 : sreach sx_d sx_s sx_t1 None.
Proof.
  eapply sr_decide with (l := 7) (t := newDecisionLevel (trail_init 5 trail_new)).
  - apply sr_level; [|reflexivity]. change sx_s with (sprop_reset sx_d). apply sr_init with (cs := sx_cnf).
    + clauses_ok.
    + vm_compute; reflexivity.
  - vm_compute; lia.
  - vm_compute; reflexivity.
  - vm_compute; reflexivity.
Qed.
Lemma sx_reach : sreach sx_d sx_s2 sx_t2 None.
Proof.
  eapply sr_decide with (l := 5) (t := newDecisionLevel (snd sx_s1)).
  - apply sr_level; [|reflexivity]. eapply sr_propagate with (s := sx_s) (t := sx_t1); [apply sx_reach1|vm_compute; reflexivity].
  - vm_compute; lia.
  - vm_compute; reflexivity.
  - vm_compute; reflexivity.
Qed.
Example C46_reachable : exists k s' t', sreach sx_d sx_s2 sx_t2 None /\ spropagate sx_d sx_s2 sx_t2 = Ok (k, s', t') /\
  tr sx_t2 = [7; 5] /\ tr t' = [7; 5; 3; 1] /\ k = Some 0 /\ sx_s2 <> sx_s.
Proof.
  exists (fst (fst sx_s3)), (snd (fst sx_s3)), (snd sx_s3).
  split; [apply sx_reach|]. split; [vm_compute; reflexivity|]. split; [reflexivity|]. split; [reflexivity|]. split; [reflexivity|].
  vm_compute. discriminate.
Qed.
(** the first propagation ends without conflict, with both propagators *)
Example C46_no_conflict : exists w d' w' t1 s' t2, preach sx_d w sx_t1 None /\ sreach sx_d sx_s sx_t1 None /\
  propagate sx_d w sx_t1 = Ok (None, d', w', t1) /\ spropagate sx_d sx_s sx_t1 = Ok (None, s', t2).
Proof.
  exists (prop_reset sx_d). do 5 eexists. split; [|split; [apply sx_reach1|split; vm_compute; reflexivity]].
  eapply pr_decide with (l := 7) (t := newDecisionLevel (trail_init 5 trail_new)).
  - apply pr_level; [|reflexivity]. apply pr_init with (cs := sx_cnf).
    + clauses_ok.
    + vm_compute; reflexivity.
  - vm_compute; lia.
  - vm_compute; reflexivity.
  - vm_compute; reflexivity.
Qed.
(** a clause with three literals is watched, and detached *)
Example C46_watched_case : In 2 (cls sx_d) /\ length (clits sx_d 2) = 3 /\ watches_of sx_s 2 (lneg 3) = [1] /\
  watches_of (sdetach sx_d 2 sx_s) 2 (lneg 3) = [].
Proof. vm_compute. auto 6. Qed.
