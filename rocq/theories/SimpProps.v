(** C26 and C27: the subsumption test (SubsumptionClause.h) and subsumption (Subsumption.h). *)
Require Import List Arith Bool NArith Lia.
Require Import Verif.Base Verif.CNFModel Verif.Outcome Verif.TrailModel Verif.DbModel Verif.PropSpec Verif.SimpModel Verif.SubsProofs
  Verif.SimpSpec Verif.SimpLemmas.
Import ListNotations.

(** ** C26 *)
Theorem C26_subsumed : forall c d, NoDup (map lvar c) -> NoDup (map lvar d) ->
  (subsumes c d = SUndef <-> incl c d).
Proof. exact subsumes_undef. Qed.
Print Assumptions C26_subsumed.

Theorem C26_strengthens : forall c d l, NoDup (map lvar c) -> NoDup (map lvar d) ->
  (subsumes c d = SLit l <-> subset_but l c d).
Proof.
  intros c d l Hc Hd. rewrite subsumes_lit by auto. split; [apply flipped_subset_but|apply subset_but_flipped].
Qed.
Print Assumptions C26_strengthens.

Theorem C26_unrelated : forall c d, NoDup (map lvar c) -> NoDup (map lvar d) ->
  (subsumes c d = SError <-> ~ incl c d /\ forall l, ~ subset_but l c d).
Proof.
  intros c d Hc Hd. rewrite subsumes_error by auto. split; intros [H1 H2]; (split; [exact H1|]); intros l Hl.
  - apply (H2 l). apply subset_but_flipped; auto.
  - apply (H2 l). apply flipped_subset_but; auto.
Qed.
Print Assumptions C26_unrelated.

(** replacing the clause by the reported resolvent keeps the models *)
Theorem C26_resolvent : forall a c d l, NoDup (map lvar c) -> NoDup (map lvar d) ->
  subsumes c d = SLit l -> sat_clause a c -> sat_clause a d ->
  sat_clause a (filter (fun x => negb (x =? lneg l)) d).
Proof. intros a c d l Hc Hd E. apply flipped_resolve; auto. apply subsumes_lit; auto. Qed.
Print Assumptions C26_resolvent.

(** The statement needs clauses without complementary literals: x0 | x1 is a subset of
    ~x0 | x0 | x1, the test reports that x0 has to be replaced. *)
Theorem C26_tautology_refuted : exists c d, NoDup c /\ NoDup d /\ incl c d /\ subsumes c d <> SUndef.
Proof.
  exists [0; 2], [1; 0; 2]. split; [repeat constructor; simpl; intuition discriminate|].
  split; [repeat constructor; simpl; intuition discriminate|]. split.
  - intros x. simpl. tauto.
  - vm_compute. discriminate.
Qed.
Print Assumptions C26_tautology_refuted.

Example C26_cases :
  NoDup (map lvar [0; 5; 130]) /\ NoDup (map lvar [4; 8; 0; 130]) /\
  subsumes [0; 4; 130] [4; 8; 0; 130] = SUndef /\
  subsumes [0; 5; 130] [4; 8; 0; 130] = SLit 5 /\
  subsumes [0; 5; 131] [4; 8; 0; 130] = SError /\
  subsumes [0; 6; 130] [4; 8; 0; 130] = SError.
Proof. repeat split; try (repeat constructor; simpl; intuition discriminate). Qed.

(** ** C27 *)
(** [is] are the wrapped clauses in the order they are visited; the code visits them in the order
    of creation ([subsume_all]).  [ptr] is the order of the clauses in memory. *)
Theorem C27_subsumption_defined : forall ptr d is, dreach d -> empt d = false ->
  exists b d' s' cnt, subsume_list ptr is d (sdb_init d) cnt0 = Ok (b, d', s', cnt).
Proof. exact subsume_defined. Qed.
Print Assumptions C27_subsumption_defined.

Theorem C27_subsumption_models : forall ptr d is b d' s' cnt, dreach d -> empt d = false -> no_deleted d ->
  subsume_list ptr is d (sdb_init d) cnt0 = Ok (b, d', s', cnt) ->
  equiv (live_formula d) (live_formula d') /\ (b = false -> unsat (live_formula d)).
Proof. exact subsume_models. Qed.
Print Assumptions C27_subsumption_models.

(** a problem clause is only replaced by a subset of it that is itself never deleted *)
Theorem C27_problem_clauses_kept : forall ptr d is b d' s' cnt, dreach d -> empt d = false -> no_deleted d ->
  subsume_list ptr is d (sdb_init d) cnt0 = Ok (b, d', s', cnt) ->
  forall c, In c (kept_formula d) -> exists c', In c' (kept_formula d') /\ incl c' c.
Proof. exact subsume_kept. Qed.
Print Assumptions C27_problem_clauses_kept.

Theorem C27_clauses_wellformed : forall ptr d is b d' s' cnt, dreach d -> empt d = false -> no_deleted d ->
  subsume_list ptr is d (sdb_init d) cnt0 = Ok (b, d', s', cnt) ->
  nv d' = nv d /\ forall c, In c (live_formula d') -> clause_ok (nv d) c /\ c <> [].
Proof. exact subsume_new. Qed.
Print Assumptions C27_clauses_wellformed.

(** x0 | x1 | x2 | x3 is strengthened by the learnt clause ~x0 | x1 | x2 | x3 and the result, with
    LBD 2, subsumes the problem clause x1 | x2 | x3 | x4: it is created again as a problem clause. *)
Ltac clauses_ok := repeat (apply Forall_cons || apply Forall_nil);
  (split; [repeat constructor; cbn; intuition discriminate | cbn; intros l Hl; intuition (subst; cbn; lia)]).
Definition get {A} (x : A) (o : out A) : A := match o with Ok y => y | _ => x end.
Definition ex_problem : formula := [[2; 4; 6; 8]; [8; 11]; [10; 9; 7]; [11; 4; 2]].
Definition ex_d0 : db := Eval vm_compute in get db_new (db_init 6 ex_problem true db_new).
Definition ex_d1 : db := Eval vm_compute in snd (get (0, db_new) (createClause [1; 2; 4; 6] 3 false ex_d0)).
Definition ex_d : db := Eval vm_compute in snd (get (0, db_new) (createClause [0; 2; 4; 6] 3 false ex_d1)).
Lemma ex_reach : dreach ex_d.
Proof.
  apply (dr_create ex_d1 [0; 2; 4; 6] 3 5); [|split; [repeat constructor; cbn; intuition discriminate|cbn; intros l Hl; intuition (subst; cbn; lia)]|vm_compute; reflexivity].
  apply (dr_create ex_d0 [1; 2; 4; 6] 3 4); [|split; [repeat constructor; cbn; intuition discriminate|cbn; intros l Hl; intuition (subst; cbn; lia)]|vm_compute; reflexivity].
  apply (dr_load db_new 6 ex_problem); [constructor|clauses_ok|vm_compute; reflexivity].
Qed.
Definition ex_run := Eval vm_compute in subsume_all (fun _ c c' => c <? c') ex_d (sdb_init ex_d).
Example C27_reachable : dreach ex_d /\ empt ex_d = false /\ no_deleted ex_d /\
  exists d' s' cnt, subsume_all (fun _ c c' => c <? c') ex_d (sdb_init ex_d) = Ok (true, d', s', cnt) /\
    In [2; 4; 6] (kept_formula d') /\ ~ In [2; 4; 6; 8] (live_formula d') /\
    length (live_formula ex_d) = 6 /\ length (live_formula d') = 4.
Proof.
  split; [exact ex_reach|]. split; [reflexivity|]. split.
  - intros c Hc. vm_compute in Hc. intuition (subst; reflexivity).
  - eexists. eexists. eexists. split; [vm_compute; reflexivity|]. vm_compute. intuition discriminate.
Qed.

(** Without the hypothesis that deleted clauses have left the clause vector the statement is false:
    a deleted duplicate of the unit clause x0 removes the live one, which is lost. *)
Definition bad_d0 : db := Eval vm_compute in get db_new (db_init 2 [[0]; [0]; [0; 2]] true db_new).
Definition bad_d : db := Eval vm_compute in removeClause 0 bad_d0.
Theorem C27_deleted_clauses_refuted : exists ptr d d' s' cnt, dreach d /\ empt d = false /\
  subsume_all ptr d (sdb_init d) = Ok (true, d', s', cnt) /\
  ~ equiv (live_formula d) (live_formula d').
Proof.
  exists (fun _ c c' => c <? c'), bad_d. eexists. eexists. eexists. split; [|split; [reflexivity|split; [vm_compute; reflexivity|]]].
  - apply (dr_remove bad_d0 0). apply (dr_load db_new 2 [[0]; [0]; [0; 2]]); [constructor|clauses_ok|vm_compute; reflexivity].
  - intros H. specialize (H (fun _ => false)). vm_compute in H. destruct H as [_ H].
    assert (S : sat_clause (fun _ => false) [0]) by (apply H; [intros c []|auto]).
    destruct S as (l & [<-|[]] & E). vm_compute in E. discriminate.
Qed.
Print Assumptions C27_deleted_clauses_refuted.
