(** C25: ReduceDB::reduce (ReduceDB.h). *)
Require Import List Arith Bool NArith Lia.
Require Import Verif.Base Verif.Outcome Verif.TrailModel Verif.DbModel Verif.PropSpec Verif.SimpModel Verif.SimpSpec Verif.SimpProps
  Verif.ReduceModel Verif.ReduceSpec Verif.ReduceProofs.
Import ListNotations.

Theorem C25_removed_clauses : forall persist median cand d b d' c, dreach d -> reduce persist median cand d = (b, d') ->
  In c (removed d d') -> isLearnt d c = true /\ (persist < cwt d c)%N /\ 2 < length (clits d c).
Proof. intros persist median cand d b d' c HR E H. apply (red_removed persist median cand d HR). rewrite E. exact H. Qed.
Print Assumptions C25_removed_clauses.

Theorem C25_other_clauses : forall persist median cand d b d', dreach d -> reduce persist median cand d = (b, d') ->
  cls d' = cls d /\ nv d' = nv d /\ empt d' = empt d /\
  forall c, ~ In c (removed d d') -> clits d' c = clits d c /\ cwt d' c = cwt d c.
Proof.
  intros persist median cand d b d' HR E. destruct (red_fields persist median cand d) as (A & B & D). assert (K := red_kept persist median cand d HR).
  rewrite E in *. auto.
Qed.
Print Assumptions C25_other_clauses.

(** at most half, rounded up; the candidates with the lowest LBD stay *)
Theorem C25_at_most_half_rounded : forall persist median cand d b d', dreach d -> reduce persist median cand d = (b, d') ->
  2 * length (removed d d') <= length (over_limit persist d) + 1.
Proof. intros persist median cand d b d' HR E. assert (H := red_count persist median cand d HR). rewrite E in H. exact H. Qed.
Print Assumptions C25_at_most_half_rounded.

Theorem C25_worst_first : forall persist median cand d b d' c k, dreach d -> reduce persist median cand d = (b, d') ->
  In c (removed d d') -> In k (over_limit persist d) -> ~ In k (removed d d') -> (cwt d k <= cwt d c)%N.
Proof. intros persist median cand d b d' c k HR E. assert (H := red_order persist median cand d HR c k). rewrite E in H. exact H. Qed.
Print Assumptions C25_worst_first.

(** with the option to keep the median, half of the candidates have a smaller LBD than a removed one *)
Theorem C25_median : forall persist cand d b d' c, dreach d -> reduce persist true cand d = (b, d') -> In c (removed d d') ->
  length (over_limit persist d) <= 2 * length (filter (fun x => cwt d x <? cwt d c)%N (over_limit persist d)).
Proof. intros persist cand d b d' c HR E. assert (H := red_median persist true cand d HR c eq_refl). rewrite E in H. exact H. Qed.
Print Assumptions C25_median.

(** the solver reduces right after resetting the trail (SolverModel.solve_iter): no clause is locked *)
Theorem C25_nothing_locked : forall d t c, ~ locked d (trail_reset t) c.
Proof. exact reset_unlocked. Qed.
Print Assumptions C25_nothing_locked.

Definition rd_d0 : db := Eval vm_compute in get db_new (db_init 5 [[0; 2; 4]; [1; 3]] true db_new).
Definition rd_d1 : db := Eval vm_compute in snd (get (0, db_new) (createClause [0; 3; 6] 7 false rd_d0)).
Definition rd_d2 : db := Eval vm_compute in snd (get (0, db_new) (createClause [1; 3; 8; 6] 5 false rd_d1)).
Definition rd_d3 : db := Eval vm_compute in snd (get (0, db_new) (createClause [1; 3; 8; 5] 9 false rd_d2)).
Definition rd_d : db := Eval vm_compute in snd (get (0, db_new) (createClause [0; 3; 9; 5] 2 false rd_d3)).
Lemma rd_reach : dreach rd_d.
Proof.
  assert (H0 : dreach rd_d0) by (apply (dr_load db_new 5 [[0; 2; 4]; [1; 3]]); [apply dr_new|clauses_ok|vm_compute; reflexivity]).
  assert (H1 : dreach rd_d1) by (apply (dr_create rd_d0 [0; 3; 6] 7 2); auto; try (vm_compute; reflexivity); cbn [rd_d0 nv]; clauses_ok).
  assert (H2 : dreach rd_d2) by (apply (dr_create rd_d1 [1; 3; 8; 6] 5 3); auto; try (vm_compute; reflexivity); cbn [rd_d1 nv]; clauses_ok).
  assert (H3 : dreach rd_d3) by (apply (dr_create rd_d2 [1; 3; 8; 5] 9 4); auto; try (vm_compute; reflexivity); cbn [rd_d2 nv]; clauses_ok).
  apply (dr_create rd_d3 [0; 3; 9; 5] 2 5); auto; try (vm_compute; reflexivity); cbn [rd_d3 nv]; clauses_ok.
Qed.
Example C25_case : dreach rd_d /\ exists d', reduce 3 false [] rd_d = (true, d') /\ removed rd_d d' = [2; 4] /\ over_limit 3 rd_d = [2; 3; 4].
Proof. split; [exact rd_reach|]. eexists. split; [reflexivity|]. split; vm_compute; reflexivity. Qed.
Example C25_median_case : exists d', reduce 3 true [] rd_d = (true, d') /\ removed rd_d d' = [4].
Proof. eexists. split; [reflexivity|]. vm_compute. reflexivity. Qed.

(** an odd number of candidates: more than half of them are removed *)
Theorem C25_at_most_half_refuted : exists persist median cand d b d', dreach d /\ reduce persist median cand d = (b, d') /\
  length (over_limit persist d) < 2 * length (removed d d').
Proof. exists 3%N, false, [], rd_d. eexists. eexists. split; [exact rd_reach|]. split; [reflexivity|]. vm_compute. lia. Qed.
Print Assumptions C25_at_most_half_refuted.
