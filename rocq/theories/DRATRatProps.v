(** C50: proofs with RAT lemmas. *)
Require Import List Arith Lia NArith Verif.Base Verif.Outcome Verif.DbModel Verif.DRATModel Verif.DRATSpec Verif.CertSpec Verif.DRATRatSpec Verif.DRATRat
  Verif.DRATAcceptCases Verif.DRATRatCases.
Import ListNotations.

(** Full statement: for every problem and every valid DRAT proof of it that contains the empty clause, the checker answers that
    the proof is valid.  Proved: so it does when, besides the conditions of C50_accepts_valid_partial, the negation of the literal on which
    an added clause is RAT occurs in a present clause, and when the resolvents with the clauses that were deleted before
    are found by unit propagation as well.  Missing: other proofs; both conditions are needed, see below. *)
Theorem C50_accepts_rat_partial : forall n F ls Q,
  (forall c, In c F -> proper n c) -> (forall c, In (CAdd c) ls \/ In (CDel c) ls -> proper n c) ->
  (forall l, In [l] F -> ~ In [lneg l] F) ->
  strict_proof F F ls Q -> In (CAdd []) ls ->
  (forall l1 c l2, ls = l1 ++ CAdd c :: l2 -> 2 <= length c -> ~ In (CAdd []) l1 -> exists l, In l c /\ ~ In [lneg l] (F ++ lemmas l1)) ->
  check_proof n F ls = Ok true.
Proof. exact rat_accepted. Qed.
Print Assumptions C50_accepts_rat_partial.

(** a blocked clause with a new variable, which unit propagation does not find, and a deletion *)
Example C50_rat_case : (forall c, In c b_all -> proper 5 c) /\ (forall c, In (CAdd c) b_lines \/ In (CDel c) b_lines -> proper 5 c) /\
  (forall l, In [l] b_all -> ~ In [lneg l] b_all) /\ (exists Q, strict_proof b_all b_all b_lines Q) /\ In (CAdd []) b_lines /\
  (forall l1 c l2, b_lines = l1 ++ CAdd c :: l2 -> 2 <= length c -> ~ In (CAdd []) l1 -> exists l, In l c /\ ~ In [lneg l] (b_all ++ lemmas l1)) /\
  In (CAdd [6; 0]) b_lines /\ ~ rup b_all [6; 0].
Proof.
  split; [apply proper_all; vm_compute; reflexivity|]. split; [apply proper_lines; vm_compute; reflexivity|].
  split; [apply unitsb_ok; vm_compute; reflexivity|]. split; [exact b_strict|]. split; [cbn; tauto|].
  split; [intros l1 c l2 E Hc _; revert l1 c l2 E Hc; apply openb_ok; vm_compute; reflexivity|].
  split; [cbn; tauto|]. apply not_rup. vm_compute. reflexivity.
Qed.
Print Assumptions C50_rat_case.

(** ** C50 is false for a RAT lemma on a literal whose negation occurs nowhere *)
(** the lines after the first are a proof by themselves, which is accepted *)
Theorem C50_pure_refuted : exists n F ls Q, (forall c, In c F -> proper n c) /\ (forall c, In (CAdd c) ls \/ In (CDel c) ls -> proper n c) /\
  (forall l, In [l] F -> ~ In [lneg l] F) /\ drat_proof F ls Q /\ In (CAdd []) ls /\
  (forall l1 c l2, ls = l1 ++ CAdd c :: l2 -> 2 <= length c -> exists l, In l c /\ ~ In [lneg l] (F ++ lemmas l1)) /\
  check_proof n F (tl ls) = Ok true /\ check_proof n F ls = Ok false.
Proof.
  destruct p_drat as (Q & D). exists 5, p_all, b_lines, Q.
  split; [apply proper_all; vm_compute; reflexivity|]. split; [apply proper_lines; vm_compute; reflexivity|].
  split; [apply unitsb_ok; vm_compute; reflexivity|]. split; [exact D|]. split; [cbn; tauto|].
  split; [apply openb_ok; vm_compute; reflexivity|]. split; vm_compute; reflexivity.
Qed.
Print Assumptions C50_pure_refuted.

(** in particular, the checker rejects proofs by extended resolution: the three clauses say that the new variable 4 is the conjunction
    of the variables 0 and 1 *)
Theorem C50_extension_refuted : exists n F ls Q, (forall c, In c F -> proper n c) /\ (forall c, In (CAdd c) ls -> proper n c) /\ (forall c, ~ In (CDel c) ls) /\
  (forall l, ~ In [l] F) /\ drat_proof F ls Q /\ In (CAdd []) ls /\
  (exists r, ls = CAdd [mkLit 4 false; mkLit 0 true; mkLit 1 true] :: CAdd [mkLit 4 true; mkLit 0 false] :: CAdd [mkLit 4 true; mkLit 1 false] :: r /\
    check_proof n F r = Ok true) /\ (forall c, In c F -> forall l, In l c -> lvar l <> 4) /\
  check_proof n F ls = Ok false.
Proof.
  destruct e_drat as (Q & D). exists 6, e_all, e_lines, Q.
  split; [apply proper_all; vm_compute; reflexivity|]. split; [intros c Hc; apply (proper_lines 6 e_lines); [vm_compute; reflexivity|auto]|].
  split. { intros c H. cbn in H. repeat (destruct H as [H|H]; [discriminate H|]). destruct H. }
  split. { intros l. apply no_unit_by. cbn. reflexivity. }
  split; [exact D|]. split; [cbn; tauto|]. split; [eexists; split; [reflexivity|vm_compute; reflexivity]|].
  split; [|vm_compute; reflexivity]. intros c Hc l Hl E.
  assert (H : forallb (forallb (fun l => negb (lvar l =? 4))) e_all = true) by (vm_compute; reflexivity).
  rewrite forallb_forall in H. specialize (H c Hc). rewrite forallb_forall in H. specialize (H l Hl). rewrite E in H. discriminate.
Qed.
Print Assumptions C50_extension_refuted.

(** ** C50 is false for a RAT lemma after the deletion of a unit clause *)
(** the checker goes on with the deleted unit clause *)
Theorem C50_unit_deletion_refuted : exists n F l ls Q, (forall c, In c F -> proper n c) /\ (forall c, In (CAdd c) ls \/ In (CDel c) ls -> proper n c) /\
  (forall m, In [m] F -> ~ In [lneg m] F) /\ drat_proof F (CDel [l] :: ls) Q /\ In (CAdd []) ls /\
  (forall l1 c l2, ls = l1 ++ CAdd c :: l2 -> 2 <= length c -> exists m, In m c /\ ~ In [lneg m] (F ++ lemmas l1)) /\
  check_proof n (filter (fun c => if list_eq_dec Nat.eq_dec c [l] then false else true) F) ls = Ok true /\ check_proof n F (CDel [l] :: ls) = Ok false.
Proof.
  destruct u_drat as (Q & D). exists 5, u_all, 7, b_lines, Q.
  split; [apply proper_all; vm_compute; reflexivity|]. split; [apply proper_lines; vm_compute; reflexivity|].
  split; [apply unitsb_ok; vm_compute; reflexivity|]. split; [exact D|]. split; [cbn; tauto|].
  split; [apply openb_ok; vm_compute; reflexivity|]. split; vm_compute; reflexivity.
Qed.
Print Assumptions C50_unit_deletion_refuted.

(** ** C50 is false when a clause is deleted for the second time *)
(** the checker deletes the clause that is deleted already and keeps the other; there are no unit clauses in the problem and none is deleted *)
Theorem C50_second_deletion_refuted : exists n F c ls Q, (forall c, In c F -> proper n c) /\ (forall c, In (CAdd c) ls -> proper n c) /\ (forall e, ~ In (CDel e) ls) /\
  (forall l, ~ In [l] F) /\ length c = 2 /\ drat_proof F (CDel c :: CAdd c :: CDel c :: ls) Q /\ In (CAdd []) ls /\
  (forall l1 e l2, CAdd c :: ls = l1 ++ CAdd e :: l2 -> 2 <= length e -> exists m, In m e /\ ~ In [lneg m] (F ++ lemmas l1)) /\
  check_proof n F (CDel c :: ls) = Ok true /\ check_proof n F (CDel c :: CAdd c :: CDel c :: ls) = Ok false.
Proof.
  destruct t_drat as (Q & D). exists 6, t_all, [9; 2], (skipn 3 t_lines), Q.
  split; [apply proper_all; vm_compute; reflexivity|]. split; [intros c Hc; apply (proper_lines 6 t_lines); [vm_compute; reflexivity|left; cbn in Hc; cbn; tauto]|].
  split. { intros c H. cbn in H. repeat (destruct H as [H|H]; [discriminate H|]). destruct H. }
  split. { intros l. apply no_unit_by. cbn. reflexivity. }
  split; [reflexivity|]. split; [exact D|]. split; [cbn; tauto|].
  split; [apply openb_ok; vm_compute; reflexivity|]. split; vm_compute; reflexivity.
Qed.
Print Assumptions C50_second_deletion_refuted.
