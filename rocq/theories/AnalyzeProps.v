(** C16 and C17: clauses learnt by conflict analysis (ConflictAnalysis.h) are implied by the clause
    database and asserting, on every state of the search loop; C19 for analyzeFinal. *)
Require Import List Arith Bool NArith Lia.
Require Import Verif.Base Verif.CNFModel Verif.Outcome Verif.TrailModel Verif.DbModel Verif.PropModel Verif.PropSpec
  Verif.AnalyzeModel Verif.AnalyzeSpec Verif.AnalyzeLemmas Verif.PropProps.
Import ListNotations.

(** handle_conflict never runs into undefined behaviour and ends *)
Theorem C16_handle_conflict_defined : forall d w t c, areach d w t (Some c) -> 0 < dlevel t ->
  exists an d', handle_conflict d t c = Ok (an, d').
Proof. exact conflict_defined. Qed.
Print Assumptions C16_handle_conflict_defined.

Theorem C16_learnt_entailed : forall d w t c an d', areach d w t (Some c) -> 0 < dlevel t ->
  handle_conflict d t c = Ok (an, d') -> entails (db_formula d) (an_learnt an).
Proof. exact learnt_entailed. Qed.
Print Assumptions C16_learnt_entailed.

Theorem C17_learnt_asserting : forall d w t c an d', areach d w t (Some c) -> 0 < dlevel t ->
  handle_conflict d t c = Ok (an, d') ->
  exists x r, an_learnt an = x :: r /\ clause_ok (nvt t) (x :: r) /\
    (forall m, In m (x :: r) -> value t m = Some false) /\
    level t (lvar x) = dlevel t /\ (forall m, In m r -> 0 < level t (lvar m) < dlevel t) /\
    an_level an < dlevel t /\
    (r = [] -> an_level an = 0) /\ (forall y r', r = y :: r' -> level t (lvar y) = an_level an) /\
    value (backtrack (an_level an) t) x = None /\
    (forall m, In m r -> value (backtrack (an_level an) t) m = Some false).
Proof. exact learnt_asserting. Qed.
Print Assumptions C17_learnt_asserting.

(** the search loop can always store and assert the learnt clause *)
Theorem C17_learn_step : forall d w t c an d1 c' d', areach d w t (Some c) -> 0 < dlevel t ->
  handle_conflict d t c = Ok (an, d1) ->
  createClause (an_learnt an) (N.of_nat (an_lbd an)) false d1 = Ok (c', d') ->
  exists t', tpropagate (hd 0 (an_learnt an)) c' (backtrack (an_level an) t) = Ok (true, t').
Proof. exact learn_step. Qed.
Print Assumptions C17_learn_step.

(** the final analysis of an implied literal p: the result is a clause that follows from the
    database and consists of p and of negated decisions *)
Theorem C19_final_clause : forall d w t p, areach d w t None -> value t p = Some true ->
  entails (db_formula d) (analyzeFinal d t p) /\
  exists new, analyzeFinal d t p = p :: new /\
    forall l, In l new -> value t l = Some false /\ reason t (lvar l) = None /\ 0 < level t (lvar l).
Proof. exact final_core. Qed.
Print Assumptions C19_final_clause.

(** x0 -> x1, x0 & x1 -> x2 on level 1; x3 -> x4, then a conflict below x2 and x4 on level 2.  The
    first analysis yields [~x4, ~x0, ~x2]; minimisation removes ~x2. *)
Definition ea_cnf : formula := [[1; 2]; [1; 3; 4]; [7; 8]; [5; 9; 10]; [9; 5; 12]; [11; 13; 1]; [13; 11; 3]].
Definition ea_d : db := Eval vm_compute in get db_new (db_init 7 ea_cnf true db_new).
Definition ea_w : watches := Eval vm_compute in prop_reset ea_d.
Definition ea_t1 : trail_t := Eval vm_compute in get trail_new (decide 0 (newDecisionLevel (trail_init 7 trail_new))).
Definition ea_s1 := Eval vm_compute in get (None, db_new, [], trail_new) (propagate ea_d ea_w ea_t1).
Definition ea_t2 : trail_t := Eval vm_compute in get trail_new (decide 6 (newDecisionLevel (snd ea_s1))).
Definition ea_s2 := Eval vm_compute in get (None, db_new, [], trail_new) (propagate (snd (fst (fst ea_s1))) (snd (fst ea_s1)) ea_t2).
Definition ea_d2 := snd (fst (fst ea_s2)).
Definition ea_w2 := snd (fst ea_s2).
Definition ea_t := snd ea_s2.

Lemma ea_reach1 : areach (snd (fst (fst ea_s1))) (snd (fst ea_s1)) (snd ea_s1) None.
Proof.
  eapply ar_propagate with (d := ea_d) (w := ea_w) (t := ea_t1); [|vm_compute; reflexivity].
  eapply ar_decide with (l := 0) (t := trail_init 7 trail_new).
  - change ea_w with (prop_reset ea_d). apply ar_init with (cs := ea_cnf); [clauses_ok|vm_compute; reflexivity].
  - reflexivity.
  - vm_compute; lia.
  - reflexivity.
  - reflexivity.
Qed.
Lemma ea_reach : areach ea_d2 ea_w2 ea_t (Some 5).
Proof.
  eapply ar_propagate with (d := snd (fst (fst ea_s1))) (w := snd (fst ea_s1)) (t := ea_t2); [|vm_compute; reflexivity].
  eapply ar_decide with (l := 6) (t := snd ea_s1).
  - exact ea_reach1.
  - reflexivity.
  - vm_compute; lia.
  - reflexivity.
  - reflexivity.
Qed.
Example C16_C17_reachable : exists an d', areach ea_d2 ea_w2 ea_t (Some 5) /\ 0 < dlevel ea_t /\
  handle_conflict ea_d2 ea_t 5 = Ok (an, d') /\ an_learnt an = [9; 1] /\ an_level an = 1.
Proof.
  eexists. eexists. split; [exact ea_reach|]. split; [vm_compute; lia|]. split; [vm_compute; reflexivity|]. vm_compute. auto.
Qed.
(** without minimisation the clause has three literals *)
Example C16_minimised : exists st inv,
  an_loop 8 ea_d2 ea_t (Some 5) None [] vempty 0 7 [] = Ok ([9; 1; 5], st, inv).
Proof. eexists. eexists. vm_compute. reflexivity. Qed.
(** x2 was implied by the decision x0 *)
Example C19_final_example : value (snd ea_s1) 4 = Some true /\ analyzeFinal (snd (fst (fst ea_s1))) (snd ea_s1) 4 = [4; 1].
Proof. vm_compute. auto. Qed.
