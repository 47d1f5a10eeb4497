(** C65: the option sort-variables. *)
Require Import List Arith Bool ZArith QArith.
Require Import Verif.Base Verif.Outcome Verif.TrailModel Verif.TrailSpec Verif.HeapModel Verif.BranchModel Verif.BranchSpec Verif.BranchProofs Verif.BranchCases Verif.SolverModel Verif.OccModel Verif.OccSpec Verif.OccProofs.
Import ListNotations.
Local Open Scope nat_scope.

(** The relative occurrences are the weights of the literals, scaled so that the greatest is one. *)
Theorem C65_occurrences : forall n cs m, over n cs -> some_literal cs -> greatest n cs m ->
  exists o, relative_occurrences n cs = Ok (map Some o) /\ length o = 2 * n /\ forall l, lvar l < n -> (nth l o 0 == weight cs l / m)%Q.
Proof. exact relative_values. Qed.
Print Assumptions C65_occurrences.
Theorem C65_greatest : forall n cs, 0 < n -> exists m, greatest n cs m.
Proof. exact greatest_exists. Qed.
Print Assumptions C65_greatest.
(** without any literal all of them are 0/0 *)
Theorem C65_no_literal : forall n cs, over n cs -> ~ some_literal cs -> relative_occurrences n cs = Ok (repeat None (2 * n)).
Proof. exact relative_nan. Qed.
Print Assumptions C65_no_literal.

(** The initialisation is defined in every state. *)
Theorem C65_vsids_defined : forall ext okamt d0 ph t b cs, vs_reach Qarith ext okamt d0 ph t b -> over (nvt t) cs -> some_literal cs ->
  exists b0, vs_sorted_init cs t b = Ok (Some b0) /\ vs_reach Qarith ext okamt d0 Full t b0.
Proof. exact vs_sorted_defined. Qed.
Print Assumptions C65_vsids_defined.
Theorem C65_lrb_defined : forall ph t b cs, lr_reach Qarith ph t b -> over (nvt t) cs -> some_literal cs ->
  exists b0, lr_sorted_init cs t b = Ok (Some b0) /\ lr_reach Qarith Full t b0.
Proof. exact lr_sorted_defined. Qed.
Print Assumptions C65_lrb_defined.

(** From the initialisation to the first conflict every decision is on a variable that occurs most
    among those that can be chosen, with the sign that occurs less. *)
Theorem C65_vsids : forall d0 ph0 t0 b cs b0 ph t b1 p b2, (0 < d0)%Q ->
  vs_reach Qarith false (okpos Qarith (fun i => 0 <= i)%Q) d0 ph0 t0 b -> over (nvt t0) cs -> vs_sorted_init cs t0 b = Ok (Some b0) ->
  quiet_vs t0 b0 ph t b1 -> ph <> Stale -> nvt t = nvt t0 -> vs_pick Qarith t b1 = Ok (Some p, b2) -> some_literal cs -> sorted_choice cs t p.
Proof. exact vs_sorted_choice. Qed.
Print Assumptions C65_vsids.
Theorem C65_lrb : forall ph0 t0 b cs b0 ph t b1 p b2,
  lr_reach Qarith ph0 t0 b -> over (nvt t0) cs -> lr_sorted_init cs t0 b = Ok (Some b0) ->
  quiet_lr t0 b0 ph t b1 -> ph <> Stale -> nvt t = nvt t0 -> lr_pick Qarith t b1 = Ok (Some p, b2) -> some_literal cs -> sorted_choice cs t p.
Proof. exact lr_sorted_choice. Qed.
Print Assumptions C65_lrb.

(** With the first problem of a solver, the clauses counted are those of the problem. *)
Theorem C65_first_problem : forall C n cs lemma s, solver_init n cs lemma (solver_new C) = Ok s ->
  iterated (sv_d s) = cs /\ nvt (sv_t s) = n.
Proof. exact first_problem. Qed.
Print Assumptions C65_first_problem.

(** x1 or x2; not x1 or x2 or x3; x2: x2 occurs most and only positively; it is set to false, and x1 next *)
Definition occ_problem : list clause := [[mkLit 0 false; mkLit 1 false]; [mkLit 0 true; mkLit 1 false; mkLit 2 false]; [mkLit 1 false]].
Definition occ_trail : trail_t := trail_init 3 trail_new.
Example C65_case : over 3 occ_problem /\ some_literal occ_problem /\ greatest 3 occ_problem (11 # 6) /\
  relative_occurrences 3 occ_problem = Ok (map Some [6 # 22; 6 # 33; 66 # 66; 0 # 11; 6 # 33; 0 # 11])%Q /\
  exists s, solver_init 3 occ_problem true (solver_new default_cfg) = Ok s.
Proof.
  split. { intros c l [<-|[<-|[<-|[]]]] Hl; repeat (destruct Hl as [<-|Hl]; [vm_compute; repeat constructor|]); destruct Hl. }
  split. { exists [mkLit 1 false], (mkLit 1 false). split; [right; right; left; reflexivity|left; reflexivity]. }
  split. { split. { exists (mkLit 1 false). split; [vm_compute; repeat constructor|vm_compute; reflexivity]. }
    intros l Hl. apply lit_lt in Hl. do 6 (destruct l as [|l]; [vm_compute; discriminate|]). exfalso. revert Hl. cbn. intros Hl. repeat apply le_S_n in Hl. inversion Hl. }
  split. { vm_compute. reflexivity. }
  eexists. vm_compute. reflexivity.
Qed.
(** runs are only looked at from outside: the arithmetic is part of the type of their results *)
Lemma picked {A} (o : out (option lit * A)) p : (match o with Ok (Some q, _) => q =? p | _ => false end) = true -> exists b, o = Ok (Some p, b).
Proof. destruct o as [[[q|] b]|]; try discriminate. intros H. apply Nat.eqb_eq in H. subst q. exists b. reflexivity. Qed.
Definition occ_trail1 : trail_t := match decide (mkLit 1 true) (newDecisionLevel occ_trail) with Ok t => t | Err _ => occ_trail end.
Lemma occ_trail1_ok : decide (mkLit 1 true) (newDecisionLevel occ_trail) = Ok occ_trail1 /\ tr occ_trail1 = [mkLit 1 true].
Proof. split; vm_compute; reflexivity. Qed.
(** the first decision and the second *)
Definition vs_twice : bool := match vs_sorted_init occ_problem occ_trail (vs_new Qarith (80 # 100)) with
  | Ok (Some b) => match vs_pick Qarith occ_trail b with
                   | Ok (Some p, b1) => (p =? mkLit 1 true) && match vs_pick Qarith occ_trail1 b1 with Ok (Some q, _) => q =? mkLit 0 true | _ => false end
                   | _ => false end
  | _ => false end.
Lemma vs_twice_ok : vs_twice = true. Proof. vm_compute. reflexivity. Qed.
Definition lr_twice : bool := match lr_sorted_init occ_problem occ_trail (lr_new Qarith (40 # 100)) with
  | Ok (Some b) => match lr_pick Qarith occ_trail b with
                   | Ok (Some p, b1) => (p =? mkLit 1 true) && match lr_pick Qarith occ_trail1 b1 with Ok (Some q, _) => q =? mkLit 0 true | _ => false end
                   | _ => false end
  | _ => false end.
Lemma lr_twice_ok : lr_twice = true. Proof. vm_compute. reflexivity. Qed.
Example C65_vsids_case : vs_reach Qarith false (okpos Qarith (fun i => 0 <= i)%Q) (80 # 100) (after_op (OpInit 3) Stale) occ_trail (vs_new Qarith (80 # 100)) /\
  exists b0 t b1 b2, vs_sorted_init occ_problem occ_trail (vs_new Qarith (80 # 100)) = Ok (Some b0) /\ quiet_vs occ_trail b0 Search t b1 /\
  tr t = [mkLit 1 true] /\ vs_pick Qarith t b1 = Ok (Some (mkLit 0 true), b2).
Proof.
  split. { apply (vr_trail Qarith _ _ _ Stale trail_new _ (OpInit 3)); [apply vr_new|exact I|reflexivity]. }
  assert (H := vs_twice_ok). unfold vs_twice in H. destruct (vs_sorted_init _ _ _) as [[b0|]|]; try discriminate. destruct (vs_pick Qarith occ_trail b0) as [[[p|] b1]|] eqn:E1; try discriminate.
  apply andb_prop in H. destruct H as (H1 & H2). apply Nat.eqb_eq in H1. subst p. destruct (picked _ _ H2) as (b2 & E2). destruct occ_trail1_ok as (D1 & D2).
  exists b0, occ_trail1, b1, b2. split; [reflexivity|]. split; [|split; [exact D2|exact E2]].
  exact (qv_pick _ _ Full _ _ (mkLit 1 true) (mkLit 1 true) _ _ (qv_start _ _) ltac:(discriminate) E1 eq_refl D1).
Qed.
Example C65_lrb_case : lr_reach Qarith (after_op (OpInit 3) Stale) occ_trail (lr_new Qarith (40 # 100)) /\
  exists b0 t b1 b2, lr_sorted_init occ_problem occ_trail (lr_new Qarith (40 # 100)) = Ok (Some b0) /\ quiet_lr occ_trail b0 Search t b1 /\
  tr t = [mkLit 1 true] /\ lr_pick Qarith t b1 = Ok (Some (mkLit 0 true), b2).
Proof.
  split. { apply (lr_r_trail Qarith Stale trail_new _ (OpInit 3)); [apply lr_r_new|exact I|reflexivity]. }
  assert (H := lr_twice_ok). unfold lr_twice in H. destruct (lr_sorted_init _ _ _) as [[b0|]|]; try discriminate. destruct (lr_pick Qarith occ_trail b0) as [[[p|] b1]|] eqn:E1; try discriminate.
  apply andb_prop in H. destruct H as (H1 & H2). apply Nat.eqb_eq in H1. subst p. destruct (picked _ _ H2) as (b2 & E2). destruct occ_trail1_ok as (D1 & D2).
  exists b0, occ_trail1, b1, b2. split; [reflexivity|]. split; [|split; [exact D2|exact E2]].
  exact (ql_pick _ _ Full _ _ (mkLit 1 true) _ _ (ql_start _ _) ltac:(discriminate) E1 D1).
Qed.
(** one empty clause over two variables *)
Example C65_no_literal_case : over 2 [[]] /\ ~ some_literal [[]] /\ relative_occurrences 2 [[]] = Ok [None; None; None; None].
Proof.
  split; [intros c l [<-|[]] []|]. split; [intros (c & l & [<-|[]] & [])|]. reflexivity.
Qed.
