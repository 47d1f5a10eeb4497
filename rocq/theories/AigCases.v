(** cnf2aig: concrete cases and counterexamples. *)
Require Import List Arith Bool Lia.
Require Import Verif.Base Verif.Outcome Verif.CNFModel Verif.GateModel Verif.GateSpec Verif.GateMore Verif.AigModel Verif.AigSpec.
Import ListNotations.

Definition acfg : config := mkCfg 0 true true false (fun _ => false) (fun _ _ => false).
(** variable 2 is (3 and 4), 4 is (5 and 6), the root asserts 2 *)
Definition acase : cnf := mkCnf [[4]; [5;6]; [5;8]; [4;7;9]; [9;10]; [9;12]; [8;11;13]] 7.
Lemma a_case : wf_problem (variables acase) (problem acase) /\ (forall c, In c (problem acase) -> c <> []) /\
  (forall c l, In c (problem acase) -> In l c -> lvar l <> 0) /\
  cnf2aig_circuit acfg acase = Ok (mkAig 8 [3; 5; 6] 14 [(14, 4, None); (4, 6, Some 8); (8, 10, Some 12)]) /\
  cnf2aig acfg acase = Ok (mkAiger 8 3 0 1 3 [6; 10; 12] 14 [(14, 4, 1); (4, 6, 8); (8, 10, 12)]).
Proof.
  split; [apply wf_check; vm_compute; reflexivity|]. split; [intros c H; cbn in H; repeat (destruct H as [<-|H]; [discriminate|]); destruct H|].
  split; [|split; vm_compute; reflexivity]. intros c l H Hl. cbn in H. repeat (destruct H as [<-|H]; [cbn in Hl; repeat (destruct Hl as [<-|Hl]; [cbn; discriminate|]); destruct Hl|]). destruct H.
Qed.

Lemma constant_refuted : exists cfg p f, wf_problem (variables p) (problem p) /\ satisfiable (problem p) /\ cnf2aig cfg p = Ok f /\ ~ aiger_satisfiable f.
Proof.
  exists acfg, (mkCnf [[0]] 1), (mkAiger 2 1 0 1 1 [0] 2 [(2, 0, 1)]). split; [apply wf_check; vm_compute; reflexivity|]. split; [exists (fun _ => true); intros c [<-|[]]; exists 0; split; [left; auto|reflexivity]|]. split; [vm_compute; reflexivity|].
  intros (x & (X0 & HE) & HO). cbn [f_output f_ands] in *. rewrite (HE 2 0 1) in HO by (left; auto). unfold lit_val in HO. cbn in HO. rewrite X0 in HO. discriminate.
Qed.
Lemma fresh_refuted : exists cfg p a, wf_problem (variables p) (problem p) /\ (forall c, In c (problem p) -> c <> []) /\ (forall c l, In c (problem p) -> In l c -> lvar l <> 0) /\
  cnf2aig_circuit cfg p = Ok a /\ cnf2aig cfg p = Err UB.
Proof.
  exists acfg, (mkCnf [[2; 4]] 3). eexists. split; [apply wf_check; vm_compute; reflexivity|]. split; [intros c [<-|[]]; discriminate|].
  split; [|split; vm_compute; reflexivity]. intros c l [<-|[]] Hl. cbn in Hl. repeat (destruct Hl as [<-|Hl]; [cbn; discriminate|]). destruct Hl.
Qed.
(** variable 1 is the exclusive or of 2 and 3, variable 2 is (5 and 6) *)
Lemma negated_refuted : exists cfg p, wf_problem (variables p) (problem p) /\ (forall c, In c (problem p) -> c <> []) /\ (forall c l, In c (problem p) -> In l c -> lvar l <> 0) /\
  cnf2aig_circuit cfg p = Err UB.
Proof.
  exists acfg, (mkCnf [[2]; [3;4;6]; [3;5;7]; [2;4;7]; [2;5;6]; [5;10]; [5;12]; [4;11;13]] 7). split; [apply wf_check; vm_compute; reflexivity|]. split; [intros c H; cbn in H; repeat (destruct H as [<-|H]; [discriminate|]); destruct H|].
  split; [|vm_compute; reflexivity]. intros c l H Hl. cbn in H. repeat (destruct H as [<-|H]; [cbn in Hl; repeat (destruct Hl as [<-|Hl]; [cbn; discriminate|]); destruct Hl|]). destruct H.
Qed.
