(** C30: the DRAT checker accepts only proofs of unsatisfiability. *)
Require Import List Arith Bool NArith.
Require Import Verif.Base Verif.Outcome Verif.DbModel Verif.DRATModel Verif.DRATProofs.
Import ListNotations.

(** A proof is a list of parsed lines: [CAdd c] adds the clause c, [CDel c] (a line starting with d) deletes it.
    [check_proof n cs proof] is the answer of the checker for the problem with [n] variables and clauses [cs].
    The proof is arbitrary: lemmas may be tautological, repeat literals or clauses; deletions may name any clause. *)
Theorem C30_checker_sound : forall (n : nat) (cs : formula) (proof : list cline),
  (forall c l, In c cs -> In l c -> lvar l < n) ->
  check_proof n cs proof = Ok true ->
  forall x : assignment, ~ sat x cs.
Proof. exact check_sound. Qed.
Print Assumptions C30_checker_sound.

(** The checker gives an answer (no invalid memory access, no endless loop) for all proofs over the variables of the problem
    whose clauses have less than 65536 literals. *)
Theorem C30_checker_defined : forall (n : nat) (cs : formula) (proof : list cline),
  (forall c l, In c cs -> In l c -> lvar l < n) ->
  (forall c l, In (CAdd c) proof \/ In (CDel c) proof -> In l c -> lvar l < n) ->
  (forall c, In c cs \/ In (CAdd c) proof -> (N.of_nat (length c) < 65536)%N) ->
  exists b, check_proof n cs proof = Ok b.
Proof.
  intros n cs p H1 H2 H3. apply check_defined; auto. intros [c|c] l Hi Hl; apply (H2 c l); auto.
Qed.
Print Assumptions C30_checker_defined.

(** A proof over a variable that the problem does not have makes the checker access memory behind the end of its arrays. *)
Theorem C30_unknown_variable_refuted : exists (n : nat) (cs : formula) (proof : list cline),
  (forall c l, In c cs -> In l c -> lvar l < n) /\ check_proof n cs proof = Err UB.
Proof.
  exists 1, [[mkLit 0 false]], [CAdd [mkLit 1 false]]. split; [|vm_compute; reflexivity].
  intros c l [<-|[]] [<-|[]]. vm_compute. auto.
Qed.
Print Assumptions C30_unknown_variable_refuted.

(** Non-vacuity: a proof by reverse unit propagation *)
Definition p4 : formula := [[0; 2]; [0; 3]; [1; 2]; [1; 3]].
Example C30_rup_case : check_proof 2 p4 [CAdd [0]; CAdd []] = Ok true.
Proof. vm_compute. reflexivity. Qed.
(** ... a proof whose first lemma is not implied by the problem and is accepted by the resolution test (pivot 6), with deletions *)
Definition p8 : formula := [[0; 2; 4]; [0; 2; 5]; [0; 3; 4]; [0; 3; 5]; [1; 2; 4]; [1; 2; 5]; [1; 3; 4]; [1; 3; 5]; [7; 0]].
Example C30_rat_case : check_proof 4 p8 [CAdd [6; 1]; CAdd [0; 2]; CDel [0; 2; 4]; CAdd [0]; CDel [2; 0]; CAdd [2]; CAdd []] = Ok true /\
  check_proof 4 (p8 ++ [[3; 7]]) [CAdd [6; 1]] = Ok false /\ check_proof 4 [[7; 0]] [CAdd [6; 1]] = Ok false.
Proof. vm_compute. auto. Qed.
(** ... wrong proofs are rejected *)
Example C30_reject_case : check_proof 2 [[0; 2]; [0; 3]; [1; 2]] [CAdd [0]; CAdd []] = Ok false /\ check_proof 2 p4 [CAdd [0]] = Ok false /\
  check_proof 2 p4 [CDel [2; 1]; CAdd [0]; CAdd []] = Ok false.
Proof. vm_compute. auto. Qed.
