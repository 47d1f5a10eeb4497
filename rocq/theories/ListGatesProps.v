(** C69: the listing of the gates. *)
Require Import List Arith NArith String Bool.
Require Import Verif.Base Verif.Outcome Verif.CNFModel Verif.DimacsModel Verif.MainModel Verif.GateModel Verif.GateSpec Verif.GateMore Verif.GateCases
  Verif.ListGatesModel Verif.ListGatesSpec Verif.ListGatesProofs.
Import ListNotations.
Open Scope list_scope.

(** After an analysis, the listing ends, reads nothing outside the arrays, and describes every gate found exactly once, from the
    roots downwards: a gate is described after a gate that uses it, unless it occurs in a root clause. *)
Theorem C69_listing : forall cfg p g, wf_problem (variables p) (problem p) -> analyze cfg p = Ok g ->
  exists vs, NoDup vs /\ (forall v, In v vs <-> defined (gates g) v = true) /\ List.length vs = gate_count g /\ top_down (problem p) g vs /\
    printGates (variables p) (pgates (problem p) g) (proots (problem p) g) = Ok (flat_map (described (problem p) g) vs).
Proof.
  exact (fun cfg p g WF E => match list_ok cfg p g WF E with ex_intro _ vs (conj A (conj B (conj C D))) => ex_intro _ vs (conj A (conj B (conj (list_count cfg p g vs WF E A B) (conj C D)))) end).
Qed.
Print Assumptions C69_listing.

(** Once the roots have been replaced by one artificial root, the listing always writes outside its array of visited variables. *)
Theorem C69_normalized_refuted : forall cfg p g, wf_problem (variables p) (problem p) -> analyze cfg p = Ok g ->
  printGates (variables p) (fst (pnormal (problem p) (variables p) g)) (snd (pnormal (problem p) (variables p) g)) = Err UB.
Proof. exact list_normal. Qed.
Print Assumptions C69_normalized_refuted.

(** It is only the length of that array: with one more element the listing is complete again, and begins with the artificial gate. *)
Theorem C69_normalized_longer : forall cfg p g, wf_problem (variables p) (problem p) -> analyze cfg p = Ok g ->
  exists vs, NoDup vs /\ (forall v, In v vs <-> defined (gates g) v = true) /\
    printGates (S (variables p)) (fst (pnormal (problem p) (variables p) g)) (snd (pnormal (problem p) (variables p) g)) = Ok (described_top (problem p) (variables p) g ++ flat_map (described (problem p) g) vs).
Proof. exact list_repaired. Qed.
Print Assumptions C69_normalized_longer.

Definition line (s : string) : list nat := bytes s ++ [10].
Example C69_case : wf_problem 7 acase /\ exists g, analyze patterns_only (mkCnf acase 7) = Ok g /\ gate_count g = 3 /\
  printGates 7 (pgates acase g) (proots acase g) = Ok (flat_map line
    ["Gate with output 1 is defined by clauses -1 2 3 "; "-1 -2 -3 "; ""; "1 2 -3 "; "1 -2 3 "; "";
     "Gate with output -6 is defined by clauses 6 -7 "; ""; "";
     "Gate with output 2 is defined by clauses -2 4 "; "-2 5 "; ""; "2 -4 -5 "; ""]%string).
Proof. split; [apply wf_check; vm_compute; reflexivity|]. eexists. split; [vm_compute; reflexivity|]. split; vm_compute; reflexivity. Qed.
Print Assumptions C69_case.
