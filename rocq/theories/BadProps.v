(** C53, C63 and C45 for malformed input: no program answers. *)
Require Import List Arith ZArith Bool String.
Require Import Verif.Base Verif.CNFModel Verif.DimacsModel Verif.DimacsSpec Verif.OptModel Verif.OptSpec Verif.OptProps Verif.MainModel Verif.MainSpec Verif.MainCases Verif.SolverProps
  Verif.FuzzModel Verif.AigModel Verif.AigCases Verif.AigTextModel Verif.BadSpec Verif.BadProofs.
Import ListNotations.
Open Scope list_scope.

(** the solver prints the text of the exception and no result *)
Theorem C53_malformed : forall B w args text, (forall a, In a args -> good cli_options a) -> gets w args text ->
  bad_input B (w_junk w 0) text -> program B w args = Exits 1 [w_what w].
Proof. exact main_bad. Qed.
Print Assumptions C53_malformed.
Theorem C63_malformed : forall B w f rest text, f <> "cert.drat"%string -> w_files w f = Some text ->
  bad_input B (w_junk w 0) text -> fuzz_main B w (f :: rest) = Exits 1 [w_what w].
Proof. exact fuzz_bad. Qed.
Print Assumptions C63_malformed.
(** cnf2aig ends with an exception before it prints anything *)
Theorem C45_malformed : forall B junk cfg text, bad_input B junk text -> cnf2aig_main B junk cfg text = Aborted.
Proof. exact aig_bad. Qed.
Print Assumptions C45_malformed.

(** "c x", "p dnf 3 2" and a clause *)
Definition dnf_text : list nat := [99; 32; 120; 10] ++ [112; 32; 100; 110; 102; 32; 51; 32; 50; 10; 49; 32; 48; 10].
Definition dnf_world : world := mkWorld 0 (fun f => if String.eqb f "f.cnf" then Some dnf_text else None) [] (fun _ => true) (fun _ => repeat 57 64) [84; 97] run_oracle (fun _ => false) 500.
Example C53_malformed_case : (forall a, In a ["f.cnf"%string] -> good cli_options a) /\ gets dnf_world ["f.cnf"%string] dnf_text /\ bad_input 64 (w_junk dnf_world 0) dnf_text /\
  program 64 dnf_world ["f.cnf"%string] = Exits 1 [[84; 97]] /\ fuzz_main 64 dnf_world ["f.cnf"%string] = Exits 1 [[84; 97]] /\ cnf2aig_main 64 (repeat 57 64) acfg dnf_text = Aborted.
Proof.
  assert (HB : bad_input 64 (w_junk dnf_world 0) dnf_text).
  { split; [repeat constructor|]. split; [reflexivity|]. exists false. split.
    - apply (bad_header false [99; 32; 120; 10] []).
      + apply (dm_comment false [32; 120] 10 [] []); [|left; reflexivity|apply dm_nil]. intros c [<-|[<-|[]]] H; unfold line_end in H; repeat (destruct H as [H|H]; [discriminate H|]); discriminate H.
      + intros q H. discriminate H.
    - split; [|discriminate]. apply short_fits. vm_compute. repeat constructor. }
  assert (HG : gets dnf_world ["f.cnf"%string] dnf_text) by (split; vm_compute; reflexivity).
  assert (HA : forall a, In a ["f.cnf"%string] -> good cli_options a).
  { intros a [<-|[]]. split; [|left; reflexivity]. apply no_help. vm_compute. reflexivity. }
  split; [exact HA|]. split; [exact HG|]. split; [exact HB|]. split; [exact (C53_malformed 64 dnf_world _ dnf_text HA HG HB)|].
  split; [apply (C63_malformed 64 dnf_world "f.cnf"%string [] dnf_text); [discriminate|reflexivity|exact HB]|exact (C45_malformed 64 _ acfg dnf_text HB)].
Qed.
