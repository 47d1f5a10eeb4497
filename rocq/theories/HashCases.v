(** Cases and counterexamples for the hashes. *)
Require Import List Arith Bool NArith ZArith Lia Sorted Permutation.
Require Import Verif.Base Verif.Outcome Verif.DimacsModel Verif.CNFModel Verif.CNFSpec Verif.CNFProofs.
Require Import Verif.HashModel Verif.HashSpec Verif.HashProofs Verif.HashMore Verif.HashDegree.
Import ListNotations.

Lemma hash_read : forall cs, (forall c, In c (problem (readClauses cnf_empty cs)) -> (N.of_nat (length (problem_text [c])) < 4294967000)%N) ->
  gbd_hash (readClauses cnf_empty cs) = Ok (hex (MD5 (problem_text (problem (readClauses cnf_empty cs))))).
Proof. intros; apply gbd_hash_text; assumption. Qed.

Lemma empty_chunk : exists st, process_all [[97]; []] initialise = Ok st /\ digest_string st <> Ok (hex (MD5 (concat [[97]; []]))).
Proof. eexists; split; [vm_compute; reflexivity|vm_compute; discriminate]. Qed.

Lemma ambiguous : exists cs ds h, gbd_hash (readClauses cnf_empty cs) = Ok h /\ gbd_hash (readClauses cnf_empty ds) = Ok h /\ satisfiable cs /\ unsat ds.
Proof.
  exists [[0; 2]], [[]; [2]]; eexists; split; [vm_compute; reflexivity|split; [vm_compute; reflexivity|split]].
  - exists (fun _ => true); intros c [<-|[]]; exists 0; split; [left; reflexivity|reflexivity].
  - intros a S; destruct (S [] (or_introl eq_refl)) as (l & [] & _).
Qed.

Lemma not_dimacs : exists cs, gbd_hash (readClauses cnf_empty cs) <> Ok (hex (MD5 (dimacs_text cs))).
Proof. exists [[0; 2]]; vm_compute; discriminate. Qed.

Lemma degree_defined_read : forall cs, exists ds, StronglySorted N.le ds /\ degree_hash (readClauses cnf_empty cs) = Ok (hex (MD5 (join (map dec ds)))).
Proof. intros; apply degree_defined, read_bounded. Qed.

Lemma degree_value_read : forall cs, let F := problem (readClauses cnf_empty cs) in
  (forall l, ~ In [l] F) -> (N.of_nat (length (concat F)) < 4294967296)%N ->
  exists ds, StronglySorted N.le ds /\ Permutation ds (map (occurrences F) (nodup Nat.eq_dec (concat F))) /\
    degree_hash (readClauses cnf_empty cs) = Ok (hex (MD5 (join (map dec ds)))).
Proof. intros; apply degree_value; auto; apply read_bounded. Qed.

Lemma degree_invariant_read : forall cs ds (r : lit -> lit), let F := problem (readClauses cnf_empty cs) in let G := problem (readClauses cnf_empty ds) in
  (forall a b, r a = r b -> a = b) -> (forall l, ~ In [l] F) -> (forall l, ~ In [l] G) -> (N.of_nat (length (concat F)) < 4294967296)%N ->
  Permutation (concat G) (map r (concat F)) ->
  degree_hash (readClauses cnf_empty ds) = degree_hash (readClauses cnf_empty cs).
Proof. intros cs ds r F G I U V S P; apply (degree_invariant _ _ r); auto; apply read_bounded. Qed.

Lemma degree_order : exists cs ds h k, Permutation cs ds /\ degree_hash (readClauses cnf_empty cs) = Ok h /\
  degree_hash (readClauses cnf_empty ds) = Ok k /\ h <> k.
Proof.
  exists [[0]; [2]; [1; 2]], [[2]; [0]; [1; 2]]; eexists; eexists; split; [apply perm_swap|].
  split; [vm_compute; reflexivity|split; [vm_compute; reflexivity|discriminate]].
Qed.

(** the test suite of RFC 1321, appendix A.5: "", "abc", and 80 digits *)
Lemma rfc_suite :
  hex (MD5 []) = [100; 52; 49; 100; 56; 99; 100; 57; 56; 102; 48; 48; 98; 50; 48; 52; 101; 57; 56; 48; 48; 57; 57; 56; 101; 99; 102; 56; 52; 50; 55; 101] /\
  hex (MD5 [97; 98; 99]) = [57; 48; 48; 49; 53; 48; 57; 56; 51; 99; 100; 50; 52; 102; 98; 48; 100; 54; 57; 54; 51; 102; 55; 100; 50; 56; 101; 49; 55; 102; 55; 50] /\
  hex (MD5 (concat (repeat [49; 50; 51; 52; 53; 54; 55; 56; 57; 48] 8))) =
    [53; 55; 101; 100; 102; 52; 97; 50; 50; 98; 101; 51; 99; 57; 53; 53; 97; 99; 52; 57; 100; 97; 50; 101; 50; 49; 48; 55; 98; 54; 55; 97].
Proof. split; [|split]; vm_compute; reflexivity. Qed.

Lemma hash_case : exists st, process_all [repeat 97 70; [98]; repeat 99 130] initialise = Ok st /\
  digest_string st = Ok (hex (MD5 (repeat 97 70 ++ 98 :: repeat 99 130))) /\
  gbd_hash (readClauses cnf_empty [[2; 5]; [0; 3]]) = Ok (hex (MD5 [50; 32; 53; 32; 48; 32; 48; 32; 51; 32; 48])).
Proof. eexists; split; [vm_compute; reflexivity|split; vm_compute; reflexivity]. Qed.

Lemma degree_case : let cs := [[0; 2; 5]; [1; 2]; [3; 5]] in
  (forall l, ~ In [l] (problem (readClauses cnf_empty cs))) /\ degree_hash (readClauses cnf_empty cs) = Ok (hex (MD5 [49; 32; 49; 32; 49; 32; 50; 32; 50])).
Proof. cbv zeta; split; [vm_compute; intros l I; repeat (destruct I as [I|I]; [discriminate I|]); exact I|vm_compute; reflexivity]. Qed.
