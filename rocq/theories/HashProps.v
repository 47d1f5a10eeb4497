(** Properties of the problem hashes. *)
Require Import List Arith Bool NArith Sorted Permutation.
Require Import Verif.Base Verif.Outcome Verif.DimacsModel Verif.CNFModel.
Require Import Verif.HashModel Verif.HashSpec Verif.HashProofs Verif.HashMore Verif.HashDegree Verif.HashCases.
Import ListNotations.

(** C42: however a message is split into update calls (not empty, below 2^32 - 128 bytes), the result is the MD5 digest (RFC 1321) of
    the message, in hexadecimal; no access is out of bounds. *)
Theorem C42_chunks : forall chunks : list (list nat), Forall (fun c => c <> [] /\ (N.of_nat (length c) < 4294967168)%N) chunks ->
  exists st, process_all chunks initialise = Ok st /\ digest_string st = Ok (hex (MD5 (concat chunks))).
Proof. exact process_chunks. Qed.
Print Assumptions C42_chunks.

(** C42: an empty update call drops the bytes that wait for a full block. *)
Theorem C42_empty_chunk_refuted : exists st, process_all [[97]; []] initialise = Ok st /\
  digest_string st <> Ok (hex (MD5 (concat [[97]; []]))).
Proof. exact empty_chunk. Qed.
Print Assumptions C42_empty_chunk_refuted.

(** C42: the hash of a problem is the digest of the text of its clauses. *)
Theorem C42_hash : forall cs : list clause,
  (forall c, In c (problem (readClauses cnf_empty cs)) -> (N.of_nat (length (problem_text [c])) < 4294967000)%N) ->
  gbd_hash (readClauses cnf_empty cs) = Ok (hex (MD5 (problem_text (problem (readClauses cnf_empty cs))))).
Proof. exact hash_read. Qed.
Print Assumptions C42_hash.

(** C42: without empty clauses, different problems have different texts. *)
Theorem C42_text_injective : forall cs ds : list clause, ~ In [] cs -> ~ In [] ds ->
  problem_text (problem (readClauses cnf_empty cs)) = problem_text (problem (readClauses cnf_empty ds)) ->
  problem (readClauses cnf_empty cs) = problem (readClauses cnf_empty ds).
Proof. exact gbd_text_inj. Qed.
Print Assumptions C42_text_injective.

(** C42: the literal x1 is printed like the end of a clause: a satisfiable problem has the same hash as an unsatisfiable one with an
    empty clause. *)
Theorem C42_empty_clause_refuted : exists cs ds h,
  gbd_hash (readClauses cnf_empty cs) = Ok h /\ gbd_hash (readClauses cnf_empty ds) = Ok h /\ satisfiable cs /\ unsat ds.
Proof. exact ambiguous. Qed.
Print Assumptions C42_empty_clause_refuted.

(** C42: the text is not the DIMACS text of the clauses. *)
Theorem C42_dimacs_refuted : exists cs, gbd_hash (readClauses cnf_empty cs) <> Ok (hex (MD5 (dimacs_text cs))).
Proof. exact not_dimacs. Qed.
Print Assumptions C42_dimacs_refuted.

Example C42_rfc_suite :
  hex (MD5 []) = [100; 52; 49; 100; 56; 99; 100; 57; 56; 102; 48; 48; 98; 50; 48; 52; 101; 57; 56; 48; 48; 57; 57; 56; 101; 99; 102; 56; 52; 50; 55; 101] /\
  hex (MD5 [97; 98; 99]) = [57; 48; 48; 49; 53; 48; 57; 56; 51; 99; 100; 50; 52; 102; 98; 48; 100; 54; 57; 54; 51; 102; 55; 100; 50; 56; 101; 49; 55; 102; 55; 50] /\
  hex (MD5 (concat (repeat [49; 50; 51; 52; 53; 54; 55; 56; 57; 48] 8))) =
    [53; 55; 101; 100; 102; 52; 97; 50; 50; 98; 101; 51; 99; 57; 53; 53; 97; 99; 52; 57; 100; 97; 50; 101; 50; 49; 48; 55; 98; 54; 55; 97].
Proof. exact rfc_suite. Qed.
Example C42_case : exists st, process_all [repeat 97 70; [98]; repeat 99 130] initialise = Ok st /\
  digest_string st = Ok (hex (MD5 (repeat 97 70 ++ 98 :: repeat 99 130))) /\
  gbd_hash (readClauses cnf_empty [[2; 5]; [0; 3]]) = Ok (hex (MD5 [50; 32; 53; 32; 48; 32; 48; 32; 51; 32; 48])).
Proof. exact hash_case. Qed.

(** C44: the degree hash is defined for every problem, and the digest of an ascending sequence of numbers. *)
Theorem C44_defined : forall cs, exists ds, StronglySorted N.le ds /\ degree_hash (readClauses cnf_empty cs) = Ok (hex (MD5 (join (map dec ds)))).
Proof. exact degree_defined_read. Qed.
Print Assumptions C44_defined.

(** C44: without unit clauses, these numbers are how often each literal occurs. *)
Theorem C44_value_partial : forall cs, let F := problem (readClauses cnf_empty cs) in
  (forall l, ~ In [l] F) -> (N.of_nat (length (concat F)) < 4294967296)%N ->
  exists ds, StronglySorted N.le ds /\ Permutation ds (map (occurrences F) (nodup Nat.eq_dec (concat F))) /\
    degree_hash (readClauses cnf_empty cs) = Ok (hex (MD5 (join (map dec ds)))).
Proof. exact degree_value_read. Qed.
Print Assumptions C44_value_partial.

(** C44: without unit clauses, the hash does not change if clauses and literals are reordered or literals are renamed.  Missing:
    problems with unit clauses, for which this is false. *)
Theorem C44_invariant_partial : forall cs ds (r : lit -> lit), let F := problem (readClauses cnf_empty cs) in let G := problem (readClauses cnf_empty ds) in
  (forall a b, r a = r b -> a = b) -> (forall l, ~ In [l] F) -> (forall l, ~ In [l] G) -> (N.of_nat (length (concat F)) < 4294967296)%N ->
  Permutation (concat G) (map r (concat F)) ->
  degree_hash (readClauses cnf_empty ds) = degree_hash (readClauses cnf_empty cs).
Proof. exact degree_invariant_read. Qed.
Print Assumptions C44_invariant_partial.

(** C44: with unit clauses, the hash depends on the order of the clauses. *)
Theorem C44_order_refuted : exists cs ds h k, Permutation cs ds /\ degree_hash (readClauses cnf_empty cs) = Ok h /\
  degree_hash (readClauses cnf_empty ds) = Ok k /\ h <> k.
Proof. exact degree_order. Qed.
Print Assumptions C44_order_refuted.

Example C44_case : let cs := [[0; 2; 5]; [1; 2]; [3; 5]] in
  (forall l, ~ In [l] (problem (readClauses cnf_empty cs))) /\ degree_hash (readClauses cnf_empty cs) = Ok (hex (MD5 [49; 32; 49; 32; 49; 32; 50; 32; 50])).
Proof. exact degree_case. Qed.
