(** C05: print and parse; C06: parsing through the stream buffer. *)
Require Import List Arith Bool ZArith NArith Lia.
Require Import Verif.Base Verif.CNFModel Verif.DimacsModel Verif.DimacsSpec Verif.DimacsMore Verif.DimacsProofs.
Import ListNotations.

(** Parsing what printDIMACS prints gives back the same clauses, whatever bytes the fresh buffer contains, and the same
    problem if the number of variables is the largest one used.  Clauses have fewer than 65536 literals (C08). *)
Theorem C05_roundtrip junk cs : let p := readClauses cnf_empty cs in
  length junk = buffer_size -> (Z.of_nat (variables p) <= 2 ^ 30)%Z -> (Z.of_nat (length (problem p)) < 2 ^ 31)%Z ->
  (forall c, In c (problem p) -> N.of_nat (length c) < 65536)%N ->
  exists p', readDimacs buffer_size junk (printDIMACS p) cnf_empty = POk p' /\ problem p' = problem p /\ (tight p -> p' = p).
Proof. exact (roundtrip_thm junk cs). Qed.
Print Assumptions C05_roundtrip.
Definition ex_cs : list clause := [[4; 1; 4; 0 + 6]; [3; 2]; [9]; []; [2469; 20]].
Example C05_case : let p := readClauses cnf_empty ex_cs in
  problem p = [[1; 4; 6]; [9]; []; [20; 2469]] /\ (Z.of_nat (variables p) <= 2 ^ 30)%Z /\ (Z.of_nat (length (problem p)) < 2 ^ 31)%Z /\
  (forall c, In c (problem p) -> N.of_nat (length c) < 65536)%N /\ tight p /\
  readDimacs 24 (repeat 55 24) (printDIMACS p) cnf_empty = POk p.
Proof.
  cbn zeta. split; [vm_compute; reflexivity|]. split; [vm_compute; discriminate|]. split; [vm_compute; reflexivity|]. split.
  - intros c Hc. change (In c [[1; 4; 6]; [9]; []; [20; 2469]]) in Hc. cbn in Hc. destruct Hc as [<-|[<-|[<-|[<-|[]]]]]; reflexivity.
  - split; [right; exists [20; 2469], 2469; vm_compute; tauto|vm_compute; reflexivity].
Qed.

(** For every buffer size, every initial content of the buffer and every text of the DIMACS grammar in which each stretch
    of buffer length contains a newline, and in which newlines within a clause or header only occur if the file is shorter
    than the buffer, parsing adds exactly the listed clauses in order.
    Missing from the full statement: clauses that span lines in larger files, lines longer than the buffer and files
    without final whitespace; there it is false (see the refutations). *)
Theorem C06_exact_partial B ml junk text cs p : 0 < B -> length junk = B -> dimacs ml text cs -> lines_fit B text -> (ml = true -> length text < B) ->
  readDimacs B junk text p = POk (readClauses p (map (map zlit) cs)).
Proof. intros HB HJ HD HF HM. exact (readDimacs_ok B ml junk text cs p HB HJ HF HM HD). Qed.
Print Assumptions C06_exact_partial.

(** A number of a clause that no int can hold is rejected with an exception, except for values in [2^62, 2^63) and
    (-2^63 .. -2^62], whose doubling overflows. *)
Theorem C06_out_of_range_partial B ml junk t cs pre z n c rest p : 0 < B -> length junk = B -> dimacs ml t cs -> lits_text ml pre -> number z n ->
  (2 ^ 31 <= Z.abs z)%Z -> white c -> lines_fit B (t ++ pre ++ n ++ c :: rest) -> (ml = true -> length (t ++ pre ++ n ++ c :: rest) < B) ->
  ((Z.abs z < 2 ^ 62)%Z \/ (2 ^ 63 <= z)%Z \/ (z < - 2 ^ 63)%Z -> readDimacs B junk (t ++ pre ++ n ++ c :: rest) p = PThrow) /\
  ((2 ^ 62 <= Z.abs z)%Z -> (- 2 ^ 63 <= z < 2 ^ 63)%Z -> readDimacs B junk (t ++ pre ++ n ++ c :: rest) p = PUB).
Proof. exact (out_of_range_thm B ml junk t cs pre z n c rest p). Qed.
Print Assumptions C06_out_of_range_partial.

(** A header with a negative number of variables or clauses is rejected, wherever it occurs. *)
Theorem C06_negative_header_partial B ml junk t cs w1 z1 n1 w2 z2 n2 c rest p : 0 < B -> length junk = B -> dimacs ml t cs ->
  Forall (separator ml) w1 -> number z1 n1 -> (Z.abs z1 < 2 ^ 31)%Z -> w2 <> [] -> Forall (separator ml) w2 -> number z2 n2 -> (Z.abs z2 < 2 ^ 31)%Z ->
  white c -> (z1 < 0)%Z \/ (z2 < 0)%Z ->
  let text := t ++ [112; 32; 99; 110; 102] ++ w1 ++ n1 ++ w2 ++ n2 ++ c :: rest in
  lines_fit B text -> (ml = true -> length text < B) -> readDimacs B junk text p = PThrow.
Proof. exact (header_thm B ml junk t cs w1 z1 n1 w2 z2 n2 c rest p). Qed.
Print Assumptions C06_negative_header_partial.

(** A line that begins with p but not with "p cnf" is rejected. *)
Theorem C06_misspelled_header_partial B ml junk t cs r p : 0 < B -> length junk = B -> dimacs ml t cs ->
  (forall q, 112 :: r <> [112; 32; 99; 110; 102] ++ q) ->
  let text := t ++ 112 :: r in lines_fit B text -> (ml = true -> length text < B) -> readDimacs B junk text p = PThrow.
Proof. exact (misspelled_thm B ml junk t cs r p). Qed.
Print Assumptions C06_misspelled_header_partial.
(** "p cnf 3 -2" and "p dnf 3 2" *)
Example C06_header_case : number 3 [51] /\ number (-2) [45; 50] /\
  readDimacs 40 (repeat 57 40) [112; 32; 99; 110; 102; 32; 51; 32; 45; 50; 10] cnf_empty = PThrow /\
  readDimacs 40 (repeat 57 40) [112; 32; 100; 110; 102; 32; 51; 32; 50; 10] cnf_empty = PThrow /\
  forall q, [112; 32; 100; 110; 102; 32; 51; 32; 50; 10] <> [112; 32; 99; 110; 102] ++ q.
Proof. exact header_example. Qed.

Definition ex_text : list nat :=
  [99; 32; 104; 105; 10;  112; 32; 99; 110; 102; 32; 51; 32; 50; 10;  49; 32; 45; 51; 32; 48; 10;  43; 50; 9; 48; 13; 10].
Example C06_case : dimacs false ex_text [[1; -3]; [2]]%Z /\ lines_fit 10 ex_text /\
  readDimacs 10 (repeat 57 10) ex_text cnf_empty = POk (mkCnf [[0; 5]; [2]] 3).
Proof. exact example_thm. Qed.
(** "1 3000000000 0" is rejected *)
Example C06_range_case : lits_text false [49; 32] /\ number 3000000000 [51; 48; 48; 48; 48; 48; 48; 48; 48; 48] /\
  readDimacs 40 (repeat 57 40) [49; 32; 51; 48; 48; 48; 48; 48; 48; 48; 48; 48; 32; 48; 10] cnf_empty = PThrow.
Proof. exact range_example. Qed.

(** A well-formed file in which a clause continues on the line at the end of the buffer: "1 2", newline, "0 " and then the
    buffer ends; the final newline is read later.  The 0 is read twice, and the second one is an empty clause: a satisfiable
    formula becomes unsatisfiable.  For every buffer size from 11 on. *)
Theorem C06_boundary_refuted b junk : length junk = 11 + b -> exists text p,
  dimacs true text [[1; 2]%Z] /\ lines_fit (11 + b) text /\ readDimacs (11 + b) junk text cnf_empty = POk p /\ problem p = [[0; 2]; []].
Proof. exact (boundary_thm b junk). Qed.
Print Assumptions C06_boundary_refuted.

(** A line that fills the buffer makes the parser read before the beginning of the buffer. *)
Theorem C06_long_line_refuted B junk text p : 0 < B -> length junk = B -> B <= length text -> ~ In 10 (firstn B text) -> readDimacs B junk text p = PUB.
Proof. exact (long_line_thm B junk text p). Qed.
Print Assumptions C06_long_line_refuted.

(** The file "1 0" without a final newline: with one content of the fresh buffer it is read correctly, with another it is
    rejected. *)
Theorem C06_no_newline_refuted b junk1 junk2 j0 j1 j2 : length junk1 = b -> length junk2 = b ->
  (exists p, readDimacs (5 + b) (j0 :: j1 :: j2 :: 0 :: 0 :: junk1) [49; 32; 48] cnf_empty = POk p /\ problem p = [[0]]) /\
  readDimacs (5 + b) (j0 :: j1 :: j2 :: 53 :: 32 :: junk2) [49; 32; 48] cnf_empty = PThrow.
Proof. intros H1 H2. exact (conj (no_newline_ok b j0 j1 j2 junk1 H1) (no_newline_thm b j0 j1 j2 junk2 H2)). Qed.
Print Assumptions C06_no_newline_refuted.

(** A byte that begins no number, at the place of a literal: the code leaves readInteger without a return value, no
    exception is thrown. *)
Theorem C06_garbage_refuted B ml junk t cs pre c rest p : 0 < B -> length junk = B -> dimacs ml t cs -> lits_text ml pre ->
  ~ white c -> ~ digit c -> c <> 45 -> c <> 43 -> (pre = [] -> c <> 112 /\ c <> 99) ->
  lines_fit B (t ++ pre ++ c :: rest) -> (ml = true -> length (t ++ pre ++ c :: rest) < B) ->
  readDimacs B junk (t ++ pre ++ c :: rest) p = PUB.
Proof. exact (garbage_thm B ml junk t cs pre c rest p). Qed.
Print Assumptions C06_garbage_refuted.
(** the last lines of SATLIB files: "1 0", "%" *)
Example C06_garbage_case : readDimacs 40 (repeat 57 40) [49; 32; 48; 10; 37; 10; 48; 10] cnf_empty = PUB.
Proof. vm_compute. reflexivity. Qed.
