(** Problem hashes: gbd/hash.cpp and the MD5 implementation in gbd/md5. *)
Require Import List Arith Bool NArith ZArith.
Require Import Verif.Base Verif.Outcome Verif.DimacsModel Verif.CNFModel.
Import ListNotations.

(** ** unsigned int arithmetic *)
Definition w32 (x : N) : N := (x mod 4294967296)%N.
Definition add32 (a b : N) : N := w32 (a + b).
Definition not32 (x : N) : N := N.lxor x 0xffffffff.
(** md5_loc.h:53-55 *)
Definition cyclic_left_rotate (data shift_bits : N) : N :=
  N.lor (w32 (N.shiftl data shift_bits)) (N.shiftr data (32 - shift_bits)).

(** md5_loc.h:31-40 *)
Definition T : list N :=
 [0xd76aa478; 0xe8c7b756; 0x242070db; 0xc1bdceee; 0xf57c0faf; 0x4787c62a; 0xa8304613; 0xfd469501;
  0x698098d8; 0x8b44f7af; 0xffff5bb1; 0x895cd7be; 0x6b901122; 0xfd987193; 0xa679438e; 0x49b40821;
  0xf61e2562; 0xc040b340; 0x265e5a51; 0xe9b6c7aa; 0xd62f105d; 0x02441453; 0xd8a1e681; 0xe7d3fbc8;
  0x21e1cde6; 0xc33707d6; 0xf4d50d87; 0x455a14ed; 0xa9e3e905; 0xfcefa3f8; 0x676f02d9; 0x8d2a4c8a;
  0xfffa3942; 0x8771f681; 0x6d9d6122; 0xfde5380c; 0xa4beea44; 0x4bdecfa9; 0xf6bb4b60; 0xbebfbc70;
  0x289b7ec6; 0xeaa127fa; 0xd4ef3085; 0x04881d05; 0xd9d4d039; 0xe6db99e5; 0x1fa27cf8; 0xc4ac5665;
  0xf4292244; 0x432aff97; 0xab9423a7; 0xfc93a039; 0x655b59c3; 0x8f0ccc92; 0xffeff47d; 0x85845dd1;
  0x6fa87e4f; 0xfe2ce6e0; 0xa3014314; 0x4e0811a1; 0xf7537e82; 0xbd3af235; 0x2ad7d2bb; 0xeb86d391]%N.
(** md5_loc.h:45-48 *)
Definition S1 : list N := [7; 12; 17; 22]%N.
Definition S2 : list N := [5; 9; 14; 20]%N.
Definition S3 : list N := [4; 11; 16; 23]%N.
Definition S4 : list N := [6; 10; 15; 21]%N.
(** md5_loc.h:57-60 *)
Definition F (x y z : N) : N := N.lor (N.land x y) (N.land (not32 x) z).
Definition G (x y z : N) : N := N.lor (N.land x z) (N.land y (not32 z)).
Definition H (x y z : N) : N := N.lxor (N.lxor x y) z.
Definition I (x y z : N) : N := N.lxor y (N.lor x (not32 z)).
(** md5_loc.h:62-115 FF, GG, HH, II: the new value of [a] *)
Definition FF (a b c d Xk : N) (s i : nat) : N := add32 (cyclic_left_rotate (add32 a (add32 (add32 (F b c d) Xk) (nth i T 0%N))) (nth s S1 0%N)) b.
Definition GG (a b c d Xk : N) (s i : nat) : N := add32 (cyclic_left_rotate (add32 a (add32 (add32 (G b c d) Xk) (nth i T 0%N))) (nth s S2 0%N)) b.
Definition HH (a b c d Xk : N) (s i : nat) : N := add32 (cyclic_left_rotate (add32 a (add32 (add32 (H b c d) Xk) (nth i T 0%N))) (nth s S3 0%N)) b.
Definition II (a b c d Xk : N) (s i : nat) : N := add32 (cyclic_left_rotate (add32 a (add32 (add32 (I b c d) Xk) (nth i T 0%N))) (nth s S4 0%N)) b.

(** md5.cpp:334-349 *)
Definition round1 (X : nat -> N) (q : N * N * N * N) : N * N * N * N :=
  let '(A, B, C, D) := q in
  let A := FF A B C D (X 0) 0 0 in
  let D := FF D A B C (X 1) 1 1 in
  let C := FF C D A B (X 2) 2 2 in
  let B := FF B C D A (X 3) 3 3 in
  let A := FF A B C D (X 4) 0 4 in
  let D := FF D A B C (X 5) 1 5 in
  let C := FF C D A B (X 6) 2 6 in
  let B := FF B C D A (X 7) 3 7 in
  let A := FF A B C D (X 8) 0 8 in
  let D := FF D A B C (X 9) 1 9 in
  let C := FF C D A B (X 10) 2 10 in
  let B := FF B C D A (X 11) 3 11 in
  let A := FF A B C D (X 12) 0 12 in
  let D := FF D A B C (X 13) 1 13 in
  let C := FF C D A B (X 14) 2 14 in
  let B := FF B C D A (X 15) 3 15 in
  (A, B, C, D).
(** md5.cpp:360-375 *)
Definition round2 (X : nat -> N) (q : N * N * N * N) : N * N * N * N :=
  let '(A, B, C, D) := q in
  let A := GG A B C D (X 1) 0 16 in
  let D := GG D A B C (X 6) 1 17 in
  let C := GG C D A B (X 11) 2 18 in
  let B := GG B C D A (X 0) 3 19 in
  let A := GG A B C D (X 5) 0 20 in
  let D := GG D A B C (X 10) 1 21 in
  let C := GG C D A B (X 15) 2 22 in
  let B := GG B C D A (X 4) 3 23 in
  let A := GG A B C D (X 9) 0 24 in
  let D := GG D A B C (X 14) 1 25 in
  let C := GG C D A B (X 3) 2 26 in
  let B := GG B C D A (X 8) 3 27 in
  let A := GG A B C D (X 13) 0 28 in
  let D := GG D A B C (X 2) 1 29 in
  let C := GG C D A B (X 7) 2 30 in
  let B := GG B C D A (X 12) 3 31 in
  (A, B, C, D).
(** md5.cpp:386-401 *)
Definition round3 (X : nat -> N) (q : N * N * N * N) : N * N * N * N :=
  let '(A, B, C, D) := q in
  let A := HH A B C D (X 5) 0 32 in
  let D := HH D A B C (X 8) 1 33 in
  let C := HH C D A B (X 11) 2 34 in
  let B := HH B C D A (X 14) 3 35 in
  let A := HH A B C D (X 1) 0 36 in
  let D := HH D A B C (X 4) 1 37 in
  let C := HH C D A B (X 7) 2 38 in
  let B := HH B C D A (X 10) 3 39 in
  let A := HH A B C D (X 13) 0 40 in
  let D := HH D A B C (X 0) 1 41 in
  let C := HH C D A B (X 3) 2 42 in
  let B := HH B C D A (X 6) 3 43 in
  let A := HH A B C D (X 9) 0 44 in
  let D := HH D A B C (X 12) 1 45 in
  let C := HH C D A B (X 15) 2 46 in
  let B := HH B C D A (X 2) 3 47 in
  (A, B, C, D).
(** md5.cpp:412-427 *)
Definition round4 (X : nat -> N) (q : N * N * N * N) : N * N * N * N :=
  let '(A, B, C, D) := q in
  let A := II A B C D (X 0) 0 48 in
  let D := II D A B C (X 7) 1 49 in
  let C := II C D A B (X 14) 2 50 in
  let B := II B C D A (X 5) 3 51 in
  let A := II A B C D (X 12) 0 52 in
  let D := II D A B C (X 3) 1 53 in
  let C := II C D A B (X 10) 2 54 in
  let B := II B C D A (X 1) 3 55 in
  let A := II A B C D (X 8) 0 56 in
  let D := II D A B C (X 15) 1 57 in
  let C := II C D A B (X 6) 2 58 in
  let B := II B C D A (X 13) 3 59 in
  let A := II A B C D (X 4) 0 60 in
  let D := II D A B C (X 11) 1 61 in
  let C := II C D A B (X 2) 2 62 in
  let B := II B C D A (X 9) 3 63 in
  (A, B, C, D).

(** md5.h:147-159; [stored] is the used part of the buffer of 128 bytes, bytes are numbers below 256.  [regs] is A, B, C, D. *)
Record md5_t := mkMd5 { regs : N * N * N * N; len0 : N; len1 : N; stored : list nat; finished : bool }.
Definition BLOCK_SIZE : nat := 64.
(** md5.cpp:268-285 *)
Definition initialise : md5_t := mkMd5 (0x67452301, 0xefcdab89, 0x98badcfe, 0x10325476)%N 0 0 [] false.

(** memcpy of an unsigned int from and to memory; little endian (md5_loc.h:18) *)
Definition byte_at (b : list nat) (i : nat) : N := N.of_nat (nth i b 0).
Definition from_le (b : list nat) (i : nat) : N :=
  (byte_at b i + 256 * (byte_at b (i + 1) + 256 * (byte_at b (i + 2) + 256 * byte_at b (i + 3))))%N.
Definition to_le (w : N) : list nat :=
  [N.to_nat (w mod 256); N.to_nat ((w / 256) mod 256); N.to_nat ((w / 65536) mod 256); N.to_nat ((w / 16777216) mod 256)].

(** md5.cpp:304-436 *)
Definition add_length (n : N) (st : md5_t) : md5_t :=
  mkMd5 (regs st) (add32 (len0 st) n) (if (add32 (len0 st) n <? len0 st)%N then add32 (len1 st) 1 else len1 st) (stored st) (finished st).
Definition process_block (block : list nat) (st0 : md5_t) : md5_t :=
  let st := add_length 64 st0 in
  let X := fun i => from_le block (4 * i) in
  let '(AA, BB, CC, DD) := regs st in
  let '(A, B, C, D) := round4 X (round3 X (round2 X (round1 X (regs st)))) in
  mkMd5 (add32 A AA, add32 B BB, add32 C CC, add32 D DD) (len0 st) (len1 st) (stored st) (finished st).

(** md5.cpp:84-123 process.  The length is an unsigned int: inputs of 2^32 - 128 bytes and more, for which the sums in this function
    wrap around, are a separate outcome. *)
Fixpoint process_loop (fuel : nat) (input : list nat) (processed : nat) (st : md5_t) : out (nat * md5_t) :=
  if processed + BLOCK_SIZE <=? length input then
    match fuel with
    | 0 => Err Fuel
    | S f => process_loop f input (processed + BLOCK_SIZE) (process_block (firstn BLOCK_SIZE (skipn processed input)) st)
    end
  else Ok (processed, st).
Definition set_stored (s : list nat) (st : md5_t) : md5_t := mkMd5 (regs st) (len0 st) (len1 st) s (finished st).
Definition process (input : list nat) (st : md5_t) : out md5_t :=
  if finished st then Ok st else
  if (4294967168 <=? N.of_nat (length input))%N then Err TooLong else
  let n := length (stored st) in
  let '(processed, st1) :=
    if negb (n =? 0) && (BLOCK_SIZE <=? length input + n)
    then (BLOCK_SIZE - n, process_block (stored st ++ firstn (BLOCK_SIZE - n) input) (set_stored [] st))
    else (0, st) in
  '(processed, st2) <- process_loop (length input) input processed st1 ;;
  if negb (processed =? length input) then
    if length (stored st2) + (length input - processed) <=? 2 * BLOCK_SIZE
    then Ok (set_stored (stored st2 ++ skipn processed input) st2) else Err UB
  else Ok (set_stored [] st2).

(** a sequence of calls of process (md5.cpp:17-20) *)
Fixpoint process_all (cs : list (list nat)) (st : md5_t) : out md5_t :=
  match cs with [] => Ok st | c :: r => st1 <- process c st ;; process_all r st1 end.

(** md5.cpp:454-459 *)
Definition get_result (st : md5_t) : list nat := let '(A, B, C, D) := regs st in to_le A ++ to_le B ++ to_le C ++ to_le D.
(** md5.cpp:143-200 finish; the signature, unless the object is finished already *)
Definition finish (st : md5_t) : out (option (list nat) * md5_t) :=
  if finished st then Ok (None, st) else
  let st1 := add_length (N.of_nat (length (stored st))) st in
  let pad0 := (64 - 8 - Z.of_nat (length (stored st)))%Z in
  let pad := if (pad0 <=? 0)%Z then (pad0 + 64)%Z else pad0 in
  let s1 := if (0 <? pad)%Z then stored st ++ 128 :: repeat 0 (Z.to_nat (pad - 1)) else stored st in
  let size_low := w32 (N.shiftl (N.land (len0 st1) 0x1fffffff) 3) in
  let size_high := N.lor (w32 (N.shiftl (len1 st1) 3)) (N.shiftr (N.land (len0 st1) 0xe0000000) 29) in
  let s2 := s1 ++ to_le size_low ++ to_le size_high in
  if 2 * BLOCK_SIZE <? length s2 then Err UB else
  let st2 := process_block (firstn BLOCK_SIZE s2) (set_stored s2 st1) in
  let st3 := if BLOCK_SIZE <? length s2 then process_block (skipn BLOCK_SIZE s2) st2 else st2 in
  Ok (Some (get_result st3), mkMd5 (regs st3) (len0 st3) (len1 st3) (stored st3) true).

(** md5_loc.h:137 and md5.cpp:484-507 sig_to_string: [room] is max_p - str_p.  A missing terminating zero is undefined behaviour at
    the use of the string. *)
Definition HEX_STRING : list nat := [48; 49; 50; 51; 52; 53; 54; 55; 56; 57; 97; 98; 99; 100; 101; 102].
Fixpoint sig_to_string (sig : list nat) (room : nat) : out (list nat) :=
  match sig with
  | [] => if 0 <? room then Ok [] else Err UB
  | b :: r => if room <=? 1 then (if 0 <? room then Ok [] else Err UB)
              else s <- sig_to_string r (room - 2) ;; Ok (nth (b / 16) HEX_STRING 0 :: nth (b mod 16) HEX_STRING 0 :: s)
  end.
Definition MD5_STRING_SIZE : nat := 33.
Definition digest_string (st : md5_t) : out (list nat) :=
  '(sig, _) <- finish st ;; match sig with Some s => sig_to_string s MD5_STRING_SIZE | None => Err UB end.

(** hash.cpp:9-29; literals are printed as the numbers that represent them *)
Definition lit_text (l : lit) : list nat := dec (N.of_nat l) ++ [32].
Fixpoint gbd_loop (cs : list clause) (s : list nat) (st : md5_t) : out md5_t :=
  match cs with
  | [] => Ok st
  | c :: r => st1 <- process ((s ++ concat (map lit_text c)) ++ [48]) st ;; gbd_loop r [32] st1
  end.
Definition gbd_hash (p : cnf) : out (list nat) := st <- gbd_loop (problem p) [] initialise ;; digest_string st.

(** hash.cpp:31-75.  Degrees are unsigned; occurrence lists and degrees are indexed by literals below 2 * nVars. *)
Definition get {A} (l : list A) (i : nat) : out A := match nth_error l i with Some x => Ok x | None => Err UB end.
Definition put {A} (l : list A) (i : nat) (x : A) : out (list A) := if i <? length l then Ok (set_nth i x l) else Err UB.
Fixpoint occur_lits (c : clause) (ls : list lit) (occ : list (list clause)) : out (list (list clause)) :=
  match ls with
  | [] => Ok occ
  | l :: r => o <- get occ l ;; occ1 <- put occ l (o ++ [c]) ;; occur_lits c r occ1
  end.
Fixpoint occur_clauses (cs : list clause) (occ : list (list clause)) : out (list (list clause)) :=
  match cs with [] => Ok occ | c :: r => occ1 <- occur_lits c c occ ;; occur_clauses r occ1 end.
Definition dec32 (x : N) : N := w32 (x + 4294967295).
Fixpoint drop_lits (ls : list lit) (deg : list N) : out (list N) :=
  match ls with [] => Ok deg | l :: r => d <- get deg l ;; deg1 <- put deg l (dec32 d) ;; drop_lits r deg1 end.
Fixpoint drop_clauses (cs : list clause) (deg : list N) : out (list N) :=
  match cs with [] => Ok deg | c :: r => deg1 <- drop_lits c deg ;; drop_clauses r deg1 end.
Fixpoint drop_facts (fs : list lit) (occ : list (list clause)) (deg : list N) : out (list N) :=
  match fs with
  | [] => Ok deg
  | l :: r => cs <- get occ l ;; deg1 <- drop_clauses cs deg ;; deg2 <- put deg1 (lneg l) 0%N ;; drop_facts r occ deg2
  end.
Fixpoint insert_degree (x : N) (l : list N) : list N :=
  match l with [] => [x] | y :: r => if (x <=? y)%N then x :: l else y :: insert_degree x r end.
Definition sort_degrees (l : list N) : list N := fold_right insert_degree [] l.
Fixpoint degree_loop (ds : list N) (s : list nat) (st : md5_t) : out md5_t :=
  match ds with
  | [] => Ok st
  | d :: r => if (0 <? d)%N then st1 <- process (s ++ dec d) st ;; degree_loop r [32] st1 else degree_loop r s st
  end.
Definition facts_of (cs : list clause) : list lit := flat_map (fun c => match c with [l] => [l] | _ => [] end) cs.
Definition degrees (p : cnf) : out (list N) :=
  occ <- occur_clauses (problem p) (repeat [] (2 * variables p)) ;;
  drop_facts (facts_of (problem p)) occ (map (fun o => w32 (N.of_nat (length o))) occ).
Definition degree_hash (p : cnf) : out (list nat) :=
  deg <- degrees p ;; st <- degree_loop (sort_degrees deg) [] initialise ;; digest_string st.
