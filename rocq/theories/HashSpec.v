(** The MD5 message digest after RFC 1321, and the text that is hashed. *)
Require Import List Arith Bool NArith.
Require Import Verif.Base Verif.DimacsModel.
Import ListNotations.

(** ** RFC 1321.  Words are numbers below 2^32, bytes are numbers below 256. *)
Definition word (x : N) : N := (x mod 2 ^ 32)%N.
Definition complement (x : N) : N := N.lxor x (2 ^ 32 - 1).
(** circular left shift (section 2) *)
Definition rotate (x s : N) : N := (word (x * 2 ^ s) + x / 2 ^ (32 - s))%N.
(** auxiliary functions (section 3.4) *)
Definition aux (r : nat) (x y z : N) : N :=
  match r with
  | 0 => N.lor (N.land x y) (N.land (complement x) z)
  | 1 => N.lor (N.land x z) (N.land y (complement z))
  | 2 => N.lxor (N.lxor x y) z
  | _ => N.lxor y (N.lor x (complement z))
  end.
(** the table T[i] = floor(4294967296 * abs(sin(i))), from i = 1 *)
Definition sines : list N :=
 [0xd76aa478; 0xe8c7b756; 0x242070db; 0xc1bdceee; 0xf57c0faf; 0x4787c62a; 0xa8304613; 0xfd469501;
  0x698098d8; 0x8b44f7af; 0xffff5bb1; 0x895cd7be; 0x6b901122; 0xfd987193; 0xa679438e; 0x49b40821;
  0xf61e2562; 0xc040b340; 0x265e5a51; 0xe9b6c7aa; 0xd62f105d; 0x02441453; 0xd8a1e681; 0xe7d3fbc8;
  0x21e1cde6; 0xc33707d6; 0xf4d50d87; 0x455a14ed; 0xa9e3e905; 0xfcefa3f8; 0x676f02d9; 0x8d2a4c8a;
  0xfffa3942; 0x8771f681; 0x6d9d6122; 0xfde5380c; 0xa4beea44; 0x4bdecfa9; 0xf6bb4b60; 0xbebfbc70;
  0x289b7ec6; 0xeaa127fa; 0xd4ef3085; 0x04881d05; 0xd9d4d039; 0xe6db99e5; 0x1fa27cf8; 0xc4ac5665;
  0xf4292244; 0x432aff97; 0xab9423a7; 0xfc93a039; 0x655b59c3; 0x8f0ccc92; 0xffeff47d; 0x85845dd1;
  0x6fa87e4f; 0xfe2ce6e0; 0xa3014314; 0x4e0811a1; 0xf7537e82; 0xbd3af235; 0x2ad7d2bb; 0xeb86d391]%N.
(** operation i of a block, from i = 0: its word of the block, its shift *)
Definition word_of (i : nat) : nat :=
  match i / 16 with 0 => i | 1 => (1 + 5 * i) mod 16 | 2 => (5 + 3 * i) mod 16 | _ => (7 * i) mod 16 end.
Definition shift_of (i : nat) : N :=
  nth (i mod 4) (match i / 16 with 0 => [7; 12; 17; 22]%N | 1 => [5; 9; 14; 20]%N | 2 => [4; 11; 16; 23]%N | _ => [6; 10; 15; 21]%N end) 0%N.
(** a = b + ((a + f(b,c,d) + X[k] + T[i]) <<< s), then the registers change roles *)
Definition operation (X : nat -> N) (q : N * N * N * N) (i : nat) : N * N * N * N :=
  let '(a, b, c, d) := q in
  (d, word (b + rotate (word (a + aux (i / 16) b c d + X (word_of i) + nth i sines 0%N)) (shift_of i)), b, c).
Definition block_word (block : list nat) (k : nat) : N :=
  fold_right (fun b n => N.of_nat b + 256 * n)%N 0%N (firstn 4 (skipn (4 * k) block)).
Definition compress (q : N * N * N * N) (block : list nat) : N * N * N * N :=
  let '(a, b, c, d) := fold_left (operation (block_word block)) (seq 0 64) q in
  let '(aa, bb, cc, dd) := q in (word (a + aa), word (b + bb), word (c + cc), word (d + dd)).
(** low order byte first *)
Definition bytes_of (w : N) : list nat := map (fun i => N.to_nat ((w / 256 ^ i) mod 256)) [0; 1; 2; 3]%N.
(** sections 3.1, 3.2: a one bit, zero bits up to 448 modulo 512, the number of bits in 64 bits, low order word first *)
Definition padded (m : list nat) : list nat :=
  let bits := (8 * N.of_nat (length m))%N in
  m ++ 128 :: repeat 0 ((119 - length m mod 64) mod 64) ++ bytes_of (word bits) ++ bytes_of (word (bits / 2 ^ 32)).
Definition blocks (m : list nat) (n : nat) : list (list nat) := map (fun i => firstn 64 (skipn (64 * i) m)) (seq 0 n).
Definition MD5 (m : list nat) : list nat :=
  let '(a, b, c, d) := fold_left compress (blocks (padded m) (length (padded m) / 64)) (0x67452301, 0xefcdab89, 0x98badcfe, 0x10325476)%N in
  bytes_of a ++ bytes_of b ++ bytes_of c ++ bytes_of d.
Definition hex_digit (n : nat) : nat := if n <? 10 then 48 + n else 87 + n.
Definition hex (bs : list nat) : list nat := flat_map (fun b => [hex_digit (b / 16); hex_digit (b mod 16)]) bs.

(** ** the text of a problem: numbers separated by one blank, each clause followed by 0 *)
Fixpoint join (l : list (list nat)) : list nat :=
  match l with [] => [] | [x] => x | x :: r => x ++ 32 :: join r end.
Definition tokens (F : list clause) : list (list nat) := flat_map (fun c => map (fun l => dec (N.of_nat l)) c ++ [[48]]) F.
Definition problem_text (F : list clause) : list nat := join (tokens F).
(** the text of the same clauses in DIMACS *)
Definition dimacs_text (F : list clause) : list nat := join (flat_map (fun c => map print_lit c ++ [[48]]) F).
(** number of occurrences of a literal *)
Definition occurrences (F : list clause) (l : lit) : N := N.of_nat (count_occ Nat.eq_dec (concat F) l).
