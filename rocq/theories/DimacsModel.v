(** Model of the text input and output: StreamBuffer (src/candy/utils/StreamBuffer.{h,cc}), readDimacs and printDIMACS
    (src/candy/core/CNFProblem.cc:36-88), the proof file loop of DRATChecker.cc:77-103.

    Bytes are numbers 0..255; the locale is "C"; int has 32, long has 64 bits.  gzread is modelled as returning the next
    bytes of the (decompressed) file, fewer than requested only at its end; read errors are not modelled. *)
Require Import List Arith Bool ZArith NArith.
Require Import Verif.Base Verif.CNFModel.
Import ListNotations.

(** Outcomes: a value, an exception, undefined behaviour, loop bound of the model exhausted. *)
Inductive pres (A : Type) := POk (a : A) | PThrow | PUB | PFuel.
Arguments POk {A}. Arguments PThrow {A}. Arguments PUB {A}. Arguments PFuel {A}.
Definition pbind {A B} (m : pres A) (f : A -> pres B) : pres B :=
  match m with POk a => f a | PThrow => PThrow | PUB => PUB | PFuel => PFuel end.
Notation "x <~ m ;; k" := (pbind m (fun x => k)) (at level 61, m at next level, right associativity).
Notation "' p <~ m ;; k" := (pbind m (fun x => match x with p => k end)) (at level 61, p pattern, m at next level, right associativity).

Definition isspace (c : nat) : bool := ((9 <=? c) && (c <=? 13)) || (c =? 32).
Definition isblank (c : nat) : bool := (c =? 9) || (c =? 32).
Definition isdigit (c : nat) : bool := (48 <=? c) && (c <=? 57).

(** StreamBuffer.h:33: the size of the buffer.  The model is parametric in it. *)
Definition buffer_size : nat := N.to_nat 1048576.

(** StreamBuffer.h:36-39; [file] is what gzread has not returned yet, [buf] the whole array *)
Record sb := mkSb { file : list nat; buf : list nat; pos : nat; size : nat; off : nat }.

(** the loop of StreamBuffer.cc:91-93 on the reversed content: how many bytes follow the last newline.  Without a newline
    the loop reads buffer[-1]: [None]. *)
Fixpoint after_newline (l : list nat) : option nat :=
  match l with
  | [] => None
  | c :: r => if c =? 10 then Some 0 else option_map S (after_newline r)
  end.

(** StreamBuffer.h:68-70 *)
Definition eof (s : sb) : bool := size s - off s <=? pos s.

(** StreamBuffer.cc:79-95, check_refill_buffer *)
Definition refill (B : nat) (s : sb) : pres sb :=
  if eof s then
    let tail := firstn (off s) (skipn (size s - off s) (buf s)) in
    let data := firstn (B - off s) (file s) in
    let size1 := off s + length data in
    let buf1 := tail ++ data ++ skipn size1 (buf s) in
    let file1 := skipn (B - off s) (file s) in
    if size1 <? B then POk (mkSb file1 buf1 0 size1 0)
    else match after_newline (rev (firstn size1 buf1)) with
         | None => PUB
         | Some k => POk (mkSb file1 buf1 0 size1 k)
         end
  else POk s.

(** StreamBuffer.h:63-66 *)
Definition incPos (B n : nat) (s : sb) : pres sb := refill B (mkSb (file s) (buf s) (pos s + n) (size s) (off s)).

(** StreamBuffer.h:45-47; the new array has arbitrary content [junk] *)
Definition sb_new (B : nat) (junk text : list nat) : pres sb := refill B (mkSb text junk 0 0 0).

(** buffer[pos] *)
Definition cur (s : sb) : nat := nth (pos s) (buf s) 0.

(** StreamBuffer.cc:41-45 *)
Fixpoint skipWhitespace (B fuel : nat) (s : sb) : pres sb :=
  match fuel with
  | O => PFuel
  | S fuel => if negb (eof s) && isspace (cur s) then s1 <~ incPos B 1 s ;; skipWhitespace B fuel s1 else POk s
  end.
(** StreamBuffer.cc:33-38 *)
Fixpoint skipRest (B fuel : nat) (s : sb) : pres sb :=
  match fuel with
  | O => PFuel
  | S fuel => if negb (eof s) && (negb (isspace (cur s)) || isblank (cur s)) then s1 <~ incPos B 1 s ;; skipRest B fuel s1 else POk s
  end.
Definition skipLine (B fuel : nat) (s : sb) : pres sb := s1 <~ skipRest B fuel s ;; skipWhitespace B fuel s1.
(** StreamBuffer.cc:48-54 *)
Fixpoint skipString (B : nat) (str : list nat) (s : sb) : pres sb :=
  match str with
  | [] => POk s
  | c :: r => if negb (c =? cur s) || eof s then PThrow else s1 <~ incPos B 1 s ;; skipString B r s1
  end.

(** strtol(str, &end, 10) of the C library: value and number of characters; [None] if it would read behind the array *)
Fixpoint digits (l : list nat) (acc : Z) (k : nat) : option (Z * nat) :=
  match l with
  | [] => None
  | c :: r => if isdigit c then digits r (acc * 10 + (Z.of_nat c - 48)) (S k) else Some (acc, k)
  end.
Definition signed (l : list nat) : option (Z * nat) :=
  match l with
  | [] => None
  | c :: r =>
    let neg := c =? 45 in
    let sgn := neg || (c =? 43) in
    match digits (if sgn then r else l) 0 0 with
    | None => None
    | Some (n, 0) => Some (0%Z, 0)
    | Some (n, k) => Some ((if neg then - n else n)%Z, if sgn then S k else k)
    end
  end.
Fixpoint strtol (l : list nat) : option (Z * nat) :=
  match l with
  | [] => None
  | c :: r => if isspace c then match strtol r with None => None | Some (n, 0) => Some (n, 0) | Some (n, k) => Some (n, S k) end
              else signed l
  end.

(** StreamBuffer.cc:56-77; 2*abs(number) is computed with type long, so it overflows from 2^62 on; a number without digits
    reaches the end of the function without a return statement *)
Definition readInteger (B : nat) (s : sb) : pres (Z * sb) :=
  if eof s then PThrow
  else match strtol (skipn (pos s) (buf s)) with
       | None => PUB
       | Some (n, k) =>
         if (n <? - 2 ^ 63)%Z || (2 ^ 63 - 1 <? n)%Z then PThrow
         else if (2 ^ 62 <=? Z.abs n)%Z then PUB
         else if (2 ^ 32 - 1 <=? 2 * Z.abs n)%Z then PThrow
         else if k =? 0 then PUB
         else s1 <~ incPos B k s ;; POk (n, s1)
       end.

(** Lit(abs(plit)-1, plit < 0) (SolverTypes.h:104-106): v.id + v.id overflows from 2^30 on *)
Definition lit_of (n : Z) : pres lit :=
  if (Z.abs n <=? 2 ^ 30)%Z then POk (mkLit (Z.to_nat (Z.abs n - 1)) (n <? 0)%Z) else PUB.

(** CNFProblem.cc:82-84: the literals up to 0 *)
Fixpoint read_lits (B fuel : nat) (s : sb) (acc : list lit) : pres (list lit * sb) :=
  match fuel with
  | O => PFuel
  | S fuel =>
    '(n, s1) <~ readInteger B s ;;
    if (n =? 0)%Z then POk (acc, s1) else l <~ lit_of n ;; read_lits B fuel s1 (acc ++ [l])
  end.

(** CNFProblem.cc:64-88 *)
Definition pcnf : list nat := [112; 32; 99; 110; 102].
Fixpoint dimacs_loop (B F fuel : nat) (s : sb) (p : cnf) : pres cnf :=
  match fuel with
  | O => PFuel
  | S fuel =>
    if eof s then POk p
    else
      s <~ skipWhitespace B F s ;;
      if eof s then POk p
      else if cur s =? 112 then
        s <~ skipString B pcnf s ;;
        '(v, s) <~ readInteger B s ;;
        '(c, s) <~ readInteger B s ;;
        if (v <? 0)%Z || (c <? 0)%Z then PThrow else dimacs_loop B F fuel s p
      else if cur s =? 99 then s <~ skipLine B F s ;; dimacs_loop B F fuel s p
      else
        '(ls, s) <~ read_lits B F s [] ;; dimacs_loop B F fuel s (readClause p ls)
  end.
(** readDimacs for a file with content [text]; [F] bounds every loop of the model *)
Definition readDimacs (B : nat) (junk text : list nat) (p : cnf) : pres cnf :=
  let F := 3 * length text + 3 in
  s <~ sb_new B junk text ;; dimacs_loop B F F s p.

(** decimal output of a number (printf %zu, std::ostream << int) *)
Fixpoint dec_from (fuel : nat) (n : N) (acc : list nat) : list nat :=
  match fuel with
  | O => acc
  | S fuel => let d := 48 + N.to_nat (n mod 10) in
              if (n <? 10)%N then d :: acc else dec_from fuel (n / 10) (d :: acc)
  end.
Definition dec (n : N) : list nat := dec_from (S (N.to_nat (N.log2 n))) n [].
(** SolverTypes.h:200-209: Lit and Var *)
Definition print_lit (l : lit) : list nat := (if lsign l then [45] else []) ++ dec (N.of_nat (lvar l) + 1).
(** SolverTypes.h:216-221, CNFProblem.cc:39 *)
Definition print_clause (c : clause) : list nat := concat (map (fun l => print_lit l ++ [32]) c) ++ [48; 10].
(** CNFProblem.cc:36-41 *)
Definition printDIMACS (p : cnf) : list nat :=
  pcnf ++ [32] ++ dec (N.of_nat (variables p)) ++ [32] ++ dec (N.of_nat (length (problem p))) ++ [10] ++ concat (map print_clause (problem p)).
