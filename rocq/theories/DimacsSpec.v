(** The DIMACS format as a grammar on bytes. *)
Require Import List Arith ZArith.
Require Import Verif.Base Verif.CNFModel.
Import ListNotations.

Definition white (c : nat) : Prop := c = 9 \/ c = 10 \/ c = 11 \/ c = 12 \/ c = 13 \/ c = 32.
(** bytes that end a comment: newline, vertical tab, form feed, carriage return *)
Definition line_end (c : nat) : Prop := c = 10 \/ c = 11 \/ c = 12 \/ c = 13.
(** whitespace between the numbers of a clause; newlines only if [ml] *)
Definition separator (ml : bool) (c : nat) : Prop := white c /\ (c = 10 -> ml = true).

(** an optional sign and decimal digits *)
Definition digit (c : nat) : Prop := 48 <= c <= 57.
Definition decimal (ds : list nat) : Z := fold_left (fun a c => (a * 10 + (Z.of_nat c - 48))%Z) ds 0%Z.
Inductive number : Z -> list nat -> Prop :=
| n_plain ds : ds <> [] -> Forall digit ds -> number (decimal ds) ds
| n_plus ds : ds <> [] -> Forall digit ds -> number (decimal ds) (43 :: ds)
| n_minus ds : ds <> [] -> Forall digit ds -> number (- decimal ds) (45 :: ds).

(** numbers of variables that fit the encoding of literals, separated by whitespace and ended by 0 *)
Inductive clause_text (ml : bool) : list nat -> list Z -> Prop :=
| ct_zero n : number 0 n -> clause_text ml n []
| ct_lit z n w t zs : number z n -> z <> 0%Z -> (Z.abs z <= 2 ^ 30)%Z -> w <> [] -> Forall (separator ml) w ->
    clause_text ml t zs -> clause_text ml (n ++ w ++ t) (z :: zs).

Inductive dimacs (ml : bool) : list nat -> list (list Z) -> Prop :=
| dm_nil : dimacs ml [] []
| dm_white c t cs : white c -> dimacs ml t cs -> dimacs ml (c :: t) cs
| dm_comment body e t cs : (forall c, In c body -> ~ line_end c) -> line_end e -> dimacs ml t cs ->
    dimacs ml (99 :: body ++ e :: t) cs
| dm_header w1 z1 n1 w2 z2 n2 c t cs : Forall (separator ml) w1 -> number z1 n1 -> (0 <= z1 < 2 ^ 31)%Z ->
    w2 <> [] -> Forall (separator ml) w2 -> number z2 n2 -> (0 <= z2 < 2 ^ 31)%Z -> white c -> dimacs ml t cs ->
    dimacs ml ([112; 32; 99; 110; 102] ++ w1 ++ n1 ++ w2 ++ n2 ++ c :: t) cs
| dm_clause ct zs c t cs : clause_text ml ct zs -> white c -> dimacs ml t cs -> dimacs ml (ct ++ c :: t) (zs :: cs).

(** every stretch of [B] bytes contains a newline *)
Definition lines_fit (B : nat) (text : list nat) : Prop :=
  forall a b, text = a ++ b -> B <= length b -> In 10 (firstn B b).

(** the literal a number denotes *)
Definition zlit (z : Z) : lit := mkLit (Z.to_nat (Z.abs z - 1)) (Z.ltb z 0).
(** nVars() is one more than the largest variable of a stored clause, or 0 *)
Definition tight (p : cnf) : Prop :=
  variables p = 0 \/ exists c l, In c (problem p) /\ In l c /\ variables p = S (lvar l).

(** the beginning of a clause: literals, each followed by whitespace *)
Inductive lits_text (ml : bool) : list nat -> Prop :=
| lt_nil : lits_text ml []
| lt_cons z n w t : number z n -> z <> 0%Z -> (Z.abs z <= 2 ^ 30)%Z -> w <> [] -> Forall (separator ml) w ->
    lits_text ml t -> lits_text ml (n ++ w ++ t).
