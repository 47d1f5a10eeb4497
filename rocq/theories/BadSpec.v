(** Texts that are no problem in the DIMACS format and that the parser recognises as such. *)
Require Import List Arith ZArith Bool.
Require Import Verif.DimacsModel Verif.DimacsSpec.
Import ListNotations.

(** after a text of the format ... *)
Inductive malformed (ml : bool) : list nat -> Prop :=
(** ... there is a line that begins with p but not with "p cnf" *)
| bad_header t cs r : dimacs ml t cs -> (forall q, 112 :: r <> [112; 32; 99; 110; 102] ++ q) -> malformed ml (t ++ 112 :: r)
(** ... there is a header with a negative number *)
| bad_counts t cs w1 z1 n1 w2 z2 n2 c rest : dimacs ml t cs -> Forall (separator ml) w1 -> number z1 n1 -> (Z.abs z1 < 2 ^ 31)%Z ->
    w2 <> [] -> Forall (separator ml) w2 -> number z2 n2 -> (Z.abs z2 < 2 ^ 31)%Z -> white c -> (z1 < 0)%Z \/ (z2 < 0)%Z ->
    malformed ml (t ++ [112; 32; 99; 110; 102] ++ w1 ++ n1 ++ w2 ++ n2 ++ c :: rest)
(** ... there is a clause with a number that no int can hold (and whose double fits 64 bits, or that does not fit itself) *)
| bad_number t cs pre z n c rest : dimacs ml t cs -> lits_text ml pre -> number z n -> (2 ^ 31 <= Z.abs z)%Z -> white c ->
    (Z.abs z < 2 ^ 62)%Z \/ (2 ^ 63 <= z)%Z \/ (z < - 2 ^ 63)%Z -> malformed ml (t ++ pre ++ n ++ c :: rest).
(** the buffer of [B] bytes can hold its lines (C06) *)
Definition bad_input (B : nat) (junk text : list nat) : Prop :=
  0 < B /\ length junk = B /\ exists ml, malformed ml text /\ lines_fit B text /\ (ml = true -> length text < B).
