(** What a user relies on when running the program (C53). *)
Require Import List Arith ZArith String Ascii Bool.
Require Import Verif.Base Verif.OptModel Verif.OptSpec Verif.DimacsSpec Verif.MainModel.
Import ListNotations.
Open Scope list_scope.

(** ** The call *)
(** the program looks at the input that the command line asks for (C51 says when it does), and it finds the bytes [text] there *)
Definition gets (w : world) (args : list string) (text : list nat) : Prop :=
  main_input (w_garbage w) args (filter (fun a => negb (flag a)) args) = wanted args /\
  match wanted args with Stdin => w_stdin w = text | File f => w_files w f = Some text | NullName => False end.
(** the bytes are a problem in the DIMACS format with the clauses [cs], which the buffer of [B] bytes can hold (C06) *)
Definition states (B : nat) (junk text : list nat) (cs : list (list Z)) : Prop :=
  0 < B /\ List.length junk = B /\ exists ml, dimacs ml text cs /\ lines_fit B text /\ (ml = true -> List.length text < B).
Definition called_with (B : nat) (w : world) (args : list string) (cs : list (list Z)) : Prop :=
  exists text, gets w args text /\ states B (w_junk w 0) text cs.

(** the value of a switch: the last argument that sets it decides *)
Definition switch (args : list string) (n : string) (default : bool) : bool :=
  fold_left (fun b a => if String.eqb a ("-" ++ n) then true else if String.eqb a ("-no-" ++ n) then false else b) args default.
(** no argument sets the number [n] *)
Definition unset (args : list string) (n : string) : Prop := forall a text, In a args -> a <> ("-" ++ n ++ "=" ++ text)%string.

(** the modes of the program that are modelled *)
Definition plain_mode (args : list string) : Prop :=
  unset args "threads" /\ switch args "rsar-enable" false = false /\ switch args "static-propagate" false = false /\ switch args "rsil-enable" false = false /\
  switch args "use-vsidsc" false = false /\ switch args "gate-stats" false = false /\ switch args "minimize" false = false.

(** ** The answer *)
Definition clauses (cs : list (list Z)) : formula := map (map zlit) cs.
(** [n] is the number of the last variable that occurs *)
Definition last_variable (cs : list (list Z)) (n : nat) : Prop :=
  (forall c z, In c cs -> In z c -> (Z.abs z <= Z.of_nat n)%Z) /\ (n = 0 \/ exists c z, In c cs /\ In z c /\ Z.abs z = Z.of_nat n).
(** the line "v" with the numbers 1 to [n], negative for the variables that are false in [a], and 0 *)
Definition solution_line (n : nat) (a : assignment) (t : list nat) : Prop :=
  exists toks, t = bytes "v" ++ List.concat (map (fun tok => bytes " " ++ tok) toks) ++ bytes " 0" /\
  Forall2 (fun v tok => number (if a v then Z.of_nat v + 1 else - (Z.of_nat v + 1))%Z tok) (seq 0 n) toks.
Definition starts (p : string) (t : list nat) : bool := (if list_eq_dec Nat.eq_dec (firstn (String.length p) t) (bytes p) then true else false).
(** a clause that says that the literal [z] is true *)
Definition unit_of (z : Z) (c : list Z) : Prop := c <> [] /\ forall y, In y c -> y = z.
(** two clauses of one literal contradict each other *)
Definition contradictory_units (cs : list (list Z)) : Prop := exists z c c', In c cs /\ In c' cs /\ unit_of z c /\ unit_of (- z) c'.
