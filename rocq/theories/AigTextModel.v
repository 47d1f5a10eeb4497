(** Model of the program cnf2aig from the bytes of its input file to the bytes it prints (src/candy/cnf2aig.cc, AIGProblem.h). *)
Require Import List Arith ZArith NArith Bool.
Require Import Verif.Base Verif.Outcome Verif.CNFModel Verif.GateModel Verif.AigModel Verif.DimacsModel.
Import ListNotations.

(** What the program does: it prints bytes and exits, it ends by an uncaught exception, or its behaviour is undefined. *)
Inductive run := Printed (text : list nat) | Aborted | Undefined.

(** decimal output of printf with %i and %zu, for numbers that fit *)
Definition num (n : nat) : list nat := dec (N.of_nat n).

(** AIGProblem.h:101: "aag %i %zu %i %i %zu\n" *)
Definition header_line (f : aiger) : list nat :=
  [97; 97; 103; 32] ++ num (h_M f) ++ [32] ++ num (h_I f) ++ [32] ++ num (h_L f) ++ [32] ++ num (h_O f) ++ [32] ++ num (h_A f) ++ [10].
(** AIGProblem.h:103-107: a literal and a newline *)
Definition lit_line (k : nat) : list nat := num k ++ [10].
(** AIGProblem.h:109-116 *)
Definition and_line (b : nat * nat * nat) : list nat :=
  let '(o, l, r) := b in num o ++ [32] ++ num l ++ [32] ++ num r ++ [10].
(** AIGProblem.h:101-116 and the two constant texts of cnf2aig.cc:57 and 60 *)
Definition aiger_bytes (f : aiger) : list nat :=
  header_line f ++ concat (map lit_line (f_inputs f)) ++ lit_line (f_output f) ++ concat (map and_line (f_ands f)).

(** cnf2aig.cc:39-71: the parser's exception is not caught.  With 2^30 variables the literal of the root does not fit an int.  The
    analysis is the one with any options [cfg]. *)
Definition cnf2aig_main (B : nat) (junk : list nat) (cfg : config) (text : list nat) : run :=
  match readDimacs B junk text cnf_empty with
  | POk p =>
      if (Z.of_nat (variables p) <? 2 ^ 30)%Z then
        match cnf2aig cfg p with Ok f => Printed (aiger_bytes f) | Err _ => Undefined end
      else Undefined
  | PThrow => Aborted
  | _ => Undefined
  end.
