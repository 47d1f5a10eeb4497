(** The ASCII AIGER format (one output, no latches, no symbols) as a relation between bytes and files. *)
Require Import List Arith ZArith.
Require Import Verif.Base Verif.AigModel Verif.DimacsSpec.
Import ListNotations.

(** An unsigned decimal number without leading zeros. *)
Definition unsigned (n : nat) (ds : list nat) : Prop :=
  ds <> [] /\ Forall digit ds /\ decimal ds = Z.of_nat n /\ (hd 0 ds = 48 -> ds = [48]).

(** A line of numbers: single spaces between them, a newline at the end. *)
Inductive line : list nat -> list nat -> Prop :=
| line_last n ds : unsigned n ds -> line (ds ++ [10]) [n]
| line_more n ds t ns : unsigned n ds -> line t ns -> line (ds ++ 32 :: t) (n :: ns).

(** Lines below each other. *)
Inductive lines : list nat -> list (list nat) -> Prop :=
| lines_nil : lines [] []
| lines_cons t l ts ls : line t l -> lines ts ls -> lines (t ++ ts) (l :: ls).

(** "aag" and the numbers M I L O A, then one line for each input, the line of the output, one line of three literals for each gate;
    the header counts them. *)
Definition aiger_text (text : list nat) (f : aiger) : Prop :=
  exists h body, text = [97; 97; 103; 32] ++ h ++ body /\
    line h [h_M f; h_I f; h_L f; h_O f; h_A f] /\
    lines body (map (fun k => [k]) (f_inputs f) ++ [[f_output f]] ++ map (fun b => [fst (fst b); snd (fst b); snd b]) (f_ands f)) /\
    h_I f = length (f_inputs f) /\ h_L f = 0 /\ h_O f = 1 /\ h_A f = length (f_ands f).
