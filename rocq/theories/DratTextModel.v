(** Model of the text of the proof file: Certificate (src/candy/core/clauses/Certificate.h:41-47, 66-85). *)
Require Import List.
Require Import Verif.Base Verif.DbModel Verif.DimacsModel.
Import ListNotations.

(** Certificate.h:41-46 printLiterals: the number (var + 1) * (sign ? -1 : 1) as decimal, which is the text of
    [print_lit]; then "0" and a newline.  Certificate.h:66-85: an added clause, also the empty one of proof(), and a
    removed clause. *)
Definition print_line (l : cline) : list nat :=
  match l with CAdd c => print_clause c | CDel c => [100; 32] ++ print_clause c end.
(** the bytes of the file for the lines in the order of writing; the file is flushed with every line *)
Definition print_proof (ls : list cline) : list nat := concat (map print_line ls).
