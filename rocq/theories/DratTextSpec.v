(** The text format of clausal proofs as a grammar on bytes. *)
Require Import List ZArith.
Require Import Verif.Base Verif.DbModel Verif.DimacsSpec.
Import ListNotations.

(** blank space, comment lines, clauses ended by 0, deleted clauses marked by the letter d *)
Inductive drat_text (ml : bool) : list nat -> list cline -> Prop :=
| dt_nil : drat_text ml [] []
| dt_white c t ls : white c -> drat_text ml t ls -> drat_text ml (c :: t) ls
| dt_comment body e t ls : (forall c, In c body -> ~ line_end c) -> line_end e -> drat_text ml t ls -> drat_text ml (99 :: body ++ e :: t) ls
| dt_add ct zs c t ls : clause_text ml ct zs -> white c -> drat_text ml t ls -> drat_text ml (ct ++ c :: t) (CAdd (map zlit zs) :: ls)
| dt_del w ct zs c t ls : Forall (separator ml) w -> clause_text ml ct zs -> white c -> drat_text ml t ls ->
    drat_text ml (100 :: w ++ ct ++ c :: t) (CDel (map zlit zs) :: ls).
