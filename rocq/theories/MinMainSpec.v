(** What a user of the option minimize relies on (C66).  The meaning of the kept literals is in MinSpec.v, the call in MainSpec.v. *)
Require Import List Arith ZArith String.
Require Import Verif.Base Verif.DimacsSpec Verif.MainModel Verif.MainSpec.
Import ListNotations.
Open Scope list_scope.

(** the number of DIMACS that stands for a literal *)
Definition number_of (l : lit) : Z := (if lsign l then - (Z.of_nat (lvar l) + 1) else Z.of_nat (lvar l) + 1)%Z.
(** the line that says how many literals are kept *)
Definition says_size (k : nat) (t : list nat) : Prop := exists tok, number (Z.of_nat k) tok /\ t = bytes "c Minimized-Model-Size: " ++ tok.
(** the line with the kept literals *)
Definition says_kept (ks : list lit) (t : list nat) : Prop :=
  exists toks, t = bytes "c Minimized-Model: " ++ List.concat (map (fun tok => tok ++ bytes " ") toks) /\ Forall2 (fun l tok => number (number_of l) tok) ks toks.
(** every variable at most once, in the order of the variables *)
Fixpoint ascending (ks : list lit) : Prop :=
  match ks with [] => True | l :: r => (forall l', In l' r -> lvar l < lvar l') /\ ascending r end.
