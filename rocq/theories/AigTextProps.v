(** C45 for the whole program: from the bytes of the input file to the bytes printed. *)
Require Import List Arith ZArith Bool.
Require Import Verif.Base Verif.CNFModel Verif.AigModel Verif.AigSpec Verif.AigCases Verif.DimacsModel Verif.DimacsSpec Verif.AigTextModel Verif.AigTextSpec Verif.AigText.
Import ListNotations.

(** Whenever cnf2aig prints something for a DIMACS file, it is the text of exactly one AIGER file; inputs that make its output true
    extend to a model of the clauses in the file, and if the file does not use variable 1, the AIGER file is well formed and every
    model of the clauses gives such inputs.  Partial: as C45_file_partial, whose refutations apply; lines fit the buffer (C06). *)
Theorem C45_program_partial : forall B ml junk cfg text cs out,
  0 < B -> length junk = B -> dimacs ml text cs -> lines_fit B text -> (ml = true -> length text < B) ->
  cnf2aig_main B junk cfg text = Printed out ->
  exists f, aiger_text out f /\ (forall f', aiger_text out f' -> f' = f) /\
    (forall x, aiger_evaluation f x -> lit_val x (f_output f) = true ->
       exists m, sat m (map (map zlit) cs) /\ forall v, In (mkLit v false) (f_inputs f) -> m v = x v) /\
    ((forall zs z, In zs cs -> In z zs -> Z.abs z <> 1%Z) ->
     aiger_format f /\
     forall m, sat m (map (map zlit) cs) -> exists x, aiger_evaluation f x /\ lit_val x (f_output f) = true /\ forall v, In (mkLit v false) (f_inputs f) -> x v = m v).
Proof. exact program_main. Qed.
Print Assumptions C45_program_partial.

(** The text of [acase] becomes "aag 8 3 0 1 3", three inputs, the output, three gates. *)
Example C45_program_case : problem acase = [[4]; [5;6]; [5;8]; [4;7;9]; [9;10]; [9;12]; [8;11;13]] /\
  cnf2aig_main 200 (repeat 0 200) acfg (printDIMACS acase) =
  Printed ([97;97;103;32; 56;32; 51;32; 48;32; 49;32; 51;10] ++ [54;10; 49;48;10; 49;50;10; 49;52;10] ++
           [49;52;32;52;32;49;10] ++ [52;32;54;32;56;10] ++ [56;32;49;48;32;49;50;10]).
Proof. split; vm_compute; reflexivity. Qed.
