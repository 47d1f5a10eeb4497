(** C30 for proof files: no byte sequence makes the checker accept a satisfiable problem. *)
Require Import List Arith Bool ZArith NArith.
Require Import Verif.Base Verif.Outcome Verif.CNFModel Verif.DbModel Verif.DRATModel Verif.DimacsModel Verif.DratFileModel Verif.DratFileProofs.
Import ListNotations.

(** Whatever bytes the proof file has, whatever the size and the initial content of the buffer: if the checker answers true,
    the problem has no model.  (The defects of the parser, C06, can make the checker reject or misread a proof, never accept
    a wrong one.) *)
Theorem C30_file_sound B junk text n cs : (forall c l, In c cs -> In l c -> lvar l < n) ->
  check_proof_file B junk text n cs = POk (Ok true) -> forall x : assignment, ~ sat x cs.
Proof. exact (file_sound B junk text n cs). Qed.
Print Assumptions C30_file_sound.
(** "c x", "1 0", "d 1 2 0", "0" *)
Example C30_file_case : check_proof_file 12 (repeat 57 12) [99; 32; 120; 10; 49; 32; 48; 10; 100; 32; 49; 32; 50; 32; 48; 10; 48; 10] 2 [[0; 2]; [0; 3]; [1; 2]; [1; 3]] = POk (Ok true) /\
  check_proof_file 12 (repeat 57 12) [99; 32; 120; 10; 49; 32; 48; 10; 100; 32; 49; 32; 50; 32; 48; 10; 48; 10] 2 [[0; 2]; [0; 3]; [1; 2]] = POk (Ok false).
Proof. vm_compute. auto. Qed.
