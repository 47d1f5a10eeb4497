(** The world with another bound on the loops of the model, and the calls of the solver of the minimiser with given restarts (C67). *)
Require Import Verif.SolverModel Verif.MainModel Verif.RestartSpec.

Definition with_fuel (n : nat) (w : world) : world :=
  mkWorld (w_garbage w) (w_files w) (w_stdin w) (w_writable w) (w_junk w) (w_what w) (w_oracle w) (w_block w) n.
(** every call of the solver of the minimiser with restarts of its own *)
Definition restarting (f : nat -> nat -> bool) (MO : nat -> oracle) : nat -> oracle := fun k => with_restart (f k) (MO k).
