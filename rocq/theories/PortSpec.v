(** Answers of the solver threads, and schedules. *)
Require Import List Verif.Base Verif.SolverSpec Verif.PortModel.
Import ListNotations.

(** every thread that answers SAT has a model of [F], and UNSAT is only answered if [F] has none *)
Definition sound (F : formula) (ans : tid -> answer) : Prop :=
  forall t, match a_status (ans t) with
            | Some true => model_sat (a_model (ans t)) F
            | Some false => unsat F
            | None => True
            end.

(** thread [t] has found that there is no result yet and has not published both its result and its solver *)
Definition publishing (p : port) (t : tid) : Prop := p_thr p t = TResult \/ p_thr p t = TSolver.
(** while a thread publishes nothing else happens, as if a lock were held *)
Definition locked (ans : tid -> answer) (sch : list step) : Prop :=
  forall pre s rest p t, sch = pre ++ s :: rest -> run ans pre port_init = Some p -> publishing p t -> s = SThread t.

(** the exit code that belongs to a printed verdict *)
Definition exit_code (v : option bool) : nat := match v with Some true => 10 | Some false => 20 | None => 0 end.
