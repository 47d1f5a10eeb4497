(** Model of the portfolio of solver threads (src/candy/Main.cc:156-181 and 300-391).

    [result] and [solver] are shared without a lock.  Every access is one step, and accesses take effect
    in the order of the schedule (simplification: in C++ the data race is undefined behaviour).
    Threads are created one after another while there is no result (Main.cc:246-306); in the model each
    thread can start at any time, or never.  The model is taken to be printed (SolverOptions::mod) and not
    to be minimized; statistics and the checkers of Main.cc:344-389 are not modelled. *)
Require Import List Arith Bool.
Import ListNotations.

Definition tid := nat.
(** what [solve] returns (None is l_Undef) and the model its solver holds then *)
Record answer := mkA { a_status : option bool; a_model : list (option bool) }.

(** the next access of runSolverThread, Main.cc:175-179 *)
Inductive tpc := TSolving | TTest | TResult | TSolver | TDone.
(** the next access of main, Main.cc:310-391 *)
Inductive mpc := MPoll | MTrue | MFalse | MNull | MGet | MModel (t : tid) | MExitT | MExitF | MEnd.

Record port := mkP {
  p_result : option bool;          (* Main.cc:157; None is l_Undef *)
  p_solver : option tid;           (* Main.cc:156; None is nullptr *)
  p_int : bool;                    (* interrupted, Main.cc:74 *)
  p_thr : tid -> tpc;
  p_main : mpc;
  p_verdict : option (option bool);(* the printed verdict: Some None is INDETERMINATE *)
  p_model : option tid;            (* the thread whose model is printed *)
  p_exit : option nat }.           (* the exit code *)

Definition port_init : port := mkP None None false (fun _ => TSolving) MPoll None None None.

Inductive step :=
| SInterrupt                       (* a signal, or a limit found by interrupted_callback: Main.cc:76-94 *)
| SThread (t : tid)
| SMain.

Definition set_thr (t : tid) (c : tpc) (f : tid -> tpc) : tid -> tpc := fun u => if u =? t then c else f u.
Definition thread_at (t : tid) (c : tpc) (p : port) : port :=
  mkP (p_result p) (p_solver p) (p_int p) (set_thr t c (p_thr p)) (p_main p) (p_verdict p) (p_model p) (p_exit p).
Definition main_at (c : mpc) (v : option (option bool)) (m : option tid) (x : option nat) (p : port) : port :=
  mkP (p_result p) (p_solver p) (p_int p) (p_thr p) c v m x.

Definition is_true (r : option bool) : bool := match r with Some true => true | _ => false end.
Definition is_false (r : option bool) : bool := match r with Some false => true | _ => false end.
Definition is_undef (r : option bool) : bool := match r with None => true | _ => false end.

Definition next (ans : tid -> answer) (s : step) (p : port) : option port :=
  match s with
  | SInterrupt => Some (mkP (p_result p) (p_solver p) true (p_thr p) (p_main p) (p_verdict p) (p_model p) (p_exit p))
  | SThread t =>
    match p_thr p t with
    | TSolving => (* line 175: solve only gives up when it is interrupted *)
      if is_undef (a_status (ans t)) && negb (p_int p) then None else Some (thread_at t TTest p)
    | TTest => (* line 177 *)
      Some (thread_at t (if is_undef (p_result p) then TResult else TDone) p)
    | TResult => (* line 178 *)
      Some (mkP (a_status (ans t)) (p_solver p) (p_int p) (set_thr t TSolver (p_thr p)) (p_main p) (p_verdict p) (p_model p) (p_exit p))
    | TSolver => (* line 179 *)
      Some (mkP (p_result p) (Some t) (p_int p) (set_thr t TDone (p_thr p)) (p_main p) (p_verdict p) (p_model p) (p_exit p))
    | TDone => None
    end
  | SMain =>
    let v := p_verdict p in let m := p_model p in let x := p_exit p in
    match p_main p with
    | MPoll => (* line 310 *)
      Some (main_at (if is_undef (p_result p) && negb (p_int p) then MPoll else MTrue) v m x p)
    | MTrue => (* line 316, first read *)
      Some (if is_true (p_result p) then main_at MNull (Some (Some true)) m x p else main_at MFalse v m x p)
    | MFalse => (* line 316, second read *)
      Some (main_at MNull (Some (if is_false (p_result p) then Some false else None)) m x p)
    | MNull => (* line 318 *)
      Some (main_at (match p_solver p with Some _ => MGet | None => MExitT end) v m x p)
    | MGet => (* line 319 *)
      match p_solver p with Some t => Some (main_at (MModel t) v m x p) | None => None end
    | MModel t => (* lines 331-341 *)
      Some (main_at MExitT v (if is_true (p_result p) then Some t else m) x p)
    | MExitT => (* line 391, first read *)
      Some (if is_true (p_result p) then main_at MEnd v m (Some 10) p else main_at MExitF v m x p)
    | MExitF => (* line 391, second read *)
      Some (main_at MEnd v m (Some (if is_false (p_result p) then 20 else 0)) p)
    | MEnd => None
    end
  end.

Fixpoint run (ans : tid -> answer) (sch : list step) (p : port) : option port :=
  match sch with
  | [] => Some p
  | s :: r => match next ans s p with Some p' => run ans r p' | None => None end
  end.
