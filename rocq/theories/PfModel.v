(** Model of the start of the portfolio (src/candy/Main.cc:246-306, 159-176).

    Main sets the global options of one thread after the other, starts it, and waits until the thread has put its solver
    into the vector [solvers].  Threads read the global options while they construct and initialise their solver.  Every
    assignment and every read is one step, and steps take effect in the order of the schedule (simplification: in C++ the
    unlocked reads of [solvers.size()] and [result] are data races). *)
Require Import List Arith Bool NArith QArith_base.
Require Import Verif.SolverModel.
Import ListNotations.
Open Scope nat_scope.

(** the options that main sets, those that configure the database and the simplification, and the rest;
    CLIOptions.cc:27-140 *)
Inductive opt :=
| ORecalc | OSort | OPre | OInproc | OElim | OAsymm | OLrb | ORsil | ODecay | OMaxDecay | OStep | OMinStep | OTries | ORounds
| OStaticDb | OMethod | OLim | OPersist | OMedian | OFirst | OInc | OOther (n : nat).
(** BoolOption, IntOption and DoubleOption (Options.h:100-290).  Integers are never negative here, doubles are written as fractions. *)
Inductive oval := VB (b : bool) | VN (n : N) | VQ (q : Q).
Definition store := opt -> oval.
Definition opt_eq_dec (a b : opt) : {a = b} + {a <> b}.
Proof. decide equality. apply Nat.eq_dec. Defined.
Definition put (o : opt) (v : oval) (g : store) : store := fun x => if opt_eq_dec x o then v else g x.
Definition as_b (v : oval) : bool := match v with VB b => b | _ => false end.
Definition as_n (v : oval) : N := match v with VN n => n | _ => 0%N end.

Definition const (b : bool) : store -> oval := fun _ => VB b.
(** Main.cc:256-298 *)
Definition branching (count : nat) : list (opt * (store -> oval)) :=
  match count with
  | 0 | 1 => [(OLrb, const false); (ORsil, const false)]
  | 2 | 3 => [(OLrb, const true); (ORsil, const false)]
  | 4 | 5 => [(ODecay, fun _ => VQ (75 # 100)); (OLrb, const false); (ORsil, const true)]
  | 6 | 7 => [(ODecay, fun _ => VQ (7 # 10)); (OLrb, const false); (ORsil, const false)]
  | 8 | 9 => [(ODecay, fun _ => VQ (6 # 10)); (OLrb, const false); (ORsil, const false)]
  | 10 | 11 => [(OStep, fun _ => VQ (7 # 10)); (OMinStep, fun _ => VQ (2 # 100)); (OLrb, const true); (ORsil, const false)]
  | 12 | 13 => [(OTries, fun _ => VN 10); (ORounds, fun _ => VN (1048576 * 2)); (OLrb, const false); (ORsil, const true)]
  | 14 | 15 => [(ODecay, fun _ => VQ (5 # 10)); (OMaxDecay, fun _ => VQ (99 # 100)); (OLrb, const false); (ORsil, const false)]
  | _ => []
  end.
(** the assignments of one iteration, Main.cc:248-299; [count + opt_inprocessing] is a sum of unsigned numbers of 32 bits *)
Definition assignments (count : nat) : list (opt * (store -> oval)) :=
  [(ORecalc, const false);
   (OSort, const (count mod 2 =? 0));
   (OPre, const (count =? 0));
   (OInproc, fun g => VN ((N.of_nat count + as_n (g OInproc)) mod 4294967296));
   (OElim, fun g => VB (negb (as_b (g OStaticDb))));
   (OAsymm, const ((count =? 6) || (count =? 7) || (count =? 14) || (count =? 15)))] ++ branching count.

(** ** The threads *)
(** a solver is constructed and initialised (Main.cc:164-166); a solver with the RSIL heuristic then analyses the gates of the
    problem (BranchingHeuristics.h:98-108); then the solver is pushed (Main.cc:172) *)
Inductive tph := TNone | TMake | TGate | TReady.
Inductive mph := MTest (count : nat) | MSet (count : nat) (r : list (opt * (store -> oval))) | MWait (count : nat) | MStarted.
(** a read of an option: the thread, whether the gates are being analysed, the option and its value *)
Record event := mkE { e_tid : nat; e_gate : bool; e_opt : opt; e_val : oval }.
Record pf := mkPf { f_g : store; f_main : mph; f_thr : nat -> tph; f_solvers : nat; f_result : bool; f_log : list event }.
Definition pf_init (g : store) : pf := mkPf g (MTest 0) (fun _ => TNone) 0 false [].

Inductive fstep :=
| FMain                     (* the next step of main *)
| FRead (t : nat) (o : opt) (* thread t reads an option *)
| FAnalyse (t : nat)        (* thread t starts to analyse gates *)
| FClear (t : nat) (o : opt)(* GateAnalyzer.cc:47-50 *)
| FPush (t : nat)           (* Main.cc:172 *)
| FResult.                  (* a thread that runs its solver publishes a result, Main.cc:177-179 *)

Definition at_thr (t : nat) (c : tph) (f : nat -> tph) : nat -> tph := fun u => if u =? t then c else f u.
(** GateAnalyzer.h:42-51, GateAnalyzer.cc:38-45: the methods with semantic or holistic checks *)
Definition semantic (v : oval) : bool := existsb (N.eqb (as_n v)) [1; 2; 10; 11]%N.
Definition fnext (threads : nat) (s : fstep) (p : pf) : option pf :=
  match s with
  | FMain =>
    match f_main p with
    | MTest k => Some (mkPf (f_g p) (if (k <? threads) && negb (f_result p) then MSet k (assignments k) else MStarted) (f_thr p) (f_solvers p) (f_result p) (f_log p))
    | MSet k ((o, e) :: r) => Some (mkPf (put o (e (f_g p)) (f_g p)) (MSet k r) (f_thr p) (f_solvers p) (f_result p) (f_log p))
    | MSet k [] => Some (mkPf (f_g p) (MWait k) (at_thr k TMake (f_thr p)) (f_solvers p) (f_result p) (f_log p))
    | MWait k => Some (mkPf (f_g p) (if f_solvers p <=? k then MWait k else MTest (S k)) (f_thr p) (f_solvers p) (f_result p) (f_log p))
    | MStarted => None
    end
  | FRead t o =>
    match f_thr p t with
    | TMake => Some (mkPf (f_g p) (f_main p) (f_thr p) (f_solvers p) (f_result p) (f_log p ++ [mkE t false o (f_g p o)]))
    | TGate => Some (mkPf (f_g p) (f_main p) (f_thr p) (f_solvers p) (f_result p) (f_log p ++ [mkE t true o (f_g p o)]))
    | _ => None
    end
  | FAnalyse t =>
    match f_thr p t with
    | TMake => if as_b (f_g p ORsil) then Some (mkPf (f_g p) (f_main p) (at_thr t TGate (f_thr p)) (f_solvers p) (f_result p) (f_log p)) else None
    | _ => None
    end
  | FClear t o =>
    match f_thr p t, o with
    | TGate, OSort | TGate, OPre =>
      if semantic (f_g p OMethod) then Some (mkPf (put o (VB false) (f_g p)) (f_main p) (f_thr p) (f_solvers p) (f_result p) (f_log p)) else None
    | _, _ => None
    end
  | FPush t =>
    match f_thr p t with
    | TMake | TGate => Some (mkPf (f_g p) (f_main p) (at_thr t TReady (f_thr p)) (S (f_solvers p)) (f_result p) (f_log p))
    | _ => None
    end
  | FResult => if 0 <? f_solvers p then Some (mkPf (f_g p) (f_main p) (f_thr p) (f_solvers p) true (f_log p)) else None
  end.
Fixpoint frun (threads : nat) (sch : list fstep) (p : pf) : option pf :=
  match sch with
  | [] => Some p
  | s :: r => match fnext threads s p with Some q => frun threads r q | None => None end
  end.

(** the part of the options that configures the solver of Solver.h as it is modelled in SolverModel.v: Solver.h:307-308,
    ClauseDatabase.h:87, ReduceDB.h:43-46, VariableElimination.h:90-91, AsymmetricVariableReduction.h:102 *)
Definition cfg_of (g : store) : cfg :=
  mkCfg (as_b (g OPre)) (as_n (g OInproc)) (as_b (g OElim)) (as_b (g OAsymm)) (N.to_nat (as_n (g OLim))) (as_b (g ORecalc))
    (as_n (g OPersist)) (as_b (g OMedian)) (as_n (g OFirst)) (as_n (g OInc)).
Definition cfg_opts : list opt := [OPre; OInproc; OElim; OAsymm; OLim; ORecalc; OPersist; OMedian; OFirst; OInc].
