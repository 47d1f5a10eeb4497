(** The configuration of each thread of the portfolio, in closed form, and the answers of threads so configured. *)
Require Import List Arith Bool NArith QArith_base.
Require Import Verif.Base Verif.Outcome Verif.PropSpec Verif.SolverModel Verif.SolverSpec Verif.PortModel Verif.PfModel.
Import ListNotations.
Open Scope nat_scope.

Definition one_of (k : nat) (l : list nat) : bool := existsb (Nat.eqb k) l.
(** [g] are the options of the command line *)
Definition portfolio (g : store) (k : nat) (o : opt) : oval :=
  match o with
  | ORecalc => VB false
  | OSort => VB (Nat.even k)
  | OPre => VB (k =? 0)
  | OInproc => VN ((as_n (g OInproc) + N.of_nat (k * (k + 1) / 2)) mod 2 ^ 32)
  | OElim => VB (negb (as_b (g OStaticDb)))
  | OAsymm => VB (one_of k [6; 7; 14; 15])
  | OLrb => VB (one_of k [2; 3; 10; 11])
  | ORsil => VB (one_of k [4; 5; 12; 13])
  | ODecay => if k <? 4 then g ODecay else VQ (if k <? 6 then 75 # 100 else if k <? 8 then 7 # 10 else if k <? 14 then 6 # 10 else 5 # 10)
  | OMaxDecay => if k <? 14 then g OMaxDecay else VQ (99 # 100)
  | OStep => if k <? 10 then g OStep else VQ (7 # 10)
  | OMinStep => if k <? 10 then g OMinStep else VQ (2 # 100)
  | OTries => if k <? 12 then g OTries else VN 10
  | ORounds => if k <? 12 then g ORounds else VN 2097152
  | _ => g o
  end.

(** what thread [t] answers about [F]: nothing, or what the solver answers that was loaded with [F] and configured by the options
    that the thread has read before it analysed gates *)
Definition answers (p : pf) (F : formula) (t : nat) (a : answer) : Prop :=
  a_status a = None \/
  exists rd n s O fuel x s', (forall o, In o cfg_opts -> In (mkE t false o (rd o)) (f_log p)) /\
    Forall (clause_ok n) F /\ solver_init n F true (solver_new (cfg_of rd)) = Ok s /\ solve (cfg_of rd) O fuel s = Ok (x, s') /\ a = mkA (r_status x) (r_model x).
