(** Model of the IPASIR interface (src/candy/ipasir/ipasircandy.cc:29-116). *)
Require Import List Arith Bool NArith ZArith.
Require Import Verif.Base Verif.CNFModel Verif.Outcome Verif.TrailModel Verif.DbModel Verif.SolverModel.
Import ListNotations.

(** ipasircandy.cc:31-39; [ip_res] is the result object of the solver, [ip_fmap] is [None] for the
    null pointer *)
Record ips := mkIps {
  ip_prob : cnf; ip_sv : solver; ip_res : sresult; ip_as : list lit; ip_cl : list lit;
  ip_fmap : option (list bool); ip_nomodel : bool }.

(** ipasircandy.cc:41-43; the literal 0 and INT_MIN are excluded by the interface *)
Definition import (l : Z) : lit := mkLit (Z.to_nat (Z.abs l - 1)) (l <? 0)%Z.

(** ipasircandy.cc:60-62 *)
Definition ipasir_init (C : cfg) : ips :=
  mkIps cnf_empty (solver_new C) (mkRes None [] []) [] [] None false.

(** ipasircandy.cc:69-78 *)
Definition ipasir_add (l : Z) (s : ips) : ips :=
  if negb (l =? 0)%Z
  then mkIps (ip_prob s) (ip_sv s) (ip_res s) (ip_as s) (ip_cl s ++ [import l]) None true
  else mkIps (readClause (ip_prob s) (ip_cl s)) (ip_sv s) (ip_res s) (ip_as s) [] None true.

(** ipasircandy.cc:80-84 *)
Definition ipasir_assume (l : Z) (s : ips) : ips :=
  mkIps (ip_prob s) (ip_sv s) (ip_res s) (ip_as s ++ [import l]) (ip_cl s) None true.

(** ipasircandy.cc:86-95; CNFProblem::clear keeps the number of variables (CNFProblem.h:82-87) *)
Definition ipasir_solve (C : cfg) (O : oracle) (fuel : nat) (s : ips) : out (Z * ips) :=
  s1 <- solver_init (variables (ip_prob s)) (problem (ip_prob s)) true (ip_sv s) ;;
  '(r, s2) <- solve C O fuel (solver_assume (ip_as s) s1) ;;
  Ok (match r_status r with None => 0 | Some true => 10 | Some false => 20 end%Z,
      mkIps (mkCnf [] (variables (ip_prob s))) s2 r [] (ip_cl s) None
            (match r_status r with Some true => false | _ => true end)).

(** ipasircandy.cc:97-101 *)
Definition ipasir_val (l : Z) (s : ips) : Z :=
  if ip_nomodel s then 0%Z
  else if res_satisfies (r_model (ip_res s)) (import l) then l else (- l)%Z.

(** ipasircandy.cc:45-52; Solver.h:116-118.  Writing or reading behind the end of the array is UB. *)
Definition ipasir_analyze (s : ips) : out (list bool) :=
  let n := length (vd (sv_t (ip_sv s))) in
  fold_left (fun f l => f <- f ;; if lvar l <? n then Ok (set_nth (lvar l) true f) else Err UB)
            (r_conflict (ip_res s)) (Ok (repeat false n)).
(** ipasircandy.cc:103-107 *)
Definition ipasir_failed (l : Z) (s : ips) : out (bool * ips) :=
  f <- match ip_fmap s with Some f => Ok f | None => ipasir_analyze s end ;;
  if lvar (import l) <? length f
  then Ok (nth (lvar (import l)) f false,
           mkIps (ip_prob s) (ip_sv s) (ip_res s) (ip_as s) (ip_cl s) (Some f) (ip_nomodel s))
  else Err UB.

(** ipasircandy.cc:113-115 *)
Definition ipasir_set_learn (max_length : Z) (s : ips) : ips :=
  mkIps (ip_prob s) (setLearntCallback (Some max_length) (ip_sv s)) (ip_res s) (ip_as s) (ip_cl s) (ip_fmap s) (ip_nomodel s).
