(** Model of the proof file loop of DRATChecker (src/candy/core/DRATChecker.cc:61-69, 77-107) on the bytes of the file. *)
Require Import List Arith Bool ZArith NArith.
Require Import Verif.Base Verif.Outcome Verif.TrailModel Verif.DbModel Verif.DRATModel Verif.DimacsModel.
Import ListNotations.

(** DRATChecker.cc:81-106; the outer result is that of the parser, the inner one that of the checker *)
Fixpoint proof_loop (B F fuel : nat) (s : sb) (k : chk) : pres (out bool) :=
  match fuel with
  | O => PFuel
  | S fuel =>
    if eof s then POk (Ok (empt (k_d k)))
    else if cur s =? 99 then
      s <~ skipLine B F s ;; s <~ skipWhitespace B F s ;; proof_loop B F fuel s k
    else if cur s =? 100 then
      s <~ incPos B 1 s ;;
      '(ls, s) <~ read_lits B F s [] ;;
      match check_clause_remove ls k with
      | Err e => POk (Err e)
      | Ok k => s <~ skipWhitespace B F s ;; proof_loop B F fuel s k
      end
    else
      '(ls, s) <~ read_lits B F s [] ;;
      match check_clause_add ls k with
      | Err e => POk (Err e)
      | Ok (false, _) => POk (Ok false)
      | Ok (true, k) => s <~ skipWhitespace B F s ;; proof_loop B F fuel s k
      end
  end.
(** DRATChecker.cc:61-69, 77-80: the checker for a problem with [n] variables and clauses [cs], given the bytes [text] *)
Definition check_proof_file (B : nat) (junk text : list nat) (n : nat) (cs : list (list lit)) : pres (out bool) :=
  match chk_new n cs with
  | Err e => POk (Err e)
  | Ok k =>
    if empt (k_d k) then POk (Ok true)
    else
      let F := 3 * length text + 3 in
      s <~ sb_new B junk text ;; s <~ skipWhitespace B F s ;; proof_loop B F F s k
  end.
