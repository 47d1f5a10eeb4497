(** Model of the option sort-variables: getLiteralRelativeOccurrences and its use when a heuristic is
    initialised, src/candy/systems/branching/VSIDS.h:111-119 and 155-180, LRB.h:62-83 and 102-109.
    Numbers are exact fractions; the one quotient 0/0 is no number. *)
Require Import List Arith Bool QArith.
Require Import Verif.Base Verif.CNFModel Verif.Outcome Verif.TrailModel Verif.HeapModel Verif.BranchModel Verif.BranchCases Verif.DbModel Verif.SolverModel.
Import ListNotations.
Local Open Scope nat_scope.

(** a double that can be NaN *)
Definition num := option Q.
(** VSIDS.h:175 occ / max: the occurrences are never negative, so that only 0/0 divides by zero *)
Definition num_div (x y : Q) : num := if Qeq_bool y 0 then None else Some (x / y)%Q.
(** 1.0 / c->size(), VSIDS.h:170 *)
Definition share (c : clause) : Q := (1 / inject_Z (Z.of_nat (length c)))%Q.

(** VSIDS.h:168-171; the vector has two entries for each variable *)
Fixpoint occ_lits (w : Q) (ls : list lit) (occ : list Q) : out (list Q) :=
  match ls with
  | [] => Ok occ
  | l :: r => o <- oget (upd occ l (nth l occ 0 + w)%Q) ;; occ_lits w r o
  end.
(** VSIDS.h:166-172 *)
Fixpoint occ_clauses (cs : list clause) (occ : list Q) : out (list Q) :=
  match cs with
  | [] => Ok occ
  | c :: r => o <- occ_lits (share c) c occ ;; occ_clauses r o
  end.
(** std::max_element of a vector that is not empty, VSIDS.h:173 *)
Definition max_element (x : Q) (r : list Q) : Q := fold_left (fun m y => if q_gt y m then y else m) r x.
(** VSIDS.h:160-180, LRB.h:62-79 *)
Definition relative_occurrences (n : nat) (cs : list clause) : out (list num) :=
  match repeat 0%Q (n * 2) with
  | [] => Ok []
  | z :: r =>
    o <- occ_clauses cs (z :: r) ;;
    Ok (map (fun x => num_div x (match o with [] => 0%Q | y :: q => max_element y q end)) o)
  end.

(** the entries if all of them are numbers *)
Fixpoint numbers (l : list num) : option (list Q) :=
  match l with
  | [] => Some []
  | None :: _ => None
  | Some x :: r => option_map (cons x) (numbers r)
  end.
(** VSIDS.h:113-118, LRB.h:103-107: activity and polarity of a variable *)
Definition sort_entry (occ : list Q) (v : var) : Q * bool :=
  ((nth (mkLit v true) occ 0 + nth (mkLit v false) occ 0)%Q, q_gt (nth (mkLit v false) occ 0%Q) (nth (mkLit v true) occ 0%Q)).

(** VSIDS.h:102-121 with opt_sort_variables and the clauses [cs] of the database; [None]: the
    activities are no numbers *)
Definition vs_sorted_init (cs : list clause) (t : trail_t) (b : vsids Qarith) : out (option (vsids Qarith)) :=
  o <- relative_occurrences (nvt t) cs ;;
  match numbers o with
  | None => Ok None
  | Some q => b1 <- vs_init Qarith (Some (sort_entry q)) t b ;; Ok (Some b1)
  end.
(** LRB.h:93-111 *)
Definition lr_sorted_init (cs : list clause) (t : trail_t) (b : lrb Qarith) : out (option (lrb Qarith)) :=
  o <- relative_occurrences (nvt t) cs ;;
  match numbers o with
  | None => Ok None
  | Some q => b1 <- lr_init Qarith (Some (sort_entry q)) t b ;; Ok (Some b1)
  end.

(** for (Clause* c : clause_db), ClauseDatabase.h:153-159: also clauses that were removed since the
    last reorganization *)
Definition iterated (d : db) : list clause := map (clits d) (cls d).
