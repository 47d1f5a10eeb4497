(** Specification for C47 and C48: equivalence classes and backbones from which variables are removed. *)
Require Import List Arith Bool Permutation.
Require Import Verif.Base Verif.Outcome Verif.ApproxModel.
Import ListNotations.

(** no two of the literals have the same variable *)
Definition distinct_vars (ls : list lit) : Prop := NoDup (map lvar ls).

(** the implications that close a cycle through the literals in their order; none for fewer than two *)
Definition ring (ls : list lit) : list impl :=
  if length ls <? 2 then [] else combine ls (tl ls ++ [hd 0 ls]).
Definition impl_holds (a : assignment) (i : impl) : Prop := lit_holds a (fst i) -> lit_holds a (snd i).
Definition all_equal (a : assignment) (ls : list lit) : Prop := forall x y, In x ls -> In y ls -> lit_val a x = lit_val a y.

(** ** Histories of one equivalence class or backbone set *)
Inductive cop := CMark (v : var) | CCommit.
(** the variables removed by the commits of a history; [m]: marked and not yet committed *)
Fixpoint committed (m : list var) (h : list cop) : list var :=
  match h with
  | [] => []
  | CMark v :: r => committed (v :: m) r
  | CCommit :: r => m ++ committed [] r
  end.
Definition remaining (h : list cop) (ls : list lit) : list lit :=
  filter (fun l => negb (existsb (Nat.eqb (lvar l)) (committed [] h))) ls.

Fixpoint ei_run (h : list cop) (e : eqi) : out eqi :=
  match h with
  | [] => Ok e
  | CMark v :: r => ei_run r (ei_mark e v)
  | CCommit :: r => ' (e', _, _) <- ei_commit e ;; ei_run r e'
  end.
Fixpoint bb_run (h : list cop) (b : bbs) : bbs :=
  match h with
  | [] => b
  | CMark v :: r => bb_run r (bb_mark b v)
  | CCommit :: r => bb_run r (fst (bb_commit b))
  end.

(** ** Histories of a refinement strategy *)
(** [init] with the first marks, then [refine] with each of the others; result: the state, the clauses
    of all deltas in the order of their creation and the last delta *)
Fixpoint refine_all (ms : list marks) (s : strategy) (cs : list clause) (n : enc) : out (strategy * list clause * enc) :=
  match ms with
  | [] => Ok (s, cs, n)
  | m :: r => ' (s', n') <- rs_refine m s ;; refine_all r s' (cs ++ n_clauses n') n'
  end.
Definition rs_run (m0 : marks) (ms : list marks) (s : strategy) : out (strategy * list clause * enc) :=
  ' (s', n) <- rs_init m0 s ;; refine_all ms s' (n_clauses n) n.

(** all variables of the conjectures are different, and smaller than the assumption variables *)
Definition conj_ok (eqs : list (list lit)) (bs : list lit) (next : var) : Prop :=
  distinct_vars (concat eqs) /\ distinct_vars bs /\ (forall l, In l (concat eqs ++ bs) -> lvar l < next).

(** variables removed from the class with number [k] and from the backbones by some steps; while
    there is no backbone left, marks of backbones have no effect anyway *)
Definition gone_eq (k : nat) (ms : list marks) : list var := flat_map (fun m => nth k (mk_eq m) []) ms.
Definition gone_bb (ms : list marks) : list var := flat_map mk_bb ms.
Definition keep (gone : list var) (ls : list lit) : list lit := filter (fun l => negb (existsb (Nat.eqb (lvar l)) gone)) ls.
(** the current approximation: all remaining literals of each class are equal, the remaining backbones hold *)
Definition approximation (eqs : list (list lit)) (bs : list lit) (ms : list marks) (a : assignment) : Prop :=
  (forall k ls, nth_error eqs k = Some ls -> all_equal a (keep (gone_eq k ms) ls)) /\
  (forall l, In l (keep (gone_bb ms) bs) -> lit_holds a l).
(** what is left of each class *)
Definition current (eqs : list (list lit)) (ms : list marks) : list (list lit) :=
  map (fun k => keep (gone_eq k ms) (nth k eqs [])) (seq 0 (length eqs)).
(** the assignments agree on the variables smaller than [n] *)
Definition agree_below (n : var) (a b : assignment) : Prop := forall v, v < n -> a v = b v.
