(** What the storage should contain. *)
Require Import List Arith NArith Sorted Permutation.
Require Import Verif.Outcome Verif.MemoryModel.
Import ListNotations.

Inductive mop (T : Type) := MPush (x : T) | MSort (srt : list T -> list T) | MClear.
Arguments MPush {T}. Arguments MSort {T}. Arguments MClear {T}.

(** the sequence of elements after a history of operations *)
Definition content_step {T} (l : list T) (o : mop T) : list T :=
  match o with MPush x => l ++ [x] | MSort srt => srt l | MClear => [] end.
Definition content {T} (ops : list (mop T)) : list T := fold_left content_step ops [].

(** the storage after a history of operations *)
Definition mem_step {T} (sz : N) (m : memory T) (o : mop T) : out (memory T) :=
  match o with
  | MPush x => '(m1, _) <- allocate sz x m ;; Ok m1
  | MSort srt => mem_sort sz srt m
  | MClear => Ok (free_all m)
  end.
Fixpoint mem_run {T} (sz : N) (ops : list (mop T)) (m : memory T) : out (memory T) :=
  match ops with [] => Ok m | o :: r => m1 <- mem_step sz m o ;; mem_run sz r m1 end.

(** std::sort with the comparison [lt]: some sorted arrangement of the same elements *)
Definition sorts {T} (lt : T -> T -> Prop) (srt : list T -> list T) : Prop :=
  forall l, Permutation l (srt l) /\ StronglySorted (fun x y => ~ lt y x) (srt l).
Definition keeps_all {T} (ops : list (mop T)) : Prop := forall srt, In (MSort srt) ops -> forall l, Permutation l (srt l).
