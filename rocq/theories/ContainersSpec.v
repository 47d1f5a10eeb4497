(** Specifications of the containers, independent of their representation. *)
Require Import List Arith NArith Bool Verif.ContainersModel.
Import ListNotations.

(** Stamp: which indices are in the set after a history (newest operation last). *)
Fixpoint stamp_member (os : list stamp_op) (i : nat) (start : bool) : bool :=
  match os with
  | [] => start
  | SSet j :: r => stamp_member r i (if i =? j then true else start)
  | SUnset j :: r => stamp_member r i (if i =? j then false else start)
  | SClear :: r => stamp_member r i false
  | SGrow1 :: r | SGrow _ :: r => stamp_member r i start
  end.
(** ... and how large the index range is. *)
Fixpoint stamp_range (os : list stamp_op) (n : nat) : nat :=
  match os with
  | [] => n
  | SGrow1 :: r => stamp_range r (S n)
  | SGrow m :: r => stamp_range r (max n m)
  | _ :: r => stamp_range r n
  end.

(** bqueue: the values pushed since the last clear, oldest first; the window of the last n. *)
Fixpoint bq_pushed (acc : list N) (os : list bq_op) : list N :=
  match os with
  | [] => acc
  | BPush x :: r => bq_pushed (acc ++ [x]) r
  | BClear :: r => bq_pushed [] r
  end.
Definition lastn {A} (n : nat) (l : list A) : list A := skipn (length l - n) l.
Definition sumN (l : list N) : N := fold_right N.add 0%N l.
