(** Models of the small containers in src/candy/mtl: Stamp.h, BoundedQueue.h, and of the
    generator in src/candy/utils/FastRand.h. *)
Require Import List Arith NArith Bool Verif.CNFModel.
Import ListNotations.

(** ** Stamp<T>, src/candy/mtl/Stamp.h:37-98.
    [T] is an unsigned type with numeric_limits min = 0 and max = [M] (255, 65535, 2^32-1);
    Stamp<bool> (lines 100-104) is the instance M = 1: its specialised clear() is what the
    generic clear() does for M = 1. *)
Record stamp_t := mkStamp { stamped : list N; stamp : N }.

(** Stamp.h:70-78 *)
Definition stamp_clear (M : N) (s : stamp_t) : stamp_t :=
  if (stamp s <? M)%N then mkStamp (stamped s) (stamp s + 1)
  else mkStamp (map (fun _ => 0%N) (stamped s)) (0 + 1).
(** Stamp.h:43-46 *)
Definition stamp_new (M : N) : stamp_t := stamp_clear M (mkStamp [] 0).
(** Stamp.h:48-52 *)
Definition stamp_new_size (M : N) (size : nat) : stamp_t :=
  stamp_clear M (mkStamp (repeat 0%N size) 0).
(** Stamp.h:56-58 and 60-64 *)
Definition stamp_grow1 (s : stamp_t) : stamp_t := mkStamp (stamped s ++ [0%N]) (stamp s).
Definition stamp_grow (size : nat) (s : stamp_t) : stamp_t :=
  if length (stamped s) <? size
  then mkStamp (stamped s ++ repeat 0%N (size - length (stamped s))) (stamp s) else s.
(** Stamp.h:80-88; an index out of range is [None] (assertion / undefined behaviour) *)
Definition stamp_unset (i : nat) (s : stamp_t) : option stamp_t :=
  if i <? length (stamped s) then Some (mkStamp (set_nth i 0%N (stamped s)) (stamp s)) else None.
Definition stamp_set (i : nat) (s : stamp_t) : option stamp_t :=
  if i <? length (stamped s) then Some (mkStamp (set_nth i (stamp s) (stamped s)) (stamp s)) else None.
(** Stamp.h:90-97 *)
Definition stamp_get (i : nat) (s : stamp_t) : option bool :=
  match nth_error (stamped s) i with Some x => Some (N.eqb x (stamp s)) | None => None end.

Inductive stamp_op := SSet (i : nat) | SUnset (i : nat) | SClear | SGrow1 | SGrow (n : nat).
Definition stamp_step (M : N) (s : stamp_t) (o : stamp_op) : option stamp_t :=
  match o with
  | SSet i => stamp_set i s
  | SUnset i => stamp_unset i s
  | SClear => Some (stamp_clear M s)
  | SGrow1 => Some (stamp_grow1 s)
  | SGrow n => Some (stamp_grow n s)
  end.
Fixpoint stamp_run (M : N) (s : stamp_t) (os : list stamp_op) : option stamp_t :=
  match os with
  | [] => Some s
  | o :: r => match stamp_step M s o with Some s' => stamp_run M s' r | None => None end
  end.

(** ** bqueue<uint32_t>, src/candy/mtl/BoundedQueue.h:42-135 (members of the floating-point
    averages [exp], [value], [expComputed] left out: they are not used by any caller).
    [sumofqueue] is unsigned int: arithmetic modulo 2^32. *)
Definition U32 : N := 4294967296.
Record bqueue := mkBQ { first : nat; last : nat; queuesize : nat; sumofqueue : N; elems : list N }.
(** BoundedQueue.h:52-56 *)
Definition bq_new (size : nat) : bqueue := mkBQ 0 0 0 0 (repeat 0%N size).
(** BoundedQueue.h:58-70; capacity 0 would write out of bounds: [None] *)
Definition bq_push (x : N) (q : bqueue) : option bqueue :=
  let n := length (elems q) in
  let '(l, s, k) :=
    if queuesize q =? n then
      let s := ((sumofqueue q + U32 - nth (last q) (elems q) 0 mod U32) mod U32)%N in
      (if S (last q) =? n then 0 else S (last q), s, queuesize q)
    else (last q, sumofqueue q, S (queuesize q)) in
  if first q <? n then
    let e := set_nth (first q) x (elems q) in
    let s := ((s + x) mod U32)%N in
    if S (first q) =? n then Some (mkBQ 0 0 k s e)
    else Some (mkBQ (S (first q)) l k s e)
  else None.
(** BoundedQueue.h:72-75 *)
Definition bq_peek (q : bqueue) : option N :=
  if 0 <? queuesize q then nth_error (elems q) (last q) else None.
(** BoundedQueue.h:77-81 *)
Definition bq_pop (q : bqueue) : bqueue :=
  mkBQ (first q) (if S (last q) =? length (elems q) then 0 else S (last q)) (queuesize q - 1)
       ((sumofqueue q + U32 - nth (last q) (elems q) 0 mod U32) mod U32)%N (elems q).
(** BoundedQueue.h:83-89; division by zero is [None] *)
Definition bq_getsum (q : bqueue) : N := sumofqueue q.
Definition bq_getavg (q : bqueue) : option N :=
  if queuesize q =? 0 then None else Some (sumofqueue q / N.of_nat (queuesize q))%N.
(** BoundedQueue.h:103-105, 125-134 *)
Definition bq_isvalid (q : bqueue) : bool := queuesize q =? length (elems q).
Definition bq_fastclear (q : bqueue) : bqueue := mkBQ 0 0 0 0 (elems q).
Definition bq_size (q : bqueue) : nat := queuesize q.

Inductive bq_op := BPush (x : N) | BClear.
Definition bq_step (q : bqueue) (o : bq_op) : option bqueue :=
  match o with BPush x => bq_push x q | BClear => Some (bq_fastclear q) end.
Fixpoint bq_run (q : bqueue) (os : list bq_op) : option bqueue :=
  match os with
  | [] => Some q
  | o :: r => match bq_step q o with Some q' => bq_run q' r | None => None end
  end.

(** ** fastNextRand, src/candy/utils/FastRand.h:18-24, on 64-bit words *)
Definition W64 : N := 18446744073709551616.
Definition fastNextRand (state : N) : N :=
  let s1 := N.lxor state (N.shiftr state 12) in
  let s2 := N.lxor s1 (N.shiftl s1 25 mod W64)%N in
  let s3 := N.lxor s2 (N.shiftr s2 27) in
  ((s3 * 2685821657736338717) mod W64)%N.
