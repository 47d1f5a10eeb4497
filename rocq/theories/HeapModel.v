(** Model of Glucose::Heap (src/candy/mtl/Heap.h:32-160): a binary heap of variables with an
    index array.  [None] as a result stands for an access out of bounds, a failed assertion or
    exhausted loop fuel; HeapProofs shows that it does not happen on reachable heaps. *)
Require Import List Arith Bool Verif.CNFModel.
Import ListNotations.

(** Heap.h:35-36; -1 in [indices] is [None]. *)
Record heap_t := mkHeap { hp : list nat; idx : list (option nat) }.

Definition upd {A} (l : list A) (i : nat) (x : A) : option (list A) :=
  if i <? length l then Some (set_nth i x l) else None.

(** Heap.h:39-47 *)
Definition left (i : nat) : nat := i * 2 + 1.
Definition right (i : nat) : nat := (i + 1) * 2.
Definition parent (i : nat) : nat := (i - 1) / 2.

(** heap[i] = x; indices[x] = i *)
Definition place (h : heap_t) (i x : nat) : option heap_t :=
  match upd (hp h) i x, upd (idx h) x (Some i) with
  | Some a, Some b => Some (mkHeap a b)
  | _, _ => None
  end.

(** Heap.h:49-61, percolateUp: loop with the element [x] held outside. *)
Fixpoint up_loop (lt : nat -> nat -> bool) (fuel i x : nat) (h : heap_t) : option heap_t :=
  match fuel with
  | 0 => None
  | S f =>
    if i =? 0 then place h i x
    else match nth_error (hp h) (parent i) with
         | None => None
         | Some y => if lt x y then
                       match place h i y with Some h' => up_loop lt f (parent i) x h' | None => None end
                     else place h i x
         end
  end.
Definition percolateUp lt (i : nat) (h : heap_t) : option heap_t :=
  match nth_error (hp h) i with Some x => up_loop lt (S i) i x h | None => None end.

(** Heap.h:63-75, percolateDown *)
Fixpoint down_loop (lt : nat -> nat -> bool) (fuel i x : nat) (h : heap_t) : option heap_t :=
  match fuel with
  | 0 => None
  | S f =>
    if left i <? length (hp h) then
      match nth_error (hp h) (left i) with
      | None => None
      | Some l =>
        let child := if right i <? length (hp h)
                     then match nth_error (hp h) (right i) with
                          | Some r => if lt r l then right i else left i
                          | None => left i
                          end
                     else left i in
        match nth_error (hp h) child with
        | None => None
        | Some c => if lt c x then
                      match place h i c with Some h' => down_loop lt f child x h' | None => None end
                    else place h i x
        end
      end
    else place h i x
  end.
Definition percolateDown lt (i : nat) (h : heap_t) : option heap_t :=
  match nth_error (hp h) i with Some x => down_loop lt (S (length (hp h))) i x h | None => None end.

(** Heap.h:82-90 *)
Definition hsize (h : heap_t) : nat := length (hp h).
Definition hempty (h : heap_t) : bool := length (hp h) =? 0.
Definition inHeap (h : heap_t) (n : nat) : bool :=
  (n <? length (idx h)) && match nth n (idx h) None with Some _ => true | None => false end.

(** Heap.h:96-104; the assertion inHeap(n) is part of the model *)
Definition decrease lt (n : nat) (h : heap_t) : option heap_t :=
  match nth n (idx h) None with Some i => percolateUp lt i h | None => None end.
Definition increase lt (n : nat) (h : heap_t) : option heap_t :=
  match nth n (idx h) None with Some i => percolateDown lt i h | None => None end.
(** Heap.h:116-120 *)
Definition hgrow (n : nat) (h : heap_t) : heap_t :=
  if length (idx h) <? n then mkHeap (hp h) (idx h ++ repeat None (n - length (idx h))) else h.
(** Heap.h:122-127 *)
Definition hinsert lt (n : nat) (h : heap_t) : option heap_t :=
  if inHeap h n then None else
  match upd (idx h) n (Some (length (hp h))) with
  | Some ix => percolateUp lt (length (hp h)) (mkHeap (hp h ++ [n]) ix)
  | None => None
  end.
(** Heap.h:107-114 *)
Definition hupdate lt (n : nat) (h : heap_t) : option heap_t :=
  if inHeap h n then
    match nth n (idx h) None with
    | Some i => match percolateUp lt i h with
                | Some h1 => match nth n (idx h1) None with
                             | Some j => percolateDown lt j h1
                             | None => None
                             end
                | None => None
                end
    | None => None
    end
  else hinsert lt n h.
(** Heap.h:129-138; heap.back() is read before pop_back(), also when it is heap[0] itself *)
Definition removeMin lt (h : heap_t) : option (nat * heap_t) :=
  match hp h with
  | [] => None
  | x :: _ =>
    let b := List.last (hp h) 0 in
    match upd (idx h) b (Some 0) with
    | None => None
    | Some ix1 =>
      match upd ix1 x None with
      | None => None
      | Some ix2 =>
        let h1 := mkHeap (removelast (set_nth 0 b (hp h))) ix2 in
        if 1 <? length (hp h1) then
          match percolateDown lt 0 h1 with Some h2 => Some (x, h2) | None => None end
        else Some (x, h1)
      end
    end
  end.
(** Heap.h:153-158 *)
Fixpoint clear_idx (l : list nat) (ix : list (option nat)) : option (list (option nat)) :=
  match l with
  | [] => Some ix
  | x :: r => match upd ix x None with Some ix' => clear_idx r ix' | None => None end
  end.
Definition hclear (h : heap_t) : option heap_t :=
  match clear_idx (hp h) (idx h) with Some ix => Some (mkHeap [] ix) | None => None end.
(** Heap.h:141-151 *)
Fixpoint fill_idx (i : nat) (l : list nat) (ix : list (option nat)) : option (list (option nat)) :=
  match l with
  | [] => Some ix
  | x :: r => match upd ix x (Some i) with Some ix' => fill_idx (S i) r ix' | None => None end
  end.
(** for (i = n-1; i >= 0; i--) percolateDown(i) *)
Fixpoint heapify lt (n : nat) (h : heap_t) : option heap_t :=
  match n with
  | 0 => Some h
  | S i => match percolateDown lt i h with Some h' => heapify lt i h' | None => None end
  end.
Definition hbuild lt (ns : list nat) (h : heap_t) : option heap_t :=
  match hclear h with
  | None => None
  | Some h0 => match fill_idx 0 ns (idx h0) with
               | None => None
               | Some ix => heapify lt (length ns / 2) (mkHeap ns ix)
               end
  end.
