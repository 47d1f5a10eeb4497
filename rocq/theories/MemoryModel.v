(** Paged storage: mtl/Memory.h. *)
Require Import List Arith Bool NArith.
Require Import Verif.Outcome.
Import ListNotations.

Section Mem.
(** [T] are the values of the elements, [sz] is sizeof(T) *)
Variables (T : Type) (sz : N).

(** Memory.h:65-134 MemoryPage.  [pid] stands for the address of the memory block, [cells] are the elements written so far;
    the cursor is sz times their number.  Copies of elements (memcpy, std::sort) copy the value. *)
Record page := mkPage { pid : nat; psize : N; cells : list T }.
Definition cursor (p : page) : N := (sz * N.of_nat (length (cells p)))%N.
(** Memory.h:92-95 *)
Definition hasMemory (p : page) : bool := (cursor p + sz <? psize p)%N.
(** Memory.h:97-102 allocate, followed by the store of the element; the store is undefined outside of the block *)
Definition page_push (x : T) (p : page) : out page :=
  if (cursor p + sz <=? psize p)%N then Ok (mkPage (pid p) (psize p) (cells p ++ [x])) else Err UB.

(** Memory.h:142-143, 219-222.  [fresh] is the next block address. *)
Record memory := mkMem { dflt : N; pages : list page; fresh : nat }.
(** Memory.h:225-226; the product is computed in 32 bits *)
Definition mem_new (mb : N) : memory := mkMem ((mb * 1048576) mod 4294967296) [] 0.

(** Memory.h:238-243 allocate with the store; the result is the address: block and position in the block *)
Definition add_page (size : N) (m : memory) : memory := mkMem (dflt m) (pages m ++ [mkPage (fresh m) size []]) (S (fresh m)).
Definition push_back (x : T) (ps : list page) : out (list page * (nat * nat)) :=
  match rev ps with
  | [] => Err UB
  | p :: r => p' <- page_push x p ;; Ok (rev r ++ [p'], (pid p, length (cells p)))
  end.
Definition allocate (x : T) (m : memory) : out (memory * (nat * nat)) :=
  let m1 := match rev (pages m) with
            | [] => add_page (dflt m) m
            | p :: _ => if hasMemory p then m else add_page (dflt m) m
            end in
  '(ps, a) <- push_back x (pages m1) ;; Ok (mkMem (dflt m1) ps (fresh m1), a).
(** reading through an address that was handed out *)
Definition load (m : memory) (a : nat * nat) : option T :=
  match find (fun p => pid p =? fst a) (pages m) with Some p => nth_error (cells p) (snd a) | None => None end.

(** Memory.h:245-247, 249-255 *)
Definition free_all (m : memory) : memory := mkMem (dflt m) [] (fresh m).
Definition used (m : memory) : N := fold_left (fun n p => n + cursor p)%N (pages m) 0%N.

(** Memory.h:145-217 const_iterator: page number, position and end position in that page ([None] is nullptr); [end_page] is
    the number of pages *)
Record iter := mkIt { it_page : nat; it_pos : option nat; it_end : option nat }.
Definition page_len (ps : list page) (i : nat) : nat := match nth_error ps i with Some p => length (cells p) | None => 0 end.
Definition pos_eq (a b : option nat) : bool := match a, b with Some x, Some y => x =? y | None, None => true | _, _ => false end.
(** Memory.h:204-215; at most one round for each page *)
Fixpoint skip_loop (fuel : nat) (ps : list page) (i : iter) : out iter :=
  if pos_eq (it_pos i) (it_end i) && negb (it_page i =? length ps) then
    match fuel with
    | 0 => Err Fuel
    | S f => let p := S (it_page i) in
             skip_loop f ps (if p =? length ps then mkIt p None None else mkIt p (Some 0) (Some (page_len ps p)))
    end
  else Ok i.
Definition skip_empty_pages (ps : list page) (i : iter) : out iter := skip_loop (length ps) ps i.
(** Memory.h:229-236 *)
Definition it_last (ps : list page) : out iter := skip_empty_pages ps (mkIt (length ps) None None).
Definition it_begin (ps : list page) : out iter :=
  match ps with
  | [] => it_last ps
  | p :: _ => skip_empty_pages ps (mkIt 0 (Some 0) (Some (length (cells p))))
  end.
(** Memory.h:157-160 operator *: the element, or nullptr *)
Definition deref (ps : list page) (i : iter) : option T :=
  match it_pos i with
  | None => None
  | Some k => match nth_error ps (it_page i) with Some p => nth_error (cells p) k | None => None end
  end.
(** Memory.h:167-176 operator ++ *)
Definition it_next (ps : list page) (i : iter) : out iter :=
  i1 <- skip_empty_pages ps i ;;
  match it_pos i1 with
  | None => Ok i1
  | Some k => skip_empty_pages ps (mkIt (it_page i1) (Some (S k)) (it_end i1))
  end.
(** Memory.h:178-184 operator + *)
Fixpoint it_plus (n : nat) (ps : list page) (i : iter) : out iter :=
  match n with 0 => skip_empty_pages ps i | S n => i1 <- it_plus n ps i ;; it_next ps i1 end.
(** Memory.h:186-192 *)
Definition it_eq (a b : iter) : bool := (it_page a =? it_page b) && pos_eq (it_pos a) (it_pos b).
(** for (const T* element : memory): the elements seen *)
Fixpoint for_loop (fuel : nat) (ps : list page) (i e : iter) : out (list (option T)) :=
  if it_eq i e then Ok [] else
  match fuel with
  | 0 => Err Fuel
  | S f => i1 <- it_next ps i ;; r <- for_loop f ps i1 e ;; Ok (deref ps i :: r)
  end.
Definition for_each (m : memory) : out (list (option T)) :=
  b <- it_begin (pages m) ;; e <- it_last (pages m) ;; for_loop (length (flat_map cells (pages m))) (pages m) b e.

(** Memory.h:257-272 sort; [srt] is what std::sort with the comparison does to a sequence.  Several pages are first copied to
    one new page; the old pages are freed. *)
Fixpoint copy_elements (es : list (option T)) (p : page) : out page :=
  match es with
  | [] => Ok p
  | Some x :: r => p1 <- page_push x p ;; copy_elements r p1
  | None :: _ => Err UB
  end.
Definition mem_sort (srt : list T -> list T) (m : memory) : out memory :=
  match pages m with
  | [] => Ok m
  | [p] => Ok (mkMem (dflt m) [mkPage (pid p) (psize p) (srt (cells p))] (fresh m))
  | _ => es <- for_each m ;;
         p <- copy_elements es (mkPage (fresh m) (used m) []) ;;
         Ok (mkMem (dflt m) [mkPage (pid p) (psize p) (srt (cells p))] (S (fresh m)))
  end.
End Mem.
Arguments mkMem {T}. Arguments dflt {T}. Arguments pages {T}. Arguments fresh {T}. Arguments mkPage {T}. Arguments pid {T}. Arguments psize {T}. Arguments cells {T}.
Arguments load {T}. Arguments free_all {T}. Arguments deref {T}. Arguments for_each {T}. Arguments allocate {T}. Arguments mem_sort {T}.
Arguments it_begin {T}. Arguments it_last {T}. Arguments it_next {T}. Arguments it_plus {T}. Arguments used {T}.
