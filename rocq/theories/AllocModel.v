(** Model of the clause memory: Clause objects in pages of raw memory
    (src/candy/core/clauses/Clause.h, ClauseAllocatorMemory.h, ClauseAllocator.h, single-threaded part).

    Memory is an array of 32-bit words: a clause of n literals occupies 1 + n words, the first one holding the two
    uint16_t fields length and weight.  This is exact for sizeof(Clause) = 8, sizeof(Lit) = 4; clauseBytes(0) = 4 by
    the unsigned wrap of length-1 (ClauseAllocatorMemory.h:60-62, 130-132).  Simplification: a literal is stored as an
    unbounded number in its word. *)
Require Import List Arith Bool NArith.
Require Import Verif.Base Verif.Outcome Verif.CNFModel Verif.TrailModel Verif.DbModel.
Import ListNotations.

(** ClauseAllocatorMemory.h:66-68; [pid] names the block returned by malloc, [pw] is its content (arbitrary at first) *)
Record page := mkPage { pid : nat * nat; psz : N; pcur : nat; pw : nat -> N }.
Definition ptr := ((nat * nat) * nat)%type. (* page and word offset *)

(** ClauseAllocatorMemory.h:130-132 in words *)
Definition cwords (length : nat) : nat := S length.
Definition bytes (words : nat) : N := (4 * N.of_nat words)%N.

(** ClauseAllocatorMemory.h:92-95 *)
Definition hasMemory (length : nat) (p : page) : bool := (bytes (pcur p + cwords length) <? psz p)%N.
(** ClauseAllocatorMemory.h:97-103; the result is the old cursor *)
Definition page_allocate (length : nat) (p : page) : nat * page :=
  (pcur p, mkPage (pid p) (psz p) (pcur p + cwords length) (pw p)).

Definition upd (f : nat -> N) (i : nat) (v : N) : nat -> N := fun k => if k =? i then v else f k.
Fixpoint write (f : nat -> N) (i : nat) (vs : list N) : nat -> N :=
  match vs with [] => f | v :: r => write (upd f i v) (S i) r end.
Fixpoint read (f : nat -> N) (i n : nat) : list N :=
  match n with O => [] | S n => f i :: read f (S i) n end.

(** the two fields in the first word; both are uint16_t (Clause.h:40-41) *)
Definition header (length weight : N) : N := ((length mod 65536) + 65536 * (weight mod 65536))%N.
Definition hlen (h : N) : nat := N.to_nat (h mod 65536).
Definition hwt (h : N) : N := (h / 65536)%N.

(** placement new of a Clause (Clause.h:65-71, 152-157): the words written *)
Definition clause_image (ls : list lit) (w : N) : list N := header (N.of_nat (length ls)) w :: map N.of_nat ls.
(** the clause seen at a position: size(), weight, begin()..end() (Clause.h:85-95) *)
Definition clause_at (p : page) (pos : nat) : cobj :=
  mkC (map N.to_nat (read (pw p) (S pos) (hlen (pw p pos)))) (hwt (pw p pos)).

(** writing words into a page; outside of the block it is UB *)
Definition page_write (pos : nat) (ws : list N) (p : page) : out page :=
  if (bytes (pos + length ws) <=? psz p)%N then Ok (mkPage (pid p) (psz p) (pcur p) (write (pw p) pos ws)) else Err UB.

(** ClauseAllocatorPage::const_iterator (ClauseAllocatorMemory.h:36-63) from begin() to end(); reading behind the used
    part is UB *)
Fixpoint page_walk (fuel : nat) (p : page) (pos : nat) : out (list (nat * cobj)) :=
  match fuel with
  | O => Err Fuel
  | S fuel =>
    if pos =? pcur p then Ok []
    else if pcur p <? pos + cwords (hlen (pw p pos)) then Err UB
    else r <- page_walk fuel p (pos + cwords (hlen (pw p pos))) ;; Ok ((pos, clause_at p pos) :: r)
  end.
Definition page_clauses (p : page) : out (list (nat * cobj)) := page_walk (S (pcur p)) p 0.

(** ClauseAllocatorMemory.h:201-204; [own] and [cnt] name the next block of malloc, [junk] is what it contains *)
Record cmem := mkMem { dsz : N; pages : list page; phase_out : list page; own : nat; cnt : nat; junk : nat -> nat -> N }.
(** ClauseAllocatorMemory.h:207-208 *)
Definition mem_new (mb : N) (owner : nat) (junk : nat -> nat -> N) : cmem := mkMem (mb * 1024 * 1024) [] [] owner 0 junk.
Definition with_pages (m : cmem) (ps : list page) : cmem := mkMem (dsz m) ps (phase_out m) (own m) (cnt m) (junk m).
(** pages.emplace_back(size) *)
Definition new_page (size : N) (m : cmem) : cmem :=
  mkMem (dsz m) (pages m ++ [mkPage (own m, cnt m) size 0 (junk m (cnt m))]) (phase_out m) (own m) (S (cnt m)) (junk m).

(** ClauseAllocatorMemory.h:220-225 *)
Definition fits (len : nat) (m : cmem) : bool :=
  match rev (pages m) with [] => false | p :: _ => hasMemory len p end.
Definition mem_allocate (len : nat) (m : cmem) : ptr * cmem :=
  let m1 := if fits len m then m else new_page (dsz m) m in
  match rev (pages m1) with
  | [] => ((0, 0, 0), m1)
  | p :: r => let '(off, p1) := page_allocate len p in ((pid p, off), with_pages m1 (rev (p1 :: r)))
  end.

Definition pid_eqb (a b : nat * nat) : bool := (fst a =? fst b) && (snd a =? snd b).
(** apply a write to the page a pointer points into *)
Fixpoint write_at (x : ptr) (ws : list N) (ps : list page) : out (list page) :=
  match ps with
  | [] => Err UB
  | p :: r => if pid_eqb (pid p) (fst x) then p1 <- page_write (snd x) ws p ;; Ok (p1 :: r)
              else r1 <- write_at x ws r ;; Ok (p :: r1)
  end.
Definition mem_write (x : ptr) (ws : list N) (m : cmem) : out cmem := ps <- write_at x ws (pages m) ;; Ok (with_pages m ps).

(** new (allocate(length)) Clause(begin, end, weight), ClauseDatabase.h:187 *)
Definition mem_create (ls : list lit) (w : N) (m : cmem) : out (ptr * cmem) :=
  let '(x, m1) := mem_allocate (length ls) m in
  m2 <- mem_write x (clause_image ls w) m1 ;; Ok (x, m2).

(** ClauseAllocatorMemory::const_iterator (ClauseAllocatorMemory.h:143-198): the remaining pages and the position *)
Fixpoint skip_empty_pages (ps : list page) (pos : nat) : list page * nat :=
  match ps with
  | [] => ([], 0)
  | p :: r => if pos =? pcur p then skip_empty_pages r 0 else (ps, pos)
  end.
Fixpoint mem_walk (fuel : nat) (ps : list page) (pos : nat) : out (list (ptr * cobj)) :=
  match fuel with
  | O => Err Fuel
  | S fuel =>
    match ps with
    | [] => Ok []
    | p :: _ =>
      if pcur p <? pos + cwords (hlen (pw p pos)) then Err UB
      else let '(ps1, pos1) := skip_empty_pages ps (pos + cwords (hlen (pw p pos))) in
           r <- mem_walk fuel ps1 pos1 ;; Ok (((pid p, pos), clause_at p pos) :: r)
    end
  end.
Definition used_words (ps : list page) : nat := list_sum (map pcur ps).
(** for (const Clause* clause : memory) *)
Definition mem_clauses (m : cmem) : out (list (ptr * cobj)) :=
  let '(ps, pos) := skip_empty_pages (pages m) 0 in mem_walk (S (used_words (pages m))) ps pos.

(** ClauseAllocatorMemory.h:236-244 *)
Definition is_del (c : cobj) : bool := (wt c =? W_DELETED)%N.
Definition mem_collect (m : cmem) : out (list (ptr * cobj)) :=
  l <- mem_clauses m ;; Ok (filter (fun x => negb (is_del (snd x))) l).

(** setDeleted, setLBD, setPersistent (Clause.h:52-62) through a pointer *)
Fixpoint page_of (i : nat * nat) (ps : list page) : option page :=
  match ps with [] => None | p :: r => if pid_eqb (pid p) i then Some p else page_of i r end.
Definition set_weight (x : ptr) (w : N) (m : cmem) : out cmem :=
  match page_of (fst x) (pages m) with
  | None => Err UB
  | Some p => mem_write x [header (N.of_nat (hlen (pw p (snd x)))) w] m
  end.

(** Clause::swap (Clause.h:45-50) through a pointer *)
Definition swap_lits (x : ptr) (i j : nat) (m : cmem) : out cmem :=
  match page_of (fst x) (pages m) with
  | None => Err UB
  | Some p => let a := S (snd x + i) in let b := S (snd x + j) in
              m1 <- mem_write (fst x, a) [pw p b] m ;; mem_write (fst x, b) [pw p a] m1
  end.

(** memcpy(clause, old_clause, clauseBytes(old_clause->size())) into a newly allocated clause *)
Definition copy_clause (p : page) (pos : nat) (m : cmem) : out cmem :=
  let n := hlen (pw p pos) in
  let '(x, m1) := mem_allocate n m in mem_write x (read (pw p) pos (cwords n)) m1.
Fixpoint copy_page (p : page) (l : list (nat * cobj)) (m : cmem) : out cmem :=
  match l with
  | [] => Ok m
  | (pos, c) :: r => m1 <- (if is_del c then Ok m else copy_clause p pos m) ;; copy_page p r m1
  end.
Fixpoint copy_pages (ps : list page) (m : cmem) : out cmem :=
  match ps with
  | [] => Ok m
  | p :: r => l <- page_clauses p ;; m1 <- copy_page p l m ;; copy_pages r m1
  end.
(** ClauseAllocatorMemory.h:254-268 *)
Definition reallocate (m : cmem) : out cmem :=
  match phase_out m with
  | [] => copy_pages (pages m) (new_page (bytes (used_words (pages m))) (mkMem (dsz m) [] (pages m) (own m) (cnt m) (junk m)))
  | _ => Ok m
  end.
(** ClauseAllocatorMemory.h:270-272 *)
Definition free_phase_out (m : cmem) : cmem := mkMem (dsz m) (pages m) [] (own m) (cnt m) (junk m).
(** ClauseAllocatorMemory.h:274-277 *)
Definition mem_clear (m : cmem) : cmem := mkMem (dsz m) [] [] (own m) (cnt m) (junk m).
(** ClauseAllocator.h:83-85 (the part for one thread) *)
Definition reorganize_mem (m : cmem) : out cmem := m1 <- reallocate m ;; Ok (free_phase_out m1).

(** ClauseAllocatorMemory.h:279-289: [m] imports from [o]; both are returned *)
Definition import_cond (limit : nat) (c : cobj) : bool :=
  (wt c =? 0)%N || (negb (is_del c) && ((limit =? 0) || (length (lits c) <? limit))).
Fixpoint import_clauses (limit : nat) (p : page) (l : list (nat * cobj)) (m o : cmem) : out (cmem * cmem) :=
  match l with
  | [] => Ok (m, o)
  | (pos, c) :: r =>
    if import_cond limit c then
      m1 <- copy_clause p pos m ;;
      o1 <- set_weight (pid p, pos) W_DELETED o ;;
      import_clauses limit p r m1 o1
    else import_clauses limit p r m o
  end.
Fixpoint import_pages (limit : nat) (ps : list page) (m o : cmem) : out (cmem * cmem) :=
  match ps with
  | [] => Ok (m, o)
  | p :: r => l <- page_clauses p ;; '(m1, o1) <- import_clauses limit p l m o ;; import_pages limit r m1 o1
  end.
Definition mem_import (limit : nat) (m o : cmem) : out (cmem * cmem) := import_pages limit (pages o) m o.
(** ClauseAllocatorMemory.h:291-296 *)
Definition mem_absorb (m o : cmem) : cmem * cmem := (with_pages m (pages m ++ pages o), with_pages o []).

(** ClauseAllocator.h:142-143, 78-81 and 99-102: the two memories of one thread *)
Record alloc_t := mkAlloc { a_mem : cmem; a_facts : cmem }.
Definition alloc_new (junk1 junk2 : nat -> nat -> N) : alloc_t := mkAlloc (mem_new 32 0 junk1) (mem_new 1 1 junk2).
Definition alloc_create (ls : list lit) (w : N) (a : alloc_t) : out (ptr * alloc_t) :=
  if length ls =? 1 then '(x, m) <- mem_create ls w (a_facts a) ;; Ok (x, mkAlloc (a_mem a) m)
  else '(x, m) <- mem_create ls w (a_mem a) ;; Ok (x, mkAlloc m (a_facts a)).
Definition alloc_collect (a : alloc_t) : out (list (ptr * cobj)) :=
  l1 <- mem_collect (a_mem a) ;; l2 <- mem_collect (a_facts a) ;; Ok (l1 ++ l2).
Definition alloc_reorganize (a : alloc_t) : out alloc_t :=
  m <- reorganize_mem (a_mem a) ;; Ok (mkAlloc m (a_facts a)).
(** ClauseAllocator.h:63-65 *)
Definition alloc_set_weight (x : ptr) (w : N) (a : alloc_t) : out alloc_t :=
  match page_of (fst x) (pages (a_mem a)) with
  | Some _ => m <- set_weight x w (a_mem a) ;; Ok (mkAlloc m (a_facts a))
  | None => m <- set_weight x w (a_facts a) ;; Ok (mkAlloc (a_mem a) m)
  end.

(** ClauseDatabase.h:183-194: is the created clause taken for the empty clause? *)
Definition create_is_empty (x : ptr) (a : alloc_t) : bool :=
  match page_of (fst x) (pages (a_mem a) ++ pages (a_facts a)) with
  | Some p => hlen (pw p (snd x)) =? 0
  | None => false
  end.
