(** Model of the clause allocator shared by several solver threads
    (src/candy/core/clauses/ClauseAllocator.h and the calls in ClauseDatabase.h).

    A page is a number; what its clauses are plays no role.  Sections under [memory_lock] or [ready_lock]
    are one step each; [free_phase_out_pages] is called without a lock and is a step of its own.
    Pages of a thread's own allocator and unit clauses are not modelled (the former are not shared,
    the latter are never moved or freed).  Page contents: AllocModel.v. *)
Require Import List Arith Bool.
Import ListNotations.

Definition page := nat.
Definition tid := nat.

(** The shared allocator: ClauseAllocatorMemory.h:203-204 [pages], [phase_out_pages], and
    ClauseAllocator.h:151 [ready]; [g_freed] are the pages given back to malloc, [g_next] a page that
    malloc has not returned yet (simplification: addresses are not used again) *)
Record galloc := mkG {
  g_pages : list page; g_phase : list page; g_freed : list page; g_next : page;
  g_ready : list (tid * bool) }.

(** pages obtained from malloc *)
Definition fresh (k : nat) (g : galloc) : list page := seq (g_next g) k.

(** ClauseAllocator.h:157-162; operator[] inserts a missing key *)
Fixpoint put (t : tid) (b : bool) (m : list (tid * bool)) : list (tid * bool) :=
  match m with
  | [] => [(t, b)]
  | (u, c) :: r => if u =? t then (t, b) :: r else (u, c) :: put t b r
  end.
Definition set_ready (t : tid) (b : bool) (g : galloc) : galloc :=
  mkG (g_pages g) (g_phase g) (g_freed g) (g_next g) (put t b (g_ready g)).

(** ClauseAllocator.h:164-177 *)
Definition everybody_ready (g : galloc) : bool * galloc :=
  if forallb snd (g_ready g)
  then (true, mkG (g_pages g) (g_phase g) (g_freed g) (g_next g) (map (fun e => (fst e, false)) (g_ready g)))
  else (false, g).

(** ClauseAllocatorMemory.h:270-272 *)
Definition free_phase_out_pages (g : galloc) : galloc :=
  mkG (g_pages g) [] (g_phase g ++ g_freed g) (g_next g) (g_ready g).

(** ClauseAllocatorMemory.h:254-268; the copies take [S k] new pages *)
Definition reallocate (k : nat) (g : galloc) : galloc :=
  match g_phase g with
  | [] => mkG (fresh (S k) g) (g_pages g) (g_freed g) (g_next g + S k) (g_ready g)
  | _ => g
  end.

(** ClauseAllocatorMemory.h:291-296: [k] pages of another allocator are moved to this one *)
Definition absorb (k : nat) (g : galloc) : galloc :=
  mkG (g_pages g ++ fresh k g) (g_phase g) (g_freed g) (g_next g + k) (g_ready g).

(** ClauseAllocatorMemory.h:220-225: the last page, or a new one if there is none or it is full *)
Definition allocate (full : bool) (g : galloc) : page * galloc :=
  match rev (g_pages g) with
  | p :: _ => if full then (g_next g, absorb 1 g) else (p, g)
  | [] => (g_next g, absorb 1 g)
  end.

(** Where a thread is *)
Inductive pc :=
| POut                      (* has not got the allocator yet *)
| PRun                      (* solving: uses its clauses *)
| PCheck                    (* ClauseAllocator.h:88, before everybody_ready *)
| PFree                     (* line 91, before free_phase_out_pages *)
| PRealloc                  (* line 92, before the locked reallocate *)
| PColl                     (* line 105, before the locked collect *)
| PMark (ps : list page).   (* line 108, before set_ready(true); [ps] are the pages of the clauses read *)

(** [t_refs]: pages of the clauses the solver of this thread refers to *)
Record thread := mkT { t_pc : pc; t_refs : list page }.
Record world := mkW { w_g : galloc; w_t : tid -> thread }.

Definition set_thread (t : tid) (x : thread) (f : tid -> thread) : tid -> thread :=
  fun u => if u =? t then x else f u.
Definition goto (t : tid) (c : pc) (g : galloc) (w : world) : world :=
  mkW g (set_thread t (mkT c (t_refs (w_t w t))) (w_t w)).

(** Actions of a thread *)
Inductive action :=
| AJoin                     (* set_global_allocator: ClauseAllocator.h:125-130 *)
| AUse (p : page)           (* read or write a clause in page [p] *)
| AAlloc (full : bool)      (* allocate with lbd 0: ClauseAllocator.h:47-53 *)
| ASync (k : nat)           (* synchronize: ClauseAllocator.h:67-76, called by ClauseDatabase.h:237 *)
| ACheck                    (* everybody_ready *)
| AFree                     (* free_phase_out_pages *)
| ARealloc (k : nat)        (* reallocate *)
| ACollect                  (* collect under the lock: ClauseAllocator.h:105-107 *)
| AReady.                   (* set_ready(true), and the caller replaces its clauses: ClauseDatabase.h:239 *)

(** One step of thread [t], if it is where it can do this *)
Definition act (t : tid) (a : action) (w : world) : option world :=
  let g := w_g w in
  match t_pc (w_t w t), a with
  | POut, AJoin => Some (goto t PColl (set_ready t false g) w)
  | PRun, AUse p => if existsb (Nat.eqb p) (t_refs (w_t w t)) then Some w else None
  | PRun, AAlloc full =>
    let '(p, g') := allocate full g in
    Some (mkW g' (set_thread t (mkT PRun (p :: t_refs (w_t w t))) (w_t w)))
  | PRun, ASync k => Some (goto t PCheck (absorb k g) w)
  | PCheck, ACheck =>
    let '(b, g') := everybody_ready g in
    Some (goto t (if b then PFree else PColl) g' w)
  | PFree, AFree => Some (goto t PRealloc (free_phase_out_pages g) w)
  | PRealloc, ARealloc k => Some (goto t PColl (reallocate k g) w)
  | PColl, ACollect => Some (goto t (PMark (g_pages g)) g w)
  | PMark ps, AReady => Some (mkW (set_ready t true g) (set_thread t (mkT PRun ps) (w_t w)))
  | _, _ => None
  end.

(** ClauseAllocator.h:132-139: thread [t0] makes the allocator out of its own [k] pages *)
Definition world_init (t0 : tid) (k : nat) : world :=
  mkW (mkG (seq 0 k) [] [] k [(t0, true)])
      (fun u => if u =? t0 then mkT PRun (seq 0 k) else mkT POut []).

(** A schedule: which thread does what *)
Fixpoint run (sch : list (tid * action)) (w : world) : option world :=
  match sch with
  | [] => Some w
  | (t, a) :: r => match act t a w with Some w' => run r w' | None => None end
  end.
