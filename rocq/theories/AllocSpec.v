(** Histories of a clause memory and what they mean: the list of its clauses in allocation order. *)
Require Import List Arith Bool NArith.
Require Import Verif.Base Verif.Outcome Verif.CNFModel Verif.TrailModel Verif.DbModel Verif.AllocModel.
Import ListNotations.

(** The operations the solver performs on a memory; [k] means the k-th clause of the current iteration. *)
Inductive aop :=
| ACreate (ls : list lit) (w : N)   (* allocate memory and construct a clause there *)
| AWeight (k : nat) (w : N)         (* setLBD/setPersistent; weight 65535 is setDeleted *)
| ASwap (k i j : nat)               (* exchange two literals *)
| AReorganize.                      (* copy the clauses that are not deleted into new pages, free the old ones *)

(** executing an operation with the code *)
Definition on_kth (m : cmem) (k : nat) (f : ptr -> out cmem) : out cmem :=
  l <- mem_clauses m ;; match nth_error l k with Some (x, _) => f x | None => Ok m end.
Definition exec (o : aop) (m : cmem) : out cmem :=
  match o with
  | ACreate ls w => '(_, m1) <- mem_create ls w m ;; Ok m1
  | AWeight k w => on_kth m k (fun x => set_weight x w m)
  | ASwap k i j => on_kth m k (fun x => swap_lits x i j m)
  | AReorganize => reorganize_mem m
  end.
Fixpoint execs (os : list aop) (m : cmem) : out cmem :=
  match os with [] => Ok m | o :: r => m1 <- exec o m ;; execs r m1 end.

(** what it means for the list of clauses *)
Fixpoint at_kth {A} (k : nat) (f : A -> A) (l : list A) : list A :=
  match l, k with
  | [], _ => []
  | x :: r, O => f x :: r
  | x :: r, S k => x :: at_kth k f r
  end.
Definition swapped (i j : nat) (ls : list lit) : list lit :=
  at_kth j (fun _ => nth i ls 0) (at_kth i (fun _ => nth j ls 0) ls).
Definition meaning (o : aop) (l : list cobj) : list cobj :=
  match o with
  | ACreate ls w => l ++ [mkC ls w]
  | AWeight k w => at_kth k (fun c => mkC (lits c) w) l
  | ASwap k i j => at_kth k (fun c => mkC (swapped i j (lits c)) (wt c)) l
  | AReorganize => filter (fun c => negb (wt c =? 65535)%N) l
  end.
Definition meanings (os : list aop) : list cobj := fold_left (fun l o => meaning o l) os [].

(** clauses have less than 65536 literals, weights less than 65536, swapped positions exist *)
Definition op_ok (l : list cobj) (o : aop) : Prop :=
  match o with
  | ACreate ls w => (N.of_nat (length ls) < 65536)%N /\ (w < 65536)%N
  | AWeight k w => (w < 65536)%N
  | ASwap k i j => forall c, nth_error l k = Some c -> i < length (lits c) /\ j < length (lits c)
  | AReorganize => True
  end.
Fixpoint ops_ok (l : list cobj) (os : list aop) : Prop :=
  match os with [] => True | o :: r => op_ok l o /\ ops_ok (meaning o l) r end.

(** the words [off, off + 1 + size) of the page *)
Definition overlap (a b : ptr * cobj) : Prop :=
  fst (fst a) = fst (fst b) /\ exists k, snd (fst a) <= k < snd (fst a) + S (length (lits (snd a))) /\ snd (fst b) <= k < snd (fst b) + S (length (lits (snd b))).
Definition inside (ps : list page) (a : ptr * cobj) : Prop :=
  exists p, In p ps /\ pid p = fst (fst a) /\ (4 * N.of_nat (snd (fst a) + S (length (lits (snd a)))) <= psz p)%N.

(** ** The clause database of DbModel.v on top of the clause memory
    The database model names clauses by numbers; here every clause also has its address, and each operation of the
    database is executed together with the memory operations of the code. *)
Record dstate := mkDS { ds_d : db; ds_a : alloc_t; ds_addr : cid -> ptr }.
Inductive dop :=
| DCreate (ls : list lit) (lbd : N) (lemma : bool)
| DWeight (c : cid) (w : N)
| DSwap (c : cid) (i j : nat)
| DRemove (c : cid)
| DReorganize.
Definition alloc_swap (x : ptr) (i j : nat) (a : alloc_t) : out alloc_t :=
  match page_of (fst x) (pages (a_mem a)) with
  | Some _ => m <- swap_lits x i j (a_mem a) ;; Ok (mkAlloc m (a_facts a))
  | None => m <- swap_lits x i j (a_facts a) ;; Ok (mkAlloc (a_mem a) m)
  end.
(** the addresses after all clauses of the memory have been copied (ClauseDatabase.h:240: clauses = allocator.collect()) *)
Fixpoint readdress (cs : list cid) (xs : list (ptr * cobj)) (f : cid -> ptr) : cid -> ptr :=
  match cs, xs with
  | c :: cs, (x, _) :: xs => readdress cs xs (fun k => if k =? c then x else f k)
  | _, _ => f
  end.
Definition dexec (o : dop) (s : dstate) : out dstate :=
  let d := ds_d s in let a := ds_a s in
  match o with
  | DCreate ls lbd lemma =>
    '(c, d1) <- createClause ls lbd lemma d ;;
    '(x, a1) <- alloc_create ls (if length ls <? 3 then 0%N else (lbd mod 65536)%N) a ;;
    Ok (mkDS d1 a1 (fun k => if k =? c then x else ds_addr s k))
  | DWeight c w => a1 <- alloc_set_weight (ds_addr s c) w a ;; Ok (mkDS (with_arena d (set_wt c w (arena d))) a1 (ds_addr s))
  | DSwap c i j => a1 <- alloc_swap (ds_addr s c) i j a ;; Ok (mkDS (with_arena d (set_lits c (swapped i j (clits d c)) (arena d))) a1 (ds_addr s))
  | DRemove c => a1 <- alloc_set_weight (ds_addr s c) 65535 a ;; Ok (mkDS (removeClause c d) a1 (ds_addr s))
  | DReorganize => a1 <- alloc_reorganize a ;; l <- mem_clauses (a_mem a1) ;;
                   let d1 := reorganize d in Ok (mkDS d1 a1 (readdress (mem d1) l (ds_addr s)))
  end.
Fixpoint dexecs (os : list dop) (s : dstate) : out dstate :=
  match os with [] => Ok s | o :: r => s1 <- dexec o s ;; dexecs r s1 end.
(** operations concern clauses that are in the memory *)
Definition dop_ok (d : db) (o : dop) : Prop :=
  match o with
  | DCreate ls _ _ => (N.of_nat (length ls) < 65536)%N
  | DWeight c w => In c (mem d ++ facts d) /\ (w < 65536)%N
  | DSwap c i j => In c (mem d ++ facts d) /\ i < length (clits d c) /\ j < length (clits d c)
  | DRemove c => In c (mem d ++ facts d)
  | DReorganize => True
  end.
(** what the database alone does *)
Definition dmeaning (o : dop) (d : db) : out db :=
  match o with
  | DCreate ls lbd lemma => '(_, d1) <- createClause ls lbd lemma d ;; Ok d1
  | DWeight c w => Ok (with_arena d (set_wt c w (arena d)))
  | DSwap c i j => Ok (with_arena d (set_lits c (swapped i j (clits d c)) (arena d)))
  | DRemove c => Ok (removeClause c d)
  | DReorganize => Ok (reorganize d)
  end.
Fixpoint dhistory (os : list dop) (d d' : db) : Prop :=
  match os with
  | [] => d' = d
  | o :: r => dop_ok d o /\ exists d1, dmeaning o d = Ok d1 /\ dhistory r d1 d'
  end.

(** the clause that is seen through a pointer *)
Definition stored (x : ptr) (a : alloc_t) : option cobj :=
  match page_of (fst x) (pages (a_mem a) ++ pages (a_facts a)) with
  | Some p => Some (clause_at p (snd x))
  | None => None
  end.
(** the state of a database after a history of operations *)
Definition reached (junk1 junk2 : nat -> nat -> N) (os : list dop) (s : dstate) : Prop :=
  dexecs os (mkDS db_new (alloc_new junk1 junk2) (fun _ => (0, 0, 0))) = Ok s /\ dhistory os db_new (ds_d s).
(** a clause that another memory takes: persistent ones (weight 0) always, deleted ones never, others if they are shorter
    than the limit, if there is one; and what the source contains afterwards *)
Definition selected (limit : nat) (c : cobj) : bool :=
  if (wt c =? 0)%N then true
  else if (wt c =? 65535)%N then false
  else match limit with 0 => true | S k => length (lits c) <=? k end.
Definition after_import (limit : nat) (a : ptr * cobj) : ptr * cobj :=
  (fst a, if selected limit (snd a) then mkC (lits (snd a)) 65535 else snd a).
