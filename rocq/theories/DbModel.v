(** Model of Candy::Clause and Candy::ClauseDatabase for a single solver thread
    (src/candy/core/clauses/Clause.h, ClauseDatabase.h, ClauseAllocator.h).

    Clause objects live in [arena] and are named by their index, which plays the role of the
    pointer; an object is never overwritten by another one.  [mem] and [facts] are the contents of
    the two allocator memories (ClauseAllocator.h:142-143) in address order, [cls] the vector
    [clauses].  The byte layout of the memories is modelled in AllocModel.v.  Creating a clause of
    65536 or more literals, whose recorded length would wrap (C08), is the outcome [TooLong]. *)
Require Import List Arith Bool NArith Verif.Base Verif.CNFModel Verif.Outcome Verif.TrailModel.
Import ListNotations.

(** Clause.h:39-43 *)
Record cobj := mkC { lits : list lit; wt : N }.
Definition W_DELETED : N := 65535.

(** one line of the certificate file, Certificate.h:66-85 *)
Inductive cline := CAdd (c : list lit) | CDel (c : list lit).

(** ClauseDatabase.h:70-83 *)
Record db := mkDb {
  arena : list cobj;
  mem : list cid;
  facts : list cid;
  cls : list cid;
  nv : nat;
  empt : bool;
  bw : list (list (cid * lit));
  cert : list cline (* newest first *) }.

Definition db_new : db := mkDb [] [] [] [] 0 false [] [].

Definition cnull : cobj := mkC [] 0.
Definition cobj_at (d : db) (c : cid) : cobj := nth c (arena d) cnull.
Definition clits (d : db) (c : cid) : list lit := lits (cobj_at d c).
Definition cwt (d : db) (c : cid) : N := wt (cobj_at d c).
(** Clause.h:133-143 *)
Definition isPersistent (d : db) (c : cid) : bool := (cwt d c =? 0)%N.
Definition isLearnt (d : db) (c : cid) : bool := (0 <? cwt d c)%N.
Definition isDeleted (d : db) (c : cid) : bool := (cwt d c =? W_DELETED)%N.

Definition with_arena (d : db) (a : list cobj) : db :=
  mkDb a (mem d) (facts d) (cls d) (nv d) (empt d) (bw d) (cert d).
Definition with_bw (d : db) (b : list (list (cid * lit))) : db :=
  mkDb (arena d) (mem d) (facts d) (cls d) (nv d) (empt d) b (cert d).

(** Clause.h:52-62 (setDeleted, setLBD) *)
Definition set_wt (c : cid) (w : N) (a : list cobj) : list cobj :=
  set_nth c (mkC (lits (nth c a cnull)) w) a.
Definition set_lits (c : cid) (ls : list lit) (a : list cobj) : list cobj :=
  set_nth c (mkC ls (wt (nth c a cnull))) a.

Definition push_at {A} (i : nat) (x : A) (t : list (list A)) : list (list A) :=
  set_nth i (nth i t [] ++ [x]) t.
Definition filter_at {A} (i : nat) (f : A -> bool) (t : list (list A)) : list (list A) :=
  set_nth i (filter f (nth i t [])) t.

(** binaryWatchers[~first].emplace_back(clause, second); binaryWatchers[~second].emplace_back(..) *)
Definition watch_binary (c : cid) (ls : list lit) (b : list (list (cid * lit))) :=
  match ls with
  | [x; y] => push_at (lneg y) (c, x) (push_at (lneg x) (c, y) b)
  | _ => b
  end.

(** ClauseDatabase.h:177-180 *)
Definition emptyClause (d : db) : db :=
  mkDb (arena d) (mem d) (facts d) (cls d) (nv d) true (bw d) (CAdd [] :: cert d).

(** ClauseDatabase.h:183-201 and ClauseAllocator.h:47-61 *)
Definition createClause (ls : list lit) (lbd : N) (lemma : bool) (d : db) : out (cid * db) :=
  if (65536 <=? N.of_nat (length ls))%N then Err TooLong
  else
    let w := if length ls <? 3 then 0%N else (lbd mod 65536)%N in
    let c := length (arena d) in
    Ok (c, mkDb (arena d ++ [mkC ls w])
                (if length ls =? 1 then mem d else mem d ++ [c])
                (if length ls =? 1 then facts d ++ [c] else facts d)
                (cls d ++ [c]) (nv d)
                (if length ls =? 0 then true else empt d)
                (watch_binary c ls (bw d))
                (if lemma then cert d else CAdd ls :: cert d)).

Definition not_clause (c : cid) (x : cid * lit) : bool := negb (fst x =? c).

(** ClauseDatabase.h:203-214 *)
Definition removeClause (c : cid) (d : db) : db :=
  let ls := clits d c in
  mkDb (set_wt c W_DELETED (arena d)) (mem d) (facts d) (cls d) (nv d) (empt d)
       (match ls with
        | [x; y] => filter_at (lneg y) (not_clause c) (filter_at (lneg x) (not_clause c) (bw d))
        | _ => bw d
        end)
       (CDel ls :: cert d).

(** ClauseDatabase.h:216-223 *)
Definition strengthenClause (c : cid) (l : lit) (d : db) : out (cid * db) :=
  let ls := filter (fun x => negb (x =? l)) (clits d c) in
  '(c', d1) <- createClause ls (N.min (cwt d c) (N.of_nat (length ls) mod 65536)) false d ;;
  Ok (c', removeClause c d1).

(** ClauseDatabase.h:229-231, ClauseAllocator.h:115-123 and ClauseAllocatorMemory.h:236-244 *)
Definition getUnitClauses (d : db) : list cid := filter (fun c => negb (isDeleted d c)) (facts d).

(** ClauseDatabase.h:119-128 *)
Definition reinitBinaryWatchers (d : db) : db :=
  with_bw d (fold_left (fun b c => watch_binary c (clits d c) b) (cls d) (repeat [] (2 * nv d + 2))).

(** ClauseDatabase.h:236-241, ClauseAllocator.h:83-113 without a global allocator: the live clauses
    of [mem] are copied to fresh pages; [facts] stays. *)
Definition reorganize (d : db) : db :=
  let m := filter (fun c => negb (isDeleted d c)) (mem d) in
  reinitBinaryWatchers
    (mkDb (arena d) m (facts d) (m ++ getUnitClauses d) (nv d) (empt d) (bw d) (cert d)).

(** ClauseDatabase.h:130-139 with recalculateLBD; Clause.h:60-62 *)
Fixpoint reestimate (t : trail_t) (cs : list cid) (d : db) : db :=
  match cs with
  | [] => d
  | c :: r =>
    reestimate t r
      (if isLearnt d c
       then with_arena d (set_wt c (N.of_nat (computeLBD t (clits d c)) mod 65536) (arena d))
       else d)
  end.

(** ClauseDatabase.h:108-117 with lemma = true and no global allocator *)
Fixpoint create_all (cs : list (list lit)) (lemma : bool) (d : db) : out db :=
  match cs with
  | [] => Ok d
  | c :: r =>
    '(_, d1) <- createClause c (if lemma then 0%N else N.of_nat (length c)) lemma d ;;
    create_all r lemma d1
  end.
Definition db_grow (n : nat) (d : db) : db :=
  if nv d <? n then
    mkDb (arena d) (mem d) (facts d) (cls d) n (empt d) (resize (2 * n + 2) [] (bw d)) (cert d)
  else d.
Definition db_init (n : nat) (cs : list (list lit)) (lemma : bool) (d : db) : out db :=
  create_all cs lemma (db_grow n d).
