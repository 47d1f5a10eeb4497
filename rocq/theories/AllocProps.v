(** C12: the clause memory; C08: clauses of every length. *)
Require Import List Arith Bool NArith Lia.
Require Import Verif.Base Verif.Outcome Verif.CNFModel Verif.TrailModel Verif.DbModel Verif.AllocModel Verif.AllocSpec Verif.AllocMore.
Import ListNotations.

(** Whatever sequence of creations, weight changes, deletions, literal swaps and reorganisations is run on an empty clause
    memory, nothing is undefined, and iterating the memory yields exactly the clauses that the sequence means, in
    allocation order, with the literals and weights they must have; their blocks lie inside the pages and are pairwise
    disjoint. *)
Theorem C12_history mb o j os : (1 <= mb)%N -> ops_ok [] os ->
  exists m l, execs os (mem_new mb o j) = Ok m /\ mem_clauses m = Ok l /\ map snd l = meanings os /\
    Forall (inside (pages m)) l /\ ForallOrdPairs (fun a b => ~ overlap a b) l.
Proof. exact (history_thm mb o j os). Qed.
Print Assumptions C12_history.

(** Pointers stay valid: creating a clause returns a new pointer and leaves all others and their clauses as they are,
    writing through a pointer changes only that clause. *)
Theorem C12_pointers_stable mb o j os m l : (1 <= mb)%N -> ops_ok [] os -> execs os (mem_new mb o j) = Ok m -> mem_clauses m = Ok l ->
  (forall ls w, (N.of_nat (length ls) < 65536)%N -> (w < 65536)%N ->
     exists x m', mem_create ls w m = Ok (x, m') /\ mem_clauses m' = Ok (l ++ [(x, mkC ls w)])) /\
  (forall k x c w, nth_error l k = Some (x, c) -> (w < 65536)%N ->
     exists m', set_weight x w m = Ok m' /\ mem_clauses m' = Ok (at_kth k (fun _ => (x, mkC (lits c) w)) l)) /\
  (forall k x c i i', nth_error l k = Some (x, c) -> i < length (lits c) -> i' < length (lits c) ->
     exists m', swap_lits x i i' m = Ok m' /\ mem_clauses m' = Ok (at_kth k (fun _ => (x, mkC (swapped i i' (lits c)) (wt c))) l)).
Proof. exact (stable_thm mb o j os m l). Qed.
Print Assumptions C12_pointers_stable.

(** reallocate keeps exactly the clauses that are not deleted, unchanged and in order, and keeps the old pages until they
    are freed; collect returns exactly the clauses that are not deleted. *)
Theorem C12_reallocate mb o j os m l : (1 <= mb)%N -> ops_ok [] os -> execs os (mem_new mb o j) = Ok m -> mem_clauses m = Ok l ->
  exists m' l', reallocate m = Ok m' /\ mem_clauses m' = Ok l' /\ map snd l' = filter (fun c => negb (wt c =? 65535)%N) (map snd l) /\ phase_out m' = pages m /\
    Forall (inside (pages m')) l' /\ ForallOrdPairs (fun a b => ~ overlap a b) l' /\
    mem_collect m = Ok (filter (fun a => negb (wt (snd a) =? 65535)%N) l).
Proof. exact (reallocate_thm mb o j os m l). Qed.
Print Assumptions C12_reallocate.

(** Importing from another memory appends copies of exactly the clauses selected by the size limit (persistent ones always,
    deleted ones never) and deletes exactly these in the other memory; absorbing a memory appends all its clauses at their
    old addresses and leaves it empty. *)
Theorem C12_import_absorb limit mb1 mb2 j1 j2 os1 os2 m o lm lo : (1 <= mb1)%N -> (1 <= mb2)%N -> ops_ok [] os1 -> ops_ok [] os2 ->
  execs os1 (mem_new mb1 0 j1) = Ok m -> execs os2 (mem_new mb2 1 j2) = Ok o -> mem_clauses m = Ok lm -> mem_clauses o = Ok lo ->
  (exists m' o' lm', mem_import limit m o = Ok (m', o') /\ mem_clauses m' = Ok lm' /\
     map snd lm' = map snd lm ++ filter (selected limit) (map snd lo) /\ mem_clauses o' = Ok (map (after_import limit) lo)) /\
  mem_clauses (fst (mem_absorb m o)) = Ok (lm ++ lo) /\ mem_clauses (snd (mem_absorb m o)) = Ok [].
Proof. exact (import_thm limit mb1 mb2 j1 j2 os1 os2 m o lm lo). Qed.
Print Assumptions C12_import_absorb.

(** The clause database used by all the solver theorems is what the code's memory contains: for every history of creations,
    weight changes, swaps, removals and reorganisations, iterating the two memories of the allocator yields the clauses of
    the database, each at the address of its number. *)
Theorem C12_database j1 j2 os d : dhistory os db_new d -> exists s, reached j1 j2 os s /\ ds_d s = d /\
  mem_clauses (a_mem (ds_a s)) = Ok (map (fun c => (ds_addr s c, mkC (clits d c) (cwt d c))) (mem d)) /\
  mem_clauses (a_facts (ds_a s)) = Ok (map (fun c => (ds_addr s c, mkC (clits d c) (cwt d c))) (facts d)).
Proof. exact (database_thm j1 j2 os d). Qed.
Print Assumptions C12_database.

(** A history with two pages worth of copies: three clauses, one deleted, literals swapped, reorganised, one more created. *)
Definition ex_ops : list aop := [ACreate [0; 3; 4] 5; ACreate [2; 5] 0; ACreate [] 7; ACreate [6; 7; 8; 9] 9; AWeight 1 65535; ASwap 0 0 2; AReorganize; ACreate [10] 0].
Example C12_case : ops_ok [] ex_ops /\ meanings ex_ops = [mkC [4; 3; 0] 5; mkC [] 7; mkC [6; 7; 8; 9] 9; mkC [10] 0] /\
  exists m l, execs ex_ops (mem_new 1 0 (fun _ i => N.of_nat i)) = Ok m /\ mem_clauses m = Ok l /\
    l = [((0, 1, 0), mkC [4; 3; 0] 5); ((0, 1, 4), mkC [] 7); ((0, 1, 5), mkC [6; 7; 8; 9] 9); ((0, 1, 10), mkC [10] 0)] /\ length (pages m) = 1.
Proof.
  split; [|split; [reflexivity|]].
  - cbn. repeat split; try lia; injection H as <-; cbn; lia.
  - eexists _, _. split; [vm_compute; reflexivity|]. split; [vm_compute; reflexivity|]. split; reflexivity.
Qed.
Definition ex_dops : list dop := [DCreate [0; 3; 4] 5 true; DCreate [2] 0 false; DCreate [1; 5; 6; 8] 3 true; DSwap 2 0 1; DRemove 0; DReorganize; DWeight 2 9; DCreate [6; 8] 1 true].
Example C12_database_case : exists d, dhistory ex_dops db_new d /\ mem d = [2; 3] /\ facts d = [1] /\ map (clits d) (mem d) = [[5; 1; 6; 8]; [6; 8]] /\ cwt d 2 = 9%N.
Proof.
  eexists. split; [|split; [|split; [|split]]]; [cbn [dhistory ex_dops];
    repeat (split; [vm_compute; tauto || (repeat split; auto; lia)|]; eexists; split; [vm_compute; reflexivity|]); reflexivity|vm_compute; reflexivity..].
Qed.
Example C12_import_case : exists m o r, execs [ACreate [0; 3; 4] 5] (mem_new 1 0 (fun _ _ => 0%N)) = Ok m /\
  execs [ACreate [0; 2; 4] 5; ACreate [0; 2; 4; 6] 0; ACreate [1; 3] 65535; ACreate [7; 8; 9; 11] 4] (mem_new 1 1 (fun _ _ => 0%N)) = Ok o /\
  mem_import 4 m o = Ok r /\ mem_clauses (fst r) = Ok [((0, 0, 0), mkC [0; 3; 4] 5); ((0, 0, 4), mkC [0; 2; 4] 5); ((0, 0, 8), mkC [0; 2; 4; 6] 0)] /\
  mem_clauses (snd r) = Ok [((1, 0, 0), mkC [0; 2; 4] 65535); ((1, 0, 4), mkC [0; 2; 4; 6] 65535); ((1, 0, 9), mkC [1; 3] 65535); ((1, 0, 12), mkC [7; 8; 9; 11] 4)].
Proof. eexists _, _, _. split; [vm_compute; reflexivity|]. split; [vm_compute; reflexivity|]. split; [vm_compute; reflexivity|]. split; vm_compute; reflexivity. Qed.

(** C08.  In full: every clause handed to the database keeps its number of literals, and is taken for the empty clause only
    if it is empty.  Proved for less than 65536 literals, in every state reached by a history of database operations. *)
Theorem C08_faithful_partial j1 j2 os s ls w : reached j1 j2 os s -> (N.of_nat (length ls) < 65536)%N ->
  exists x a c, alloc_create ls w (ds_a s) = Ok (x, a) /\ stored x a = Some c /\ lits c = ls /\ create_is_empty x a = (length ls =? 0).
Proof. exact (faithful_thm j1 j2 os s ls w). Qed.
Print Assumptions C08_faithful_partial.

(** For all lengths that fit into a page, the exact result: what is stored is the first (length mod 65536) literals. *)
Theorem C08_stored_size j1 j2 os s ls w : reached j1 j2 os s -> (4 * (1 + N.of_nat (length ls)) <= 32 * 1024 * 1024)%N ->
  exists x a c, alloc_create ls w (ds_a s) = Ok (x, a) /\ stored x a = Some c /\ length (lits c) = length ls mod N.to_nat 65536 /\
    lits c = firstn (length ls mod N.to_nat 65536) ls /\ create_is_empty x a = (length ls mod N.to_nat 65536 =? 0).
Proof. exact (stored_thm j1 j2 os s ls w). Qed.
Print Assumptions C08_stored_size.

(** So the full statement is false: there is a satisfiable clause that the database takes for the empty clause. *)
Theorem C08_long_clause_refuted j1 j2 : exists ls x a, satisfiable [ls] /\ ls <> [] /\ alloc_create ls 0 (alloc_new j1 j2) = Ok (x, a) /\
  create_is_empty x a = true /\ exists c, stored x a = Some c /\ lits c = [].
Proof. exact (long_thm j1 j2). Qed.
Print Assumptions C08_long_clause_refuted.

Example C08_case : exists s, reached (fun _ _ => 7%N) (fun _ _ => 9%N) ex_dops s /\ mem (ds_d s) = [2; 3].
Proof.
  destruct C12_database_case as (d & H & E & _). destruct (C12_database (fun _ _ => 7%N) (fun _ _ => 9%N) ex_dops d H) as (s & HR & HD & _). exists s. rewrite HD. auto.
Qed.
