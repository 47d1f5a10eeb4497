(** Properties of the paged storage. *)
Require Import List Arith NArith Sorted Permutation.
Require Import Verif.Outcome Verif.MemoryModel Verif.MemorySpec Verif.MemoryProofs Verif.MemoryCases.
Import ListNotations.

(** C43: after every history of insertions, sorts and clears, no access is undefined; iteration yields exactly the elements, in
    order; begin() + k is the k-th element, and end() behind the last one; used() is their size.  One element fits into a page. *)
Theorem C43_iteration : forall (T : Type) (sz mb : N) (ops : list (mop T)),
  (sz <= (mb * 1048576) mod 4294967296)%N -> keeps_all ops ->
  exists m, mem_run sz ops (mem_new T mb) = Ok m /\
    for_each m = Ok (map Some (content ops)) /\
    (forall k, exists b i, it_begin (pages m) = Ok b /\ it_plus k (pages m) b = Ok i /\ deref (pages m) i = nth_error (content ops) k) /\
    used sz m = (sz * N.of_nat (length (content ops)))%N.
Proof. exact mem_iteration. Qed.
Print Assumptions C43_iteration.

(** C43: an insertion returns an address that was not in use, inside of its page, where the element is found, however many elements
    are inserted later; and every address handed out earlier keeps its element. *)
Theorem C43_addresses : forall (T : Type) (sz mb : N) (ops : list (mop T)) m x (later : list T),
  (sz <= (mb * 1048576) mod 4294967296)%N -> keeps_all ops -> mem_run sz ops (mem_new T mb) = Ok m ->
  exists m1 a m2, allocate sz x m = Ok (m1, a) /\ mem_run sz (map MPush later) m1 = Ok m2 /\
    load m a = None /\ load m2 a = Some x /\ (forall b y, load m b = Some y -> load m2 b = Some y) /\
    (exists p, In p (pages m1) /\ pid p = fst a /\ (sz * N.of_nat (S (snd a)) <= psize p)%N).
Proof. exact mem_addresses. Qed.
Print Assumptions C43_addresses.

(** C43: sorting loses and duplicates nothing, and iteration afterwards is in the order of the comparison. *)
Theorem C43_sort : forall (T : Type) (sz mb : N) (ops : list (mop T)) (lt : T -> T -> Prop) srt m,
  (sz <= (mb * 1048576) mod 4294967296)%N -> keeps_all ops -> sorts lt srt -> mem_run sz ops (mem_new T mb) = Ok m ->
  exists m' before after, mem_sort sz srt m = Ok m' /\ for_each m = Ok (map Some before) /\ for_each m' = Ok (map Some after) /\
    Permutation before after /\ StronglySorted (fun x y => ~ lt y x) after.
Proof. exact mem_sorting. Qed.
Print Assumptions C43_sort.

(** C43: the page size is computed in 32 bits; for 4096 MB it is zero and the first insertion writes outside of its page. *)
Theorem C43_page_size_refuted : exists mb : N, (16 <= mb * 1048576)%N /\ mem_run 16 [MPush 7%nat] (mem_new nat mb) = Err UB.
Proof. exact mem_page_size. Qed.
Print Assumptions C43_page_size_refuted.

(** elements of half a megabyte, two pages, sorted descending, then one more *)
Example C43_case : exists m, let ops := [MPush 3; MPush 1; MPush 2; MSort desc; MPush 9] in
  (524288 <= (1 * 1048576) mod 4294967296)%N /\ keeps_all ops /\ sorts (fun x y => y < x) desc /\
  mem_run 524288 ops (mem_new nat 1) = Ok m /\ length (pages m) = 2 /\ for_each m = Ok [Some 3; Some 2; Some 1; Some 9].
Proof. exact mem_case. Qed.
