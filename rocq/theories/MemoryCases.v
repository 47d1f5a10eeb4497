(** Theorems about histories of the paged storage, and cases. *)
Require Import List Arith Bool NArith Lia Sorted Permutation.
Require Import Verif.Outcome Verif.MemoryModel Verif.MemorySpec Verif.MemoryProofs.
Import ListNotations.

Lemma mem_iteration : forall (T : Type) (sz mb : N) (ops : list (mop T)),
  (sz <= (mb * 1048576) mod 4294967296)%N -> keeps_all ops ->
  exists m, mem_run sz ops (mem_new T mb) = Ok m /\
    for_each m = Ok (map Some (content ops)) /\
    (forall k, exists b i, it_begin (pages m) = Ok b /\ it_plus k (pages m) b = Ok i /\ deref (pages m) i = nth_error (content ops) k) /\
    used sz m = (sz * N.of_nat (length (content ops)))%N.
Proof.
  intros T sz mb ops H K; destruct (run_new T sz mb ops H K) as (m & A & B & C & D).
  exists m; rewrite <- D; split; [exact A|split; [apply for_each_all|split; [|apply used_all]]]; intros k; apply index_all.
Qed.

Lemma mem_addresses : forall (T : Type) (sz mb : N) (ops : list (mop T)) m x (later : list T),
  (sz <= (mb * 1048576) mod 4294967296)%N -> keeps_all ops -> mem_run sz ops (mem_new T mb) = Ok m ->
  exists m1 a m2, allocate sz x m = Ok (m1, a) /\ mem_run sz (map MPush later) m1 = Ok m2 /\
    load m a = None /\ load m2 a = Some x /\ (forall b y, load m b = Some y -> load m2 b = Some y) /\
    (exists p, In p (pages m1) /\ pid p = fst a /\ (sz * N.of_nat (S (snd a)) <= psize p)%N).
Proof.
  intros T sz mb ops m x later H K R; destruct (run_new T sz mb ops H K) as (m0 & A & B & C & D).
  rewrite R in A; injection A as <-; assert (H' : (sz <= dflt m)%N) by (rewrite C; exact H).
  destruct (allocate_all T sz x m B H') as (m1 & a & A1 & A2 & A3 & A4).
  destruct (allocate_load T sz x m m1 a B H' A1) as (L1 & L2 & L3 & L4).
  assert (H1 : (sz <= dflt m1)%N) by (rewrite A3; exact H').
  destruct (pushes_load T sz later m1 a x A2 H1 L2) as (m2 & P1 & P2).
  exists m1, a, m2; split; [exact A1|split; [exact P1|split; [exact L1|split; [exact P2|split; [|exact L4]]]]].
  intros b y Y; destruct (pushes_load T sz later m1 b y A2 H1 (L3 _ _ Y)) as (m3 & Q1 & Q2); congruence.
Qed.

Lemma mem_sorting : forall (T : Type) (sz mb : N) (ops : list (mop T)) (lt : T -> T -> Prop) srt m,
  (sz <= (mb * 1048576) mod 4294967296)%N -> keeps_all ops -> sorts lt srt -> mem_run sz ops (mem_new T mb) = Ok m ->
  exists m' before after, mem_sort sz srt m = Ok m' /\ for_each m = Ok (map Some before) /\ for_each m' = Ok (map Some after) /\
    Permutation before after /\ StronglySorted (fun x y => ~ lt y x) after.
Proof.
  intros T sz mb ops lt srt m H K S R; destruct (run_new T sz mb ops H K) as (m0 & A & B & C & D).
  rewrite R in A; injection A as <-; destruct (S (all T (pages m))) as [S1 S2].
  destruct (sort_ok T sz srt m B S1) as (m' & A1 & A2 & A3 & A4).
  exists m', (all T (pages m)), (all T (pages m')); split; [exact A1|split; [apply for_each_all|split; [apply for_each_all|]]].
  rewrite A4; auto.
Qed.

Lemma mem_page_size : exists mb : N, (16 <= mb * 1048576)%N /\ mem_run 16 [MPush 7%nat] (mem_new nat mb) = Err UB.
Proof. exists 4096%N; split; [vm_compute; discriminate|vm_compute; reflexivity]. Qed.

(** insertion sort, descending *)
Fixpoint ins (x : nat) (l : list nat) : list nat := match l with [] => [x] | y :: r => if y <=? x then x :: l else y :: ins x r end.
Definition desc (l : list nat) : list nat := fold_right ins [] l.

Lemma ins_perm : forall x l, Permutation (x :: l) (ins x l).
Proof.
  intros x l; induction l as [|y l IH]; simpl; [auto|]; destruct (y <=? x); [auto|].
  eapply Permutation_trans; [apply perm_swap|]; constructor; exact IH.
Qed.
Lemma ins_sorted : forall x l, StronglySorted (fun a b => ~ a < b) l -> StronglySorted (fun a b => ~ a < b) (ins x l).
Proof.
  intros x l; induction l as [|y l IH]; intros H; simpl; [repeat constructor|].
  inversion H as [|? ? H1 H2]; subst; rewrite Forall_forall in H2; destruct (Nat.leb_spec y x) as [L|L].
  - constructor; [exact H|]; apply Forall_forall; intros z [<-|I]; [lia|]; specialize (H2 _ I); lia.
  - constructor; [apply IH; exact H1|]; apply Forall_forall; intros z I.
    apply (Permutation_in z (Permutation_sym (ins_perm x l))) in I; destruct I as [<-|I]; [lia|]; exact (H2 _ I).
Qed.
Lemma desc_sorts : sorts (fun x y => y < x) desc.
Proof.
  intros l; unfold desc; induction l as [|x l [IH1 IH2]]; simpl; [split; constructor|]; split.
  - eapply Permutation_trans; [apply perm_skip; exact IH1|apply ins_perm].
  - apply ins_sorted; exact IH2.
Qed.

Lemma mem_case : exists m, let ops := [MPush 3; MPush 1; MPush 2; MSort desc; MPush 9] in
  (524288 <= (1 * 1048576) mod 4294967296)%N /\ keeps_all ops /\ sorts (fun x y => y < x) desc /\
  mem_run 524288 ops (mem_new nat 1) = Ok m /\ length (pages m) = 2 /\ for_each m = Ok [Some 3; Some 2; Some 1; Some 9].
Proof.
  eexists; cbv zeta; split; [vm_compute; discriminate|split; [|split; [apply desc_sorts|split; [vm_compute; reflexivity|split; vm_compute; reflexivity]]]].
  intros srt I l; repeat (destruct I as [I|I]; [try discriminate I; injection I as <-; apply desc_sorts|]); destruct I.
Qed.
