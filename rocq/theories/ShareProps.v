(** C32: several solver threads share one clause allocator (ClauseAllocator.h).  A schedule is a list of
    steps of any number of threads; [run] executes it.  [reads], [rebuilding] and [overlap] are in ShareSpec. *)
Require Import List Arith Bool.
Require Import Verif.ShareModel Verif.ShareSpec Verif.ShareProofs Verif.ShareCases.
Import ListNotations.

(** Every schedule in which no thread is between reading the shared pages and announcing it while another
    one is between the test that everybody is ready and the end of the reallocation.  Missing from C32:
    the other schedules, for which it is false (below). *)
Theorem C32_separated_partial : forall t0 k sch w t a p w', run sch (world_init t0 k) = Some w ->
  (forall v, In v (states sch (world_init t0 k)) -> ~ overlap v) ->
  act t a w = Some w' -> reads w t a p -> ~ is_freed w p.
Proof. exact no_freed. Qed.
Print Assumptions C32_separated_partial.

(** every schedule: what the allocator itself reads while it collects or copies clauses is not freed *)
Theorem C32_allocator_reads : forall t0 k sch w t a p w', run sch (world_init t0 k) = Some w -> act t a w = Some w' ->
  (a = ACollect \/ exists n, a = ARealloc n) -> reads w t a p -> ~ is_freed w p.
Proof. exact shared_reads. Qed.
Print Assumptions C32_allocator_reads.

(** every schedule: [free_phase_out_pages], which takes no lock, never runs beside [reallocate] or itself *)
Theorem C32_one_rebuild : forall t0 k sch w t u, run sch (world_init t0 k) = Some w ->
  rebuilding w t -> rebuilding w u -> t = u.
Proof. exact one_rebuild. Qed.
Print Assumptions C32_one_rebuild.

(** ** Concrete case: three threads; a page is freed after everybody has left it *)
Definition again (t : tid) : list (tid * action) := [(t, ASync 0); (t, ACheck); (t, ACollect); (t, AReady)].
Definition c_sch : list (tid * action) :=
  [(1, AJoin); (1, ACollect); (1, AReady); (2, AJoin); (2, ACollect); (2, AReady); (1, AUse 0); (2, AAlloc true);
   (0, ASync 1); (0, ACheck); (0, AFree); (1, AUse 0); (0, ARealloc 0); (0, ACollect); (0, AReady)] ++
  again 1 ++ [(2, AUse 1)] ++ again 2 ++ [(1, ASync 1); (1, ACheck); (1, AFree); (0, AUse 3)].
Example C32_case : exists w, run c_sch (world_init 0 1) = Some w /\ (forall v, In v (states c_sch (world_init 0 1)) -> ~ overlap v) /\
  is_freed w 0 /\ is_freed w 1 /\ (exists w', act 2 (AUse 3) w = Some w') /\ rebuilding w 1.
Proof.
  assert (H : match run c_sch (world_init 0 1) with
    | Some w => memb 0 (g_freed (w_g w)) && memb 1 (g_freed (w_g w)) && memb 3 (t_refs (w_t w 2)) && runs w 2 && rebb w 1
    | None => false end = true) by (vm_compute; reflexivity).
  destruct (run c_sch (world_init 0 1)) as [w|]; [|discriminate]. rewrite !andb_true_iff in H. destruct H as ((((H1 & H2) & H3) & H4) & H5).
  exists w. split; [reflexivity|]. split; [apply (sepb_states 3); [apply above_init; auto|vm_compute; reflexivity|vm_compute; reflexivity]|].
  split; [apply memb_in; auto|]. split; [apply memb_in; auto|]. split; [exists w; apply use_act; auto|apply rebb_reb; auto].
Qed.
Print Assumptions C32_case.

(** ** C32 is false: a use after free *)
(** Thread 1 collects while thread 0 has found everybody ready and not replaced the pages yet: thread 1 announces that
    it uses the new pages and still uses the old ones. *)
Definition w_sch : list (tid * action) :=
  [(1, AJoin); (1, ACollect); (1, AReady); (0, ASync 0); (0, ACheck)] ++ again 1 ++
  [(0, AFree); (0, ARealloc 0); (0, ACollect); (0, AReady); (0, ASync 0); (0, ACheck); (0, AFree)].
Theorem C32_collect_refuted : exists sch w w' p, run sch (world_init 0 1) = Some w /\ act 1 (AUse p) w = Some w' /\ is_freed w p.
Proof.
  assert (H : match run w_sch (world_init 0 1) with
    | Some w => memb 0 (g_freed (w_g w)) && memb 0 (t_refs (w_t w 1)) && runs w 1
    | None => false end = true) by (vm_compute; reflexivity).
  exists w_sch. destruct (run w_sch (world_init 0 1)) as [w|]; [|discriminate]. rewrite !andb_true_iff in H. destruct H as ((H1 & H2) & H3).
  exists w, w, 0. split; [reflexivity|]. split; [apply use_act; auto|apply memb_in; auto].
Qed.
Print Assumptions C32_collect_refuted.

(** The same when no thread collects during a rebuild, because a thread announces that it is ready after
    it has released the lock. *)
Definition w_late : list (tid * action) :=
  [(1, AJoin); (2, AJoin); (1, ACollect); (1, AReady); (1, ASync 0); (1, ACheck); (1, ACollect); (2, ACollect); (2, AReady);
   (0, ASync 0); (0, ACheck); (0, AFree); (0, ARealloc 0); (0, ACollect); (0, AReady); (1, AReady)] ++ again 2 ++ [(0, ASync 0); (0, ACheck); (0, AFree)].
Theorem C32_late_ready_refuted : exists sch w w' p, run sch (world_init 0 1) = Some w /\ act 1 (AUse p) w = Some w' /\ is_freed w p /\
  forall pre t post v, sch = pre ++ (t, ACollect) :: post -> run pre (world_init 0 1) = Some v -> forall u, ~ rebuilding v u.
Proof.
  assert (H : match run w_late (world_init 0 1) with
    | Some w => memb 0 (g_freed (w_g w)) && memb 0 (t_refs (w_t w 1)) && runs w 1
    | None => false end = true) by (vm_compute; reflexivity).
  exists w_late. destruct (run w_late (world_init 0 1)) as [w|]; [|discriminate]. rewrite !andb_true_iff in H. destruct H as ((H1 & H2) & H3).
  exists w, w, 0. split; [reflexivity|]. split; [apply use_act; auto|]. split; [apply memb_in; auto|].
  apply (nocollb_sound 3); [apply above_init; auto|vm_compute; reflexivity|vm_compute; reflexivity].
Qed.
Print Assumptions C32_late_ready_refuted.
