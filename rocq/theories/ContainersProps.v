(** C09 (Stamp), C10 (bounded queue), C39 (random generator). *)
Require Import List Arith NArith Bool.
Require Import Verif.ContainersModel Verif.ContainersSpec Verif.ContainersProofs.
Import ListNotations.

(** C09: for every counter width (M = largest value, at least 1), initial size and history whose
    indices are in range, index i is stamped iff it was set after the last clear and not unset
    since; nothing is lost or resurrected when the generation counter wraps. *)
Theorem C09_stamp_is_a_set : forall M n os s i, (1 <= M)%N ->
  stamp_run M (stamp_new_size M n) os = Some s ->
  stamp_get i s = if i <? stamp_range os n then Some (stamp_member os i false) else None.
Proof. exact stamp_correct. Qed.
Print Assumptions C09_stamp_is_a_set.

(** ... and such a history never fails. *)
Theorem C09_stamp_defined : forall M os s,
  stamp_ok os (length (stamped s)) = true -> stamp_run M s os <> None.
Proof. exact stamp_total. Qed.
Print Assumptions C09_stamp_defined.

(** uint8_t width, 300 clears: the counter wraps, index 2 set before the wrap is not resurrected. *)
Example C09_case :
  exists s, stamp_run 255 (stamp_new_size 255 3)
              ([SSet 2] ++ repeat SClear 300 ++ [SSet 0; SSet 1; SUnset 0; SGrow 5]) = Some s /\
    map (fun i => stamp_get i s) [0; 1; 2; 4] = [Some false; Some true; Some false; Some false].
Proof. eexists. vm_compute. split; reflexivity. Qed.

(** C10: after any history of push and fastclear on a queue of capacity n >= 1, with w the last n
    values pushed since the last clear: size, sum, oldest element, validity and average are those
    of w (sums modulo 2^32, as unsigned int). *)
Theorem C10_window : forall n os, 1 <= n ->
  exists q, bq_run (bq_new n) os = Some q /\
    let w := lastn n (bq_pushed [] os) in
    bq_size q = length w /\
    bq_getsum q = (sumN w mod U32)%N /\
    bq_peek q = hd_error w /\
    (bq_isvalid q = true <-> n <= length (bq_pushed [] os)) /\
    bq_getavg q = (if length w =? 0 then None else Some (sumN w mod U32 / N.of_nat (length w))%N).
Proof. exact bq_correct. Qed.
Print Assumptions C10_window.

Example C10_case :
  option_map bq_getsum (bq_run (bq_new 3) [BPush 9; BClear; BPush 1; BPush 2; BPush 3; BPush 4; BPush 5])
  = Some 12%N.
Proof. vm_compute. reflexivity. Qed.

(** With pop() (not used by any caller) the queue discipline is lost: the element at the front of
    the queue after push 1, pop, push 2 is 1, which was removed, instead of 2. *)
Theorem C10_pop_refuted : exists q1 q2,
  bq_push 1 (bq_new 2) = Some q1 /\ bq_push 2 (bq_pop q1) = Some q2 /\
  bq_size q2 = 1 /\ bq_peek q2 = Some 1%N.
Proof. do 2 eexists. vm_compute. repeat split. Qed.
Print Assumptions C10_pop_refuted.

(** C39: the generator step is injective on 64-bit words, stays in range, and never reaches 0
    from a non-zero state. *)
Theorem C39_injective : forall x y, (x < W64)%N -> (y < W64)%N ->
  fastNextRand x = fastNextRand y -> x = y.
Proof. exact fastNextRand_inj. Qed.
Print Assumptions C39_injective.

Theorem C39_range : forall x, (fastNextRand x < W64)%N.
Proof. exact fastNextRand_range. Qed.
Print Assumptions C39_range.

Theorem C39_nonzero : forall x, (x < W64)%N -> x <> 0%N -> fastNextRand x <> 0%N.
Proof. exact fastNextRand_nonzero. Qed.
Print Assumptions C39_nonzero.

Example C39_case : fastNextRand 1 = 5180492295206395165%N.
Proof. vm_compute. reflexivity. Qed.
