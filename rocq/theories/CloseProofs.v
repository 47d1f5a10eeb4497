(** Proofs about the sums of distances. *)
Require Import List Arith Bool Lia.
Require Import Verif.Base Verif.Outcome Verif.CNFModel Verif.CNFProofs Verif.GraphModel Verif.DistModel Verif.DistSpec Verif.DistProofs Verif.CloseModel Verif.CloseSpec.
Import ListNotations.

Definition sumd (n : nat) (d : nat -> option nat) : nat := list_sum (map (fun x => reached (d x)) (seq 0 n)).
Lemma sum_change (f g : nat -> nat) w : forall l, NoDup l -> (forall x, x <> w -> f x = g x) ->
  (In w l -> list_sum (map f l) + g w = list_sum (map g l) + f w) /\ (~ In w l -> list_sum (map f l) = list_sum (map g l)).
Proof.
  unfold list_sum. induction l as [|x l IH]; intros ND H; [split; [intros []|auto]|]. inversion ND as [|? ? N1 N2]; subst. destruct (IH N2 H) as (I1 & I2). cbn [map fold_right]. split.
  - intros [->|Hw]; [specialize (I2 N1); lia|]. assert (x <> w) by (intros ->; contradiction). specialize (I1 Hw). rewrite (H x) by auto. lia.
  - intros Hw. assert (x <> w) by (intros ->; apply Hw; left; auto). rewrite (H x) by auto. rewrite I2; auto. intros G. apply Hw. right. auto.
Qed.
Lemma sumd_upd n d w c : w < n -> d w = None -> sumd n (upd d w (Some c)) = sumd n d + c.
Proof.
  intros H E. unfold sumd. destruct (sum_change (fun x => reached (d x)) (fun x => reached (upd d w (Some c) x)) w (seq 0 n)) as (A & _); [apply seq_NoDup|intros x Hx; rewrite upd_other; auto|].
  specialize (A ltac:(apply in_seq; lia)). rewrite upd_same, E in A. cbn [reached] in A. lia.
Qed.
Lemma sumd_none n : sumd n (fun _ => None) = 0.
Proof. unfold sumd. cbn [reached]. induction (seq 0 n); auto. Qed.
Lemma cvisit_ok n c : forall ns d t q d1 q1, dvisit n c d q ns = Ok (d1, q1) -> t = sumd n d -> cvisit n c d t q ns = Ok (d1, sumd n d1, q1).
Proof.
  induction ns as [|w ns IH]; intros d t q d1 q1 E HT; cbn in E |- *; [injection E as <- <-; subst; auto|]. destruct (Nat.leb_spec n w) as [|HW]; [discriminate|]. destruct (d w) eqn:EW; [apply IH; auto|].
  apply IH; auto. rewrite sumd_upd; auto.
Qed.
Lemma cloop_ok n adj : forall fuel d t q d1, dloop fuel n adj d q = Ok d1 -> t = sumd n d -> cloop fuel n adj d t q = Ok (sumd n d1).
Proof.
  induction fuel as [|fuel IH]; intros d t q d1 E HT; destruct q as [|y q]; cbn in E |- *; try discriminate; try (injection E as <-; subst; auto; fail).
  destruct (dvisit n (next (d y)) d q (adj y)) as [(d2 & q2)|] eqn:EV; [|discriminate]. cbn [bind] in E. rewrite (cvisit_ok _ _ _ _ t _ _ _ EV HT). cbn [bind]. apply IH; auto.
Qed.
Lemma sumd_map n d : sumd n d = list_sum (map reached (map d (seq 0 n))).
Proof. unfold sumd. rewrite map_map. auto. Qed.
Lemma sum_ok n adj u : closed n adj -> u < n -> exists m, closenessSum n adj u = Ok m /\ sum_from n adj u m.
Proof.
  intros CL H. destruct (all_ok n u adj CL H) as (d & E & I). exists (sumd n d). unfold closenessSum. rewrite range_all by auto. split.
  - apply cloop_ok; [exact E|]. rewrite sumd_upd, sumd_none; auto.
  - exists (map d (seq 0 n)). split; [rewrite map_length, seq_length; auto|]. split; [|apply sumd_map]. intros v Hv. rewrite nth_dist by auto. eapply inv_distance; eauto.
Qed.

Definition grown (t0 t : list nat) (d : nat -> option nat) : Prop := length t = length t0 /\ forall k, nth k t 0 = nth k t0 0 + reached (d k).
Lemma add_ok w c t : w < length t -> exists t1, add_at w c t = Ok t1 /\ length t1 = length t /\ forall k, nth k t1 0 = nth k t 0 + (if w =? k then c else 0).
Proof.
  intros H. unfold add_at. destruct (nth_error t w) as [x|] eqn:E; [|apply nth_error_None in E; lia]. exists (set_nth w (x + c) t). split; auto. split; [apply set_nth_length|]. intros k.
  pose proof (set_nth_nth w (x + c) t k) as G. apply Nat.ltb_lt in H. rewrite H, andb_true_r in G. destruct (k =? w) eqn:EKC; [apply Nat.eqb_eq in EKC; subst k|apply Nat.eqb_neq in EKC].
  - rewrite (nth_error_nth _ _ 0 G), (nth_error_nth _ _ 0 E), Nat.eqb_refl. lia.
  - rewrite (proj2 (Nat.eqb_neq w k)) by auto. rewrite Nat.add_0_r. destruct (nth_error t k) as [y|] eqn:EK; [rewrite (nth_error_nth _ _ 0 G), (nth_error_nth _ _ 0 EK); auto|]. apply nth_error_None in G. apply nth_error_None in EK. rewrite !nth_overflow; auto.
Qed.
Lemma evisit_ok n c t0 : n <= length t0 -> forall ns d t q d1 q1, dvisit n c d q ns = Ok (d1, q1) -> grown t0 t d -> exists t1, evisit n c d t q ns = Ok (d1, t1, q1) /\ grown t0 t1 d1.
Proof.
  intros HN. induction ns as [|w ns IH]; intros d t q d1 q1 E HT; cbn in E |- *; [injection E as <- <-; exists t; auto|]. destruct (Nat.leb_spec n w) as [|HW]; [discriminate|]. destruct (d w) eqn:EW; [apply IH; auto|].
  destruct HT as (L & V). destruct (add_ok w c t) as (t1 & EA & L1 & V1); [lia|]. rewrite EA. cbn [bind]. apply IH; auto. split; [lia|]. intros k. rewrite V1, V. unfold upd. destruct (k =? w) eqn:K.
  - apply Nat.eqb_eq in K. subst k. rewrite Nat.eqb_refl, EW. cbn. lia.
  - rewrite Nat.eqb_sym, K. lia.
Qed.
Lemma eloop_ok n adj t0 : n <= length t0 -> forall fuel d t q d1, dloop fuel n adj d q = Ok d1 -> grown t0 t d -> exists t1, eloop fuel n adj d t q = Ok (d1, t1) /\ grown t0 t1 d1.
Proof.
  intros HN. induction fuel as [|fuel IH]; intros d t q d1 E HT; destruct q as [|y q]; cbn in E |- *; try discriminate; try (injection E as <-; exists t; auto; fail).
  destruct (dvisit n (next (d y)) d q (adj y)) as [(d2 & q2)|] eqn:EV; [|discriminate]. cbn [bind] in E. destruct (evisit_ok n _ t0 HN _ _ t _ _ _ EV HT) as (t1 & ES & HT1). rewrite ES. cbn [bind]. apply IH; auto.
Qed.
Lemma closenesses_ok n adj u t : closed n adj -> u < n -> n <= length t -> exists ds t1, closenesses n adj u t = Ok (ds, t1) /\ length ds = n /\
  (forall v, v < n -> is_distance adj u v (nth v ds None)) /\ length t1 = length t /\ forall v, v < n -> nth v t1 0 = nth v t 0 + reached (nth v ds None).
Proof.
  intros CL H HN. destruct (all_ok n u adj CL H) as (d & E & I). destruct (eloop_ok n adj t HN n (start u) t [u] d E) as (t1 & ES & L & V).
  { split; auto. intros k. unfold start, upd. destruct (k =? u); cbn; lia. }
  exists (map d (seq 0 n)), t1. unfold closenesses. rewrite range_all by auto. unfold start in ES. rewrite ES. cbn [bind]. split; auto. split; [rewrite map_length, seq_length; auto|]. split; [intros v Hv; rewrite nth_dist by auto; eapply inv_distance; eauto|]. split; auto.
  intros v Hv. rewrite nth_dist by auto. auto.
Qed.
Lemma from_ok n adj : closed n adj -> forall us t, (forall u, In u us -> u < n) -> n <= length t ->
  exists t1 (D : nat -> list (option nat)), close_from n adj us t = Ok t1 /\ length t1 = length t /\
    (forall u v, In u us -> v < n -> is_distance adj u v (nth v (D u) None)) /\ forall v, v < n -> nth v t1 0 = nth v t 0 + list_sum (map (fun u => reached (nth v (D u) None)) us).
Proof.
  intros CL. assert (HD : forall u, u < n -> exists ds, alldistances n adj u = Ok ds /\ length ds = n /\ forall v, v < n -> is_distance adj u v (nth v ds None)) by (intros u Hu; apply alldistances_ok; auto).
  set (D := fun u => match alldistances n adj u with Ok ds => ds | Err _ => [] end).
  assert (HDD : forall u v, u < n -> v < n -> is_distance adj u v (nth v (D u) None)). { intros u v Hu Hv. destruct (HD u Hu) as (ds & E & _ & P). unfold D. rewrite E. auto. }
  assert (UNI : forall u v a b, is_distance adj u v a -> is_distance adj u v b -> a = b).
  { intros u v [a|] [b|] A B; cbn in A, B; auto; [|exfalso; destruct A; eapply B; eauto|exfalso; destruct B; eapply A; eauto]. destruct A as (A1 & A2), B as (B1 & B2). specialize (A2 _ B1). specialize (B2 _ A1). f_equal. lia. }
  induction us as [|u us IH]; intros t HU HN.
  - exists t, D. repeat split; [intros u v []|]. intros v _. cbn. lia.
  - assert (Hu : u < n) by (apply HU; left; auto). destruct (closenesses_ok n adj u t CL Hu HN) as (ds & t1 & E & _ & P & L & V). cbn [close_from]. rewrite E. cbn [bind]. destruct (IH t1) as (t2 & D2 & E2 & L2 & P2 & V2); [intros w Hw; apply HU; right; auto|lia|].
    exists t2, D. split; auto. split; [lia|]. split; [intros w v Hw Hv; apply HDD; auto|]. intros v Hv. rewrite V2, V by auto. unfold list_sum. cbn [map fold_right]. rewrite (UNI u v _ _ (P v Hv) (HDD u v Hu Hv)).
    rewrite (map_ext_in (fun w => reached (nth v (D2 w) None)) (fun w => reached (nth v (D w) None))); [lia|]. intros w Hw. f_equal. apply (UNI w v); [auto|apply HDD; auto; apply HU; right; auto].
Qed.
Lemma totals_ok n adj : closed n adj -> exists t, closenessTotals n adj = Ok t /\ length t = n /\ forall v, v < n -> sum_to n adj v (nth v t 0).
Proof.
  intros CL. destruct (from_ok n adj CL (seq 0 n) (repeat 0 n)) as (t & D & E & L & P & V); [intros u Hu; apply in_seq in Hu; lia|rewrite repeat_length; auto|]. exists t. split; auto. rewrite repeat_length in L. split; auto.
  intros v Hv. exists (map (fun u => nth v (D u) None) (seq 0 n)). split; [rewrite map_length, seq_length; auto|]. split.
  - intros u Hu. rewrite nth_dist by auto. apply P; auto. apply in_seq. lia.
  - rewrite V, nth_repeat, map_map by auto. auto.
Qed.
