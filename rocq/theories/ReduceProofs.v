Require Import List Arith Bool NArith Lia Permutation.
From Coq Require Import ZifyBool ZifyNat ZifyN.
Require Import Verif.Base Verif.Outcome Verif.TrailModel Verif.TrailProofs Verif.DbModel Verif.PropModel Verif.PropProofs Verif.DbProofs Verif.PropSpec
  Verif.SimpModel Verif.SubsProofs Verif.SimpProofs Verif.SimpSpec Verif.SimpLemmas Verif.VEProofs Verif.ReduceModel Verif.SolverBase Verif.AsymmLemmas Verif.ReduceSpec.
Import ListNotations.

Section Sort.
Variables (f : nat -> N).
Definition ltf (a b : nat) : bool := (f a <? f b)%N.
Fixpoint asc (l : list nat) : Prop := match l with [] => True | x :: r => (forall y, In y r -> (f x <= f y)%N) /\ asc r end.
Lemma ins_asc x l : asc l -> asc (ins_by ltf x l).
Proof.
  induction l as [|y l IH]; cbn [ins_by asc]; [intros _; split; [intros ? []|auto]|]. intros (H1 & H2).
  assert (HP : forall z, In z (ins_by ltf x l) -> z = x \/ In z l).
  { clear. induction l as [|y l IH]; cbn [ins_by]; [intros z [->|[]]; auto|]. intros z. destruct (ltf y x); cbn; intros [->|H]; auto.
    - destruct (IH z H); auto. }
  unfold ltf at 1. destruct (N.ltb_spec (f y) (f x)); cbn [asc].
  - split; auto. intros z Hz. destruct (HP z Hz) as [->|Hz2]; [lia|auto].
  - split; [|split; auto]. intros z [->|Hz]; [lia|]. specialize (H1 z Hz). lia.
Qed.
Lemma sorted_asc l : sorted_by ltf l = true -> asc l.
Proof.
  induction l as [|x l IH]; cbn [sorted_by asc]; auto. destruct l as [|y l]; [intros _; split; [intros ? []|exact I]|].
  intros H. apply andb_true_iff in H. destruct H as (H1 & H2). specialize (IH H2). split; auto. unfold ltf in H1.
  destruct IH as (I1 & I2). intros z [<-|Hz]; [lia|]. specialize (I1 z Hz). lia.
Qed.
Lemma std_sort_asc cand l : asc (std_sort ltf cand l).
Proof.
  unfold std_sort. destruct (same_elems cand l && sorted_by ltf cand) eqn:E; [apply andb_true_iff in E; apply sorted_asc; apply E|].
  clear. unfold isort_by. induction l as [|x l IH]; cbn [fold_right]; [exact I|]. apply ins_asc. auto.
Qed.
Lemma asc_app l m : asc (l ++ m) -> asc l /\ asc m /\ forall x y, In x l -> In y m -> (f x <= f y)%N.
Proof.
  induction l as [|x l IH]; cbn [app asc]; [intros H; split; auto; split; auto; intros ? ? []|]. intros (H1 & H2). destruct (IH H2) as (A & B & D).
  split; [split; auto; intros y Hy; apply H1; apply in_or_app; auto|]. split; auto. intros z y [<-|Hz] Hy; auto. apply H1. apply in_or_app. auto.
Qed.
End Sort.

Section Red.
Variables (persist : N) (median : bool) (cand : list cid) (d : db).
Hypothesis HR : dreach d.
Let ls := std_sort (fun a b => (cwt d a <? cwt d b)%N) cand (red_candidates persist d).
Let vs := red_victims persist median cand d.
Lemma ls_perm : Permutation ls (over_limit persist d).
Proof. apply std_sort_perm. Qed.
Lemma ls_asc : asc (cwt d) ls.
Proof. apply std_sort_asc. Qed.
Lemma skip_suffix w : forall l, asc (cwt d) l -> exists p, l = p ++ skip_equal d w l /\ forall c, In c p -> cwt d c = w.
Proof.
  induction l as [|x l IH]; cbn [skip_equal asc]; [exists []; split; auto; intros ? []|]. intros (H1 & H2). destruct (N.eqb_spec (cwt d x) w) as [E|E].
  - destruct (IH H2) as (p & P1 & P2). exists (x :: p). split; [cbn [app]; f_equal; exact P1|]. intros c [<-|Hc]; auto.
  - exists []. split; auto. intros ? [].
Qed.
Lemma skip_first w l : match skip_equal d w l with [] => True | c :: _ => cwt d c <> w end.
Proof. induction l as [|x l IH]; cbn [skip_equal]; auto. destruct (N.eqb_spec (cwt d x) w); auto. Qed.
(** the victims are a suffix of the sorted candidates *)
Lemma victims_suffix : exists p, ls = p ++ vs /\ length ls <= 2 * length p + 1 /\
  (median = true -> forall c, In c vs -> length ls <= 2 * length (filter (fun x => cwt d x <? cwt d c)%N p)).
Proof.
  unfold cid in *. unfold vs, red_victims. fold ls. destruct (Nat.ltb_spec 1 (length ls)) as [H|H].
  2: { exists ls. rewrite app_nil_r. split; auto. split; [lia|]. intros _ c []. }
  assert (E := firstn_skipn (length ls / 2) ls). assert (Hlen : length (firstn (length ls / 2) ls) = length ls / 2).
  { rewrite firstn_length. assert (length ls / 2 <= length ls) by (apply Nat.div_le_upper_bound; [discriminate|lia]). lia. }
  assert (Hd : length ls <= 2 * (length ls / 2) + 1) by (assert (X := Nat.div_mod (length ls) 2 ltac:(discriminate)); assert (Y := Nat.mod_upper_bound (length ls) 2 ltac:(discriminate)); lia).
  destruct median.
  - destruct (skipn (length ls / 2) ls) as [|c0 rest] eqn:Es.
    { exists (firstn (length ls / 2) ls). split; auto. split; [rewrite Hlen; exact Hd|]. intros _ c []. }
    assert (HA := ls_asc). rewrite <- E in HA. destruct (asc_app _ _ _ HA) as (A1 & A2 & A3).
    destruct (skip_suffix (cwt d c0) (c0 :: rest) A2) as (p & P1 & P2).
    exists (firstn (length ls / 2) ls ++ p). split; [rewrite <- E at 1; rewrite P1 at 1; apply app_assoc|]. split; [rewrite app_length; unfold cid in *; lia|].
    intros _ c Hc. assert (Hp : p <> []).
    { intros ->. cbn [app] in P1. assert (X := skip_first (cwt d c0) (c0 :: rest)). rewrite <- P1 in X. congruence. }
    assert (Hgt : (cwt d c0 < cwt d c)%N).
    { assert (X := skip_first (cwt d c0) (c0 :: rest)). rewrite P1 in A2. destruct (asc_app _ _ _ A2) as (B1 & B2 & B3).
      assert (B4 : (cwt d c0 <= cwt d c)%N) by (destruct p as [|y p]; [congruence|]; rewrite <- (P2 y) by (cbn; auto); apply B3; cbn; auto).
      destruct (skip_equal d (cwt d c0) (c0 :: rest)) as [|y sk]; [destruct Hc|]. cbn [asc] in B2. destruct B2 as (B5 & _).
      assert (B6 : (cwt d c0 <= cwt d y)%N) by (destruct p as [|z p]; [congruence|]; rewrite <- (P2 z) by (cbn; auto); apply B3; cbn; auto).
      destruct Hc as [<-|Hc]; [lia|]. specialize (B5 c Hc). lia. }
    assert (HF : filter (fun x => cwt d x <? cwt d c)%N (firstn (length ls / 2) ls ++ p) = firstn (length ls / 2) ls ++ p).
    { assert (G : forall x, In x (firstn (length ls / 2) ls ++ p) -> (cwt d x <? cwt d c)%N = true).
      { intros x Hx. apply N.ltb_lt. apply in_app_or in Hx. destruct Hx as [Hx|Hx]; [|rewrite (P2 x Hx); auto].
        specialize (A3 x c0 Hx (or_introl eq_refl)). lia. }
      revert G. generalize (firstn (length ls / 2) ls ++ p). clear. induction l as [|x l IH]; intros G; cbn [filter]; auto. rewrite (G x) by (cbn; auto). f_equal. apply IH. intros; apply G; cbn; auto. }
    apply (f_equal (@length nat)) in HF. rewrite app_length in HF. destruct p; [congruence|]. cbn [length] in HF. unfold cid in *. lia.
  - exists (firstn (length ls / 2) ls). split; auto. split; [lia|]. discriminate.
Qed.
Lemma victim_over c : In c vs -> In c (over_limit persist d).
Proof.
  intros H. destruct victims_suffix as (p & E & _). apply (Permutation_in _ ls_perm). rewrite E. apply in_or_app. auto.
Qed.
Lemma over_nodup : NoDup (over_limit persist d).
Proof. apply NoDup_filter. apply (di_clsnd _ _ (proj1 (dreach_inv d HR))). Qed.
Lemma vs_nodup : NoDup vs.
Proof.
  destruct victims_suffix as (p & E & _). assert (H := Permutation_NoDup (Permutation_sym ls_perm) over_nodup). rewrite E in H.
  revert H. clear. induction p as [|x p IH]; cbn [app]; auto. intros H. inversion H; auto.
Qed.
Lemma victim_lt c : In c vs -> c < length (arena d).
Proof. intros H. apply victim_over in H. apply filter_In in H. exact (cls_lt _ _ _ (proj1 (dreach_inv d HR)) (proj1 H)). Qed.
Lemma fold_wt : forall cs d0, (forall c, In c cs -> c < length (arena d0)) -> forall c,
  cwt (fold_left (fun d c => removeClause c d) cs d0) c = if in_dec Nat.eq_dec c cs then W_DELETED else cwt d0 c.
Proof.
  clear. induction cs as [|x cs IH]; intros d0 Hlt c; cbn [fold_left]; [reflexivity|]. rewrite IH by (intros y Hy; rewrite arena_len_remove; apply Hlt; cbn; auto).
  rewrite cwt_remove by (apply Hlt; cbn; auto). destruct (in_dec Nat.eq_dec c cs), (Nat.eqb_spec c x), (in_dec Nat.eq_dec c (x :: cs)); cbn in *; try reflexivity; exfalso; intuition.
Qed.
Let d' := snd (reduce persist median cand d).
Lemma red_wt c : cwt d' c = if in_dec Nat.eq_dec c vs then W_DELETED else cwt d c.
Proof. unfold d', reduce. cbn [snd]. apply fold_wt. exact victim_lt. Qed.
Lemma removed_iff c : In c (removed d d') <-> In c vs.
Proof.
  unfold removed. rewrite filter_In. unfold isDeleted at 2. rewrite red_wt. split.
  - intros (H1 & H2). destruct (in_dec Nat.eq_dec c vs) as [|n]; auto. apply andb_true_iff in H2. destruct H2 as (H2 & H3). unfold isDeleted in H2. rewrite H3 in H2. discriminate.
  - intros H. destruct (in_dec Nat.eq_dec c vs); [|tauto]. apply victim_over in H. unfold over_limit in H. apply filter_In in H. destruct H as (H1 & H2). split; auto.
    apply andb_true_iff in H2. rewrite (proj2 H2). reflexivity.
Qed.
Lemma removed_perm : Permutation (removed d d') vs.
Proof. apply NoDup_Permutation; [apply NoDup_filter; apply (di_clsnd _ _ (proj1 (dreach_inv d HR)))|apply vs_nodup|apply removed_iff]. Qed.

Lemma red_removed c : In c (removed d d') -> isLearnt d c = true /\ (persist < cwt d c)%N /\ 2 < length (clits d c).
Proof.
  intros H. apply removed_iff, victim_over in H. apply filter_In in H. destruct H as (H1 & H2). apply andb_true_iff in H2. destruct H2 as (H2 & H3).
  split; [unfold isLearnt; lia|]. split; [lia|]. destruct (Nat.lt_ge_cases 2 (length (clits d c))) as [|Hs]; auto. exfalso.
  assert (HD := proj1 (dreach_inv d HR)). destruct (di_small _ _ HD c (di_cls _ _ HD c H1)) as [E|E]; [lia|lia|]. unfold isDeleted in H3. rewrite E in H3. discriminate.
Qed.
Lemma red_kept c : ~ In c (removed d d') -> clits d' c = clits d c /\ cwt d' c = cwt d c.
Proof.
  intros H. rewrite removed_iff in H. rewrite red_wt. destruct (in_dec Nat.eq_dec c vs); [tauto|]. split; auto. unfold d', reduce. cbn [snd]. apply fold_remove.
Qed.
Lemma red_fields : cls d' = cls d /\ nv d' = nv d /\ empt d' = empt d.
Proof.
  unfold d', reduce. cbn [snd]. destruct (fold_remove vs d) as (A & B & D). fold vs. split; auto. split; [apply fold_remove_nv|].
  clear. generalize vs as cs. intros cs. clear. revert d. induction cs as [|x r IH]; intros d; cbn [fold_left]; auto. rewrite IH. reflexivity.
Qed.
Lemma red_count : 2 * length (removed d d') <= length (over_limit persist d) + 1.
Proof.
  assert (H1 := Permutation_length removed_perm). assert (H2 := Permutation_length ls_perm). destruct victims_suffix as (p & E & H & _).
  apply (f_equal (@length nat)) in E. rewrite app_length in E. unfold cid in *. lia.
Qed.
Lemma red_order c k : In c (removed d d') -> In k (over_limit persist d) -> ~ In k (removed d d') -> (cwt d k <= cwt d c)%N.
Proof.
  rewrite !removed_iff. intros H1 H2 H3. destruct victims_suffix as (p & E & _). assert (HA := ls_asc). rewrite E in HA.
  destruct (asc_app _ _ _ HA) as (_ & _ & B). apply B; auto. apply (Permutation_in _ (Permutation_sym ls_perm)) in H2. rewrite E in H2. apply in_app_or in H2. tauto.
Qed.
Lemma red_median c : median = true -> In c (removed d d') ->
  length (over_limit persist d) <= 2 * length (filter (fun x => cwt d x <? cwt d c)%N (over_limit persist d)).
Proof.
  intros Hm H. apply removed_iff in H. destruct victims_suffix as (p & E & _ & HM). specialize (HM Hm c H).
  assert (H2 := Permutation_length ls_perm). assert (HL : length (filter (fun x => (cwt d x <? cwt d c)%N) ls) = length (filter (fun x => (cwt d x <? cwt d c)%N) (over_limit persist d))).
  { apply Permutation_length. generalize ls_perm. generalize (over_limit persist d), ls. clear. intros l m P. induction P; cbn [filter]; auto.
    - destruct (_ <? _)%N; auto.
    - destruct (_ <? _)%N, (_ <? _)%N; auto. constructor.
    - etransitivity; eauto. }
  rewrite E in HL at 1. rewrite filter_app, app_length in HL. unfold cid in *. lia.
Qed.
End Red.

Lemma reset_unlocked d t c : ~ locked d (trail_reset t) c.
Proof.
  intros (l & _ & H & _). unfold value, vvalue in H. cbn [trail_reset asg] in H.
  assert (E : nth (lvar l) (map (fun _ => None) (asg t)) None = @None bool).
  { clear. generalize (lvar l). induction (asg t) as [|x r IH]; intros [|n]; cbn; auto. }
  rewrite E in H. discriminate.
Qed.
