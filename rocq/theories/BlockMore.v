(** The block list over any history of operations. *)
Require Import List Arith Bool NArith Lia Permutation.
From Coq Require Import ZifyBool ZifyNat ZifyN.
Require Import Verif.Base Verif.Outcome Verif.CNFModel Verif.CNFProofs Verif.TrailProofs Verif.GateModel Verif.GateSpec Verif.BlockProofs.
Import ListNotations.

Lemma count_unique P j k : count_is P j -> count_is P k -> j = k.
Proof.
  intros (l & N1 & H1 & <-) (l' & N2 & H2 & <-). apply Nat.le_antisymm; apply NoDup_incl_length; auto; intros x Hx; [apply H2, H1|apply H1, H2]; auto.
Qed.
Lemma filter_split {A} (f : A -> bool) l : length (filter f l) + length (filter (fun x => negb (f x)) l) = length l.
Proof. induction l as [|x l IH]; cbn; auto. destruct (f x); cbn; lia. Qed.

Section B.
Variable cs : list clause.
Variable n : nat.
Hypothesis WF : wf_problem n cs.

Lemma Inv_ext R R' b : Inv cs n R b -> (forall c, In c R <-> In c R') -> Inv cs n R' b.
Proof. intros [A1 A2 A3 A4] H. split; auto. intros l c. rewrite <- H. auto. Qed.
Lemma blocked_iff R b o c : Inv cs n R b -> In o (cl cs c) -> (isBlocked cs b o c = true <-> blocked cs R o c).
Proof.
  intros HI Ho. unfold isBlocked, blocked. rewrite forallb_forall. split.
  - intros H d Hd Hn. apply pair_taut; auto; try (apply (cl_wf cs n WF)). apply H. apply (i_in _ _ _ _ HI). auto.
  - intros H d Hd. apply (i_in _ _ _ _ HI) in Hd. destruct Hd as (Hd & Hn). apply pair_taut; auto; apply (cl_wf cs n WF).
Qed.
Lemma cnt_count R b o : Inv cs n R b -> count_is (fun c => In c R /\ In o (cl cs c) /\ blocked cs R o c) (cnt cs b o).
Proof.
  intros HI. exists (filter (isBlocked cs b o) (occs b o)). split; [apply NoDup_filter, (i_nd _ _ _ _ HI)|]. split; auto. intros c. rewrite filter_In, (i_in _ _ _ _ HI). split.
  - intros ((A & A') & A''). split; auto. split; auto. apply (blocked_iff R b); auto.
  - intros (A & A' & A''). split; auto. apply (blocked_iff R b); auto.
Qed.
Lemma ub_count R b o : Inv cs n R b -> count_is (fun c => In c R /\ In o (cl cs c) /\ ~ blocked cs R o c) (ub cs b o).
Proof.
  intros HI. exists (filter (fun c => negb (isBlocked cs b o c)) (occs b o)). split; [apply NoDup_filter, (i_nd _ _ _ _ HI)|]. split.
  - intros c. rewrite filter_In, (i_in _ _ _ _ HI), negb_true_iff. split.
    + intros ((A & A') & A''). split; auto. split; auto. intros H. apply (blocked_iff R b o c HI A') in H. congruence.
    + intros (A & A' & A''). split; auto. destruct (isBlocked cs b o c) eqn:E; auto. exfalso. apply A''. apply (blocked_iff R b); auto.
  - unfold ub, cnt. pose proof (filter_split (isBlocked cs b o) (occs b o)). lia.
Qed.
Lemma occ_count R b o : Inv cs n R b -> count_is (fun c => In c R /\ In o (cl cs c)) (length (occs b o)).
Proof. intros HI. exists (occs b o). split; [apply (i_nd _ _ _ _ HI)|]. split; auto. intros c. apply (i_in _ _ _ _ HI). Qed.
Lemma all_blocked_iff R b o : Inv cs n R b -> (cnt cs b o = length (occs b o) <-> forall c, In c R -> In o (cl cs c) -> blocked cs R o c).
Proof.
  intros HI. pose proof (filter_split (isBlocked cs b o) (occs b o)) as HS. unfold cnt. split.
  - intros E c Hc Ho. apply (blocked_iff R b); auto. destruct (isBlocked cs b o c) eqn:EB; auto. exfalso.
    assert (H : In c (filter (fun x => negb (isBlocked cs b o x)) (occs b o))) by (apply filter_In; rewrite EB; split; auto; apply (i_in _ _ _ _ HI); auto). destruct (filter (fun x => negb (isBlocked cs b o x)) (occs b o)); [destruct H|cbn [length] in HS; lia].
  - intros H. rewrite (filter_ext_in _ (fun _ => true)); [clear; induction (occs b o); cbn; auto|]. intros c Hc. apply (i_in _ _ _ _ HI) in Hc. apply (blocked_iff R b); intuition.
Qed.

Definition brun (ops : list bop) : blocklist := fold_left (fun b op => bstep cs n op b) ops (bl_new n cs).
Lemma history_inv ops R : history cs ops R -> Forall (bop_ok cs n) ops -> Inv cs n R (brun ops) /\ CI cs n (brun ops).
Proof.
  unfold brun. induction 1 as [|ops l R R' H IH HN HR|ops o R R' H IH HN HR|ops o R H IH|ops o R H IH|ops R H IH]; intros HF; [apply (new_ok cs n WF)|..];
    rewrite fold_left_app; cbn [fold_left bstep]; apply Forall_app in HF; destruct HF as (HF & HO); specialize (IH HF); destruct IH as (HI & HC); inversion HO as [|? ? Ho _]; subst; cbn [bop_ok] in Ho.
  - destruct (remove_ok cs n WF l R _ HI HC) as (R2 & A1 & A2 & A3). split; auto. apply (Inv_ext R2); auto. intros c. rewrite A3, HR. reflexivity.
  - destruct (stripUnblockedClauses cs o _) as (l, b') eqn:E. destruct (strip_ok cs n WF R _ o HI HC Ho _ _ E) as (A0 & A1 & R2 & A2 & A3 & A4). cbn [snd]. split; auto. apply (Inv_ext R2); auto. intros c. rewrite A4, HR, A1, (i_in _ _ _ _ HI). split.
    + intros (A & A'). split; auto. intros Hoc. apply (blocked_iff R _ o c HI Hoc). destruct (isBlocked cs (fold_left (fun b op => bstep cs n op b) ops (bl_new n cs)) o c) eqn:EB; [reflexivity|exfalso; apply A'; auto].
    + intros (A & A'). split; auto. intros ((_ & B) & B'). specialize (A' B). apply (blocked_iff R _ o c HI B) in A'. congruence.
  - destruct (getNumBlocked cs o _) as (k, b') eqn:E. destruct (num_ok cs n R _ o HI HC Ho _ _ E) as (_ & _ & A). auto.
  - destruct (isBlockedSet cs o _) as (k, b') eqn:E. destruct (set_ok cs n R _ o HI HC Ho _ _ E) as (_ & _ & A). auto.
  - destruct (getMinimallyUnblockedLiteral cs n _) as (k, b') eqn:E. destruct (min_ok cs n R _ HI HC _ _ E) as (A & A' & _). auto.
Qed.

Lemma num_spec ops R o : history cs ops R -> Forall (bop_ok cs n) ops -> o < 2 * n -> exists k, count_is (fun c => In c R /\ In o (cl cs c) /\ blocked cs R o c) k /\ fst (getNumBlocked cs o (brun ops)) = (N.of_nat k mod 65536)%N.
Proof.
  intros H HF Ho. destruct (history_inv ops R H HF) as (HI & HC). destruct (getNumBlocked cs o (brun ops)) as (k, b') eqn:E. destruct (num_ok cs n R _ o HI HC Ho _ _ E) as (A & _). exists (cnt cs (brun ops) o). split; auto. apply cnt_count. auto.
Qed.
Lemma set_spec ops R o : history cs ops R -> Forall (bop_ok cs n) ops -> o < 2 * n ->
  (fst (isBlockedSet cs o (brun ops)) = true -> forall c, In c R -> In o (cl cs c) -> blocked cs R o c) /\
  (forall k, count_is (fun c => In c R /\ In o (cl cs c)) k -> (N.of_nat k < 65536)%N -> (forall c, In c R -> In o (cl cs c) -> blocked cs R o c) -> fst (isBlockedSet cs o (brun ops)) = true).
Proof.
  intros H HF Ho. destruct (history_inv ops R H HF) as (HI & HC). destruct (isBlockedSet cs o (brun ops)) as (r, b') eqn:E. cbn [fst]. split.
  - intros ->. apply (all_blocked_iff R (brun ops) o HI). apply (set_true cs n R _ o b'); auto.
  - intros k Hk HB HA. destruct (set_ok cs n R _ o HI HC Ho _ _ E) as (S & _). apply S. apply (all_blocked_iff R (brun ops) o HI) in HA. pose proof (count_unique _ _ _ Hk (occ_count R _ o HI)). rewrite HA. unfold to_u16. rewrite N.mod_small; lia.
Qed.
Lemma strip_spec ops R o : history cs ops R -> Forall (bop_ok cs n) ops -> o < 2 * n ->
  let r := fst (stripUnblockedClauses cs o (brun ops)) in NoDup r /\ forall c, In c r <-> In c R /\ In o (cl cs c) /\ ~ blocked cs R o c.
Proof.
  intros H HF Ho. destruct (history_inv ops R H HF) as (HI & HC). destruct (stripUnblockedClauses cs o (brun ops)) as (r, b') eqn:E. cbn [fst]. destruct (strip_ok cs n WF R _ o HI HC Ho _ _ E) as (A0 & A1 & _). split; auto. intros c. rewrite A1, (i_in _ _ _ _ HI). split.
  - intros ((A & A') & A''). split; auto. split; auto. intros HB. apply (blocked_iff R _ o c HI A') in HB. congruence.
  - intros (A & A' & A''). split; auto. destruct (isBlocked cs (brun ops) o c) eqn:EB; auto. exfalso. apply A''. apply (blocked_iff R _ o c HI A'). auto.
Qed.
Lemma occs_spec ops R o : history cs ops R -> Forall (bop_ok cs n) ops -> o < 2 * n -> NoDup (occs (brun ops) o) /\ forall c, In c (occs (brun ops) o) <-> In c R /\ In o (cl cs c).
Proof. intros H HF Ho. destruct (history_inv ops R H HF) as (HI & HC). split; [apply (i_nd _ _ _ _ HI)|intros c; apply (i_in _ _ _ _ HI)]. Qed.
Lemma min_spec ops R : history cs ops R -> Forall (bop_ok cs n) ops ->
  match fst (getMinimallyUnblockedLiteral cs n (brun ops)) with
  | Some o => o < 2 * n /\ (exists c, In c R /\ In o (cl cs c) /\ ~ blocked cs R o c) /\
     ((forall l k, l < 2 * n -> count_is (fun c => In c R /\ In l (cl cs c)) k -> (N.of_nat k < 65536)%N) ->
      forall k l j, unblocked_count cs R o k -> l < 2 * n -> unblocked_count cs R l j -> j = 0 \/ k <= j)
  | None => (forall l k, l < 2 * n -> count_is (fun c => In c R /\ In l (cl cs c)) k -> (N.of_nat k < 65535)%N) ->
      forall c l, In c R -> In l (cl cs c) -> blocked cs R l c
  end.
Proof.
  intros H HF. destruct (history_inv ops R H HF) as (HI & HC). destruct (getMinimallyUnblockedLiteral cs n (brun ops)) as (r, b') eqn:E. cbn [fst]. destruct (min_ok cs n R _ HI HC _ _ E) as (_ & _ & _ & A). destruct r as [o|].
  - destruct A as (A1 & A2 & A3 & A4). split; auto. split.
    + destruct (ub_count R _ o HI) as (l & N1 & N2 & N3). destruct l as [|c l]; [cbn in N3; lia|]. exists c. apply N2. left. auto.
    + intros HB k l j Hk Hl Hj. rewrite (count_unique _ _ _ Hk (ub_count R _ o HI)), (count_unique _ _ _ Hj (ub_count R _ l HI)). destruct (A4 l Hl) as [B|B]; rewrite (ub_diff cs _ l (HB l _ Hl (occ_count R _ l HI))) in B; lia.
  - intros HB c l Hc Hl. assert (Hl2 : l < 2 * n) by (apply (cl_wf cs n WF c); auto). apply (all_blocked_iff R (brun ops) l HI); auto. pose proof (HB l _ Hl2 (occ_count R _ l HI)) as B. pose proof (cnt_le cs (brun ops) l). destruct (A l Hl2) as [A'|A']; rewrite ub_diff in A' by lia; unfold ub in A'; lia.
Qed.
End B.
