(** Proofs about the closeness centrality. *)
Require Import List Arith Bool Lia QArith Qfield.
Require Import Verif.Base Verif.Outcome Verif.GraphModel Verif.GraphSpec Verif.GraphCases Verif.DistSpec Verif.CloseModel Verif.CloseSpec Verif.CloseProofs Verif.CloseCenModel.
Import ListNotations.
Open Scope nat_scope.

Lemma qnat_pos k : k <> 0 -> ~ (qnat k == 0)%Q.
Proof. intros H E. unfold qnat, inject_Z, Qeq in E. cbn in E. lia. Qed.
Definition value_ok (g : graph) (i : nat) (v : option Q) : Prop :=
  (inScope g i LWCC = true -> exists T, sum_to (g_n g) (g_E g) i T /\ match v with Some q => T <> 0 /\ (q == qnat (g_n g) / qnat T)%Q | None => T = 0 end) /\
  (inScope g i LWCC = false -> exists m q, v = Some q /\ sum_from (g_n g) (g_E g) i m /\
     match g_wcc g with Some w => q = (qnat m / qnat (w_nodes w (w_id w i)))%Q | None => (q == - qnat m)%Q end).
Lemma results_ok g t : closed (g_n g) (g_E g) -> 2 <= g_n g -> (forall v, v < g_n g -> sum_to (g_n g) (g_E g) v (nth v t 0)) -> forall is, (forall i, In i is -> i < g_n g) ->
  exists vs, cen_results g t is = Ok vs /\ Forall2 (value_ok g) is vs.
Proof.
  intros CL HN HT. induction is as [|i is IH]; intros HI; [exists []; split; auto|]. assert (Hi : i < g_n g) by (apply HI; left; auto). destruct IH as (vs & E & F); [intros j Hj; apply HI; right; auto|]. cbn [cen_results]. destruct (inScope g i LWCC) eqn:ES.
  - cbn [bind]. rewrite E. cbn [bind]. eexists. split; [reflexivity|]. constructor; auto. split; [|congruence]. intros _. exists (nth i t 0). split; [apply HT; auto|]. destruct (Nat.eqb_spec (nth i t 0) 0) as [Z|Z]; auto. split; auto.
    field. split; apply qnat_pos; auto; lia.
  - unfold closeness. destruct (sum_ok (g_n g) (g_E g) i CL Hi) as (m & EM & HM). rewrite EM. cbn [bind]. rewrite E. cbn [bind]. eexists. split; [reflexivity|]. constructor; auto. split; [congruence|]. intros _. exists m. eexists. split; [reflexivity|]. split; auto.
    destruct (g_wcc g); auto. field.
Qed.
Lemma centrality_ok g : closed (g_n g) (g_E g) -> 2 <= g_n g -> g_undir g = true -> exists vs, closenessCentrality g = Ok vs /\ length vs = g_n g /\ forall i, i < g_n g -> value_ok g i (nth i vs None).
Proof.
  intros CL HN HU. unfold closenessCentrality. rewrite HU. cbn [negb orb]. destruct (Nat.ltb_spec (g_n g) 2); [lia|]. destruct (totals_ok (g_n g) (g_E g) CL) as (t & E & _ & HT). rewrite E. cbn [bind].
  destruct (results_ok g t CL HN HT (seq 0 (g_n g))) as (vs & EV & F); [intros i Hi; apply in_seq in Hi; lia|]. exists vs. split; auto. assert (L : g_n g = length vs) by (rewrite <- (seq_length (g_n g) 0) at 1; clear - F; induction F; cbn; auto). split; auto.
  intros i Hi. assert (G : forall is vs k, Forall2 (value_ok g) is vs -> k < length is -> value_ok g (nth k is 0) (nth k vs None)).
  { clear. intros is vs k F. revert k. induction F as [|i v is vs H F IH]; intros k Hk; [cbn in Hk; lia|]. destruct k as [|k]; cbn; auto. apply IH. cbn in Hk. lia. }
  specialize (G _ _ i F). rewrite seq_length, seq_nth in G by auto. auto.
Qed.
(** a path of four variables and a path of three *)
Definition pathcls : list (bool * clause) := [two 0 1; two 1 2; two 2 3; two 4 5; two 5 6].
(** ** The order of the values *)
Lemma is_unique adj u v a b : is_distance adj u v a -> is_distance adj u v b -> a = b.
Proof.
  destruct a as [a|], b as [b|]; cbn; intros A B; auto; [|exfalso; destruct A; eapply B; eauto|exfalso; destruct B; eapply A; eauto]. destruct A as (A1 & A2), B as (B1 & B2). specialize (A2 _ B1). specialize (B2 _ A1). f_equal. lia.
Qed.
Lemma list_nth_eq (l m : list (option nat)) n : length l = n -> length m = n -> (forall k, k < n -> nth k l None = nth k m None) -> l = m.
Proof. intros L M H. apply nth_ext with None None; [lia|]. intros k Hk. apply H. lia. Qed.
Lemma sum_to_unique n adj v T U : sum_to n adj v T -> sum_to n adj v U -> T = U.
Proof. intros (l & L1 & L2 & ->) (m & M1 & M2 & ->). do 2 f_equal. apply (list_nth_eq l m n); auto. intros k Hk. apply (is_unique adj k v); auto. Qed.
Lemma sum_from_unique n adj v T U : sum_from n adj v T -> sum_from n adj v U -> T = U.
Proof. intros (l & L1 & L2 & ->) (m & M1 & M2 & ->). do 2 f_equal. apply (list_nth_eq l m n); auto. intros k Hk. apply (is_unique adj v k); auto. Qed.
Lemma qnat_lt a b : a < b -> (qnat a < qnat b)%Q.
Proof. intros H. unfold qnat. rewrite <- Zlt_Qlt. lia. Qed.
Lemma order_ok g i j T U : closed (g_n g) (g_E g) -> 2 <= g_n g -> g_undir g = true -> i < g_n g -> j < g_n g -> inScope g i LWCC = true -> inScope g j LWCC = true ->
  sum_to (g_n g) (g_E g) i T -> sum_to (g_n g) (g_E g) j U -> 0 < T -> T < U ->
  exists vs p q, closenessCentrality g = Ok vs /\ nth i vs None = Some p /\ nth j vs None = Some q /\ (q < p)%Q.
Proof.
  intros CL HN HU Hi Hj Si Sj HT HUU H0 HL. destruct (centrality_ok g CL HN HU) as (vs & E & _ & V). destruct (proj1 (V i Hi) Si) as (T' & A & B). destruct (proj1 (V j Hj) Sj) as (U' & C & D).
  rewrite (sum_to_unique _ _ _ _ _ A HT) in B. rewrite (sum_to_unique _ _ _ _ _ C HUU) in D. destruct (nth i vs None) as [p|] eqn:EI; [|lia]. destruct (nth j vs None) as [q|] eqn:EJ; [|lia]. exists vs, p, q. split; auto. split; auto. split; auto.
  destruct B as (_ & ->). destruct D as (_ & ->). pose proof (qnat_lt 0 T H0) as PT. pose proof (qnat_lt 0 U ltac:(lia)) as PU. apply Qlt_shift_div_l; [exact PT|].
  setoid_replace (qnat (g_n g) / qnat U * qnat T)%Q with (qnat (g_n g) * qnat T / qnat U)%Q by (field; apply qnat_pos; lia). apply Qlt_shift_div_r; [exact PU|].
  apply Qmult_lt_l; [apply (qnat_lt 0); lia|apply qnat_lt; auto].
Qed.
Lemma reversed_ok g w i j m k : closed (g_n g) (g_E g) -> 2 <= g_n g -> g_undir g = true -> i < g_n g -> j < g_n g -> inScope g i LWCC = false -> inScope g j LWCC = false ->
  g_wcc g = Some w -> w_id w i = w_id w j -> 0 < w_nodes w (w_id w i) -> sum_from (g_n g) (g_E g) i m -> sum_from (g_n g) (g_E g) j k -> m < k ->
  exists vs p q, closenessCentrality g = Ok vs /\ nth i vs None = Some p /\ nth j vs None = Some q /\ (p < q)%Q.
Proof.
  intros CL HN HU Hi Hj Si Sj HW HID HP HM HK HL. destruct (centrality_ok g CL HN HU) as (vs & E & _ & V). destruct (proj2 (V i Hi) Si) as (m' & p & Ep & A & B). destruct (proj2 (V j Hj) Sj) as (k' & q & Eq & C & D).
  rewrite HW in B, D. rewrite (sum_from_unique _ _ _ _ _ A HM) in B. rewrite (sum_from_unique _ _ _ _ _ C HK) in D. exists vs, p, q. split; auto. split; auto. split; auto. subst p q. rewrite <- HID.
  unfold Qdiv. apply Qmult_lt_r; [apply Qinv_lt_0_compat; apply (qnat_lt 0); auto|apply qnat_lt; auto].
Qed.
