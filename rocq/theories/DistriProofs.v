(** Proofs about the distribution of distances. *)
Require Import List Arith Bool QArith Qround FinFun Lia.
Require Import Verif.Base Verif.Outcome Verif.CNFModel Verif.ApproxLemmas Verif.GraphModel Verif.DistModel Verif.DistSpec Verif.DistProofs Verif.DistriModel Verif.DistriSpec.
Import ListNotations.
Open Scope nat_scope.

Definition D (n : nat) (adj : nat -> list nat) (i : nat) : list (option nat) := match alldistances n adj i with Ok ds => ds | Err _ => [] end.
Lemma D_spec n adj i : closed n adj -> i < n -> length (D n adj i) = n /\ forall j, j < n -> is_distance adj i j (nth j (D n adj i) None).
Proof. intros CL H. destruct (alldistances_ok n adj i CL H) as (ds & E & L & S). unfold D. rewrite E. auto. Qed.
Lemma exact_loop n adj : closed n adj -> forall is count t rs done, (forall i, In i is -> i < n) -> count + length is <= n -> n <= length t ->
  exists t1, dd_loop n adj n false is count done t rs = Ok t1 /\ length t1 = length t /\ forall k, k < length t -> nth k t1 0 = nth k t 0 + list_sum (map (fun i => occurrences k (D n adj i)) is).
Proof.
  intros CL. induction is as [|i is IH]; intros count t rs done HI HC HT.
  - exists t. cbn. split; [auto|split; [auto|intros k _; lia]].
  - cbn [length dd_loop] in *. destruct (Nat.leb_spec n count); [lia|]. destruct (distances_ok n adj i t CL (HI i (or_introl eq_refl)) HT) as (ds & t1 & E & EA & L & V). rewrite E. cbn [bind].
    destruct (IH (S count) t1 rs done) as (t2 & E2 & L2 & V2); [intros x Hx; apply HI; right; auto|lia|lia|]. exists t2. split; auto. split; [lia|]. intros k Hk. rewrite V2 by lia. rewrite V by auto. cbn [map list_sum fold_right]. unfold D at 2. rewrite EA. unfold list_sum. lia.
Qed.
Lemma list_nth (ds : list (option nat)) : ds = map (fun j => nth j ds None) (seq 0 (length ds)).
Proof.
  apply (nth_ext _ _ None None); [rewrite map_length, seq_length; auto|]. intros j Hj. rewrite (nth_indep (map _ _) None ((fun j => nth j ds None) 0)) by (rewrite map_length, seq_length; auto). rewrite (map_nth (fun j => nth j ds None)), seq_nth; auto.
Qed.
Definition level (n : nat) (adj : nat -> list nat) (k i : nat) : list (nat * nat) := map (pair i) (filter (fun j => has k (nth j (D n adj i) None)) (seq 0 n)).
Lemma level_len n adj k i : closed n adj -> i < n -> length (level n adj k i) = occurrences k (D n adj i).
Proof.
  intros CL H. unfold level. rewrite map_length. destruct (D_spec n adj i CL H) as (L & _). pose proof (list_nth (D n adj i)) as X. rewrite L in X. transitivity (occurrences k (map (fun j => nth j (D n adj i) None) (seq 0 n))); [rewrite occurrences_cnt; reflexivity|]. f_equal. symmetry. exact X.
Qed.
Lemma dist_unique adj i j a b : is_distance adj i j a -> is_distance adj i j b -> a = b.
Proof.
  destruct a as [a|], b as [b|]; cbn; auto.
  - intros (W1 & M1) (W2 & M2). f_equal. apply Nat.le_antisymm; auto.
  - intros (W1 & _) N. destruct (N _ W1).
  - intros N (W1 & _). destruct (N _ W1).
Qed.
Lemma level_in n adj k i a j : closed n adj -> i < n -> (In (a, j) (level n adj k i) <-> a = i /\ j < n /\ is_distance adj i j (Some k)).
Proof.
  intros CL H. destruct (D_spec n adj i CL H) as (_ & S). unfold level. rewrite in_map_iff. split.
  - intros (x & E & Hx). injection E as <- <-. apply filter_In in Hx. destruct Hx as (Hx & Hh). apply in_seq in Hx. split; auto. split; [lia|]. specialize (S x ltac:(lia)). unfold has in Hh. destruct (nth x (D n adj i) None); [|discriminate]. apply Nat.eqb_eq in Hh. subst. auto.
  - intros (-> & Hj & Hd). exists j. split; auto. apply filter_In. split; [apply in_seq; lia|]. rewrite (dist_unique adj i j _ _ (S j Hj) Hd). cbn. apply Nat.eqb_refl.
Qed.
Lemma levels_nodup n adj k : closed n adj -> forall is, NoDup is -> (forall i, In i is -> i < n) -> NoDup (flat_map (level n adj k) is) /\ length (flat_map (level n adj k) is) = list_sum (map (fun i => occurrences k (D n adj i)) is).
Proof.
  intros CL. induction is as [|i is IH]; intros ND HI; [split; [constructor|auto]|]. inversion ND as [|? ? N1 N2]; subst. destruct (IH N2) as (A & B); [intros x Hx; apply HI; right; auto|]. assert (Hi : i < n) by (apply HI; left; auto). cbn [flat_map map]. split.
  - apply nodup_app; auto.
    + unfold level. apply FinFun.Injective_map_NoDup; [intros x y H; injection H; auto|]. apply NoDup_filter, seq_NoDup.
    + intros (a, j) H1 H2. apply in_flat_map in H2. destruct H2 as (i' & Hi' & H2). apply level_in in H1; auto. apply level_in in H2; [|auto|apply HI; right; auto]. destruct H1 as (-> & _). destruct H2 as (-> & _). contradiction.
  - rewrite app_length, B, level_len by auto. reflexivity.
Qed.
Lemma pairs_ok n adj k : closed n adj -> pairs_at n adj k (list_sum (map (fun i => occurrences k (D n adj i)) (seq 0 n))).
Proof.
  intros CL. destruct (levels_nodup n adj k CL (seq 0 n) (seq_NoDup _ _)) as (A & B); [intros i Hi; apply in_seq in Hi; lia|]. exists (flat_map (level n adj k) (seq 0 n)). split; auto. split; auto.
  intros i j. rewrite in_flat_map. split.
  - intros (a & Ha & H). apply in_seq in Ha. apply level_in in H; [|auto|lia]. destruct H as (-> & Hj & Hd). split; [lia|auto].
  - intros (Hi & Hj & Hd). exists i. split; [apply in_seq; lia|]. apply level_in; auto.
Qed.
Lemma scale_one s c : (s == 1)%Q -> scale s c = c.
Proof. intros H. unfold scale. assert (E : (1 / s * qn c == qn c)%Q) by (rewrite H; field). rewrite E. unfold qn. rewrite Qfloor_Z. apply Nat2Z.id. Qed.
Lemma distribution_val n adj s rs : closed n adj -> 2 <= n -> (s == 1)%Q -> exists r, distanceDistribution n adj s rs = Ok r /\ length r = n /\ forall k, k < n -> nth k r 0 = list_sum (map (fun i => occurrences k (D n adj i)) (seq 0 n)).
Proof.
  intros CL HN HS. unfold distanceDistribution. destruct (Nat.ltb_spec n 2); [lia|].
  assert (L1 : Qle_bool 1 s = true) by (apply Qle_bool_iff; rewrite HS; apply Qle_refl). assert (L2 : Qle_bool s 1 = true) by (apply Qle_bool_iff; rewrite HS; apply Qle_refl).
  unfold sample_of. rewrite L1, L2. cbn [negb andb]. rewrite L1. cbn [negb].
  destruct (exact_loop n adj CL (seq 0 n) 0 (repeat 0 n) rs (fun _ => false)) as (t & E & L & V); [intros i Hi; apply in_seq in Hi; lia|rewrite seq_length; lia|rewrite repeat_length; lia|]. rewrite repeat_length in *. rewrite E. cbn [bind].
  assert (NZ : Qeq_bool s 0 = false) by (destruct (Qeq_bool s 0) eqn:EZ; auto; apply Qeq_bool_iff in EZ; rewrite HS in EZ; discriminate). rewrite NZ. exists (map (scale s) t).
  assert (EM : map (scale s) t = t) by (rewrite <- (map_id t) at 2; apply map_ext; intros c; apply scale_one; auto). rewrite EM. split; auto. split; auto. intros k Hk. rewrite V by auto. rewrite nth_repeat. auto.
Qed.
Lemma distribution_ok n adj s rs : closed n adj -> 2 <= n -> (s == 1)%Q -> exists r, distanceDistribution n adj s rs = Ok r /\ length r = n /\ forall k, k < n -> pairs_at n adj k (nth k r 0).
Proof. intros CL HN HS. destruct (distribution_val n adj s rs CL HN HS) as (r & E & L & V). exists r. split; auto. split; auto. intros k Hk. rewrite V by auto. apply pairs_ok. auto. Qed.
Lemma sampled_ub n adj s rs : 2 <= n -> ~ (1 <= s)%Q -> (1 <= qn n * s)%Q -> distanceDistribution n adj s rs = Err UB.
Proof.
  intros HN HS H1. unfold distanceDistribution. destruct (Nat.ltb_spec n 2); [lia|]. assert (L1 : Qle_bool 1 s = false) by (destruct (Qle_bool 1 s) eqn:E; auto; apply Qle_bool_iff in E; contradiction).
  unfold sample_of. rewrite L1. cbn [negb]. rewrite L1. cbn [negb]. assert (HM : exists m, Z.to_nat (Qfloor (qn n * s)) = S m).
  { assert (G : (1 <= Qfloor (qn n * s))%Z) by (change 1%Z with (Qfloor 1); apply Qfloor_resp_le; auto). destruct (Z.to_nat (Qfloor (qn n * s))) eqn:E; [lia|eauto]. }
  destruct HM as (m & ->). destruct n as [|n]; [lia|]. cbn [seq dd_loop Nat.leb]. assert (PK : pick (S n) (fun _ => false) (S n) rs = Ok (S n, rs)) by (destruct rs; cbn [pick]; rewrite Nat.ltb_irrefl; auto). rewrite PK. cbn [bind]. unfold distances at 1. rewrite Nat.leb_refl. reflexivity.
Qed.
(** ** The average *)
Lemma dist_small n adj i j k : closed n adj -> i < n -> is_distance adj i j (Some k) -> k < n.
Proof.
  intros CL H HD. destruct (all_ok n i adj CL H) as (d & _ & I). assert (X : is_distance adj i j (d j)) by (eapply inv_distance; eauto). pose proof (dist_unique adj i j _ _ X HD) as E. destruct (i_walk _ _ _ _ _ I j k E) as (_ & _ & G). lia.
Qed.
Definition pairs (n : nat) (adj : nat -> list nat) (k : nat) : list (nat * nat) := flat_map (level n adj k) (seq 0 n).
Lemma pairs_in n adj k i j : closed n adj -> (In (i, j) (pairs n adj k) <-> i < n /\ j < n /\ is_distance adj i j (Some k)).
Proof.
  intros CL. unfold pairs. rewrite in_flat_map. split.
  - intros (a & Ha & H). apply in_seq in Ha. apply level_in in H; [|auto|lia]. destruct H as (-> & Hj & Hd). split; [lia|auto].
  - intros (Hi & Hj & Hd). exists i. split; [apply in_seq; lia|]. apply level_in; auto.
Qed.
Lemma tagged n adj : closed n adj -> forall ks, NoDup ks -> NoDup (flat_map (fun k => map (fun p => (p, k)) (pairs n adj k)) ks) /\
  list_sum (map snd (flat_map (fun k => map (fun p => (p, k)) (pairs n adj k)) ks)) = list_sum (map (fun k => k * list_sum (map (fun i => occurrences k (D n adj i)) (seq 0 n))) ks).
Proof.
  intros CL. induction ks as [|k ks IH]; intros ND; [split; [constructor|auto]|]. inversion ND as [|? ? N1 N2]; subst. destruct (IH N2) as (A & B). destruct (levels_nodup n adj k CL (seq 0 n) (seq_NoDup _ _)) as (P1 & P2); [intros i Hi; apply in_seq in Hi; lia|]. fold (pairs n adj k) in P1, P2. cbn [flat_map map]. split.
  - apply nodup_app; auto.
    + apply FinFun.Injective_map_NoDup; auto. intros x y H. injection H; auto.
    + intros (p, k') H1 H2. apply in_map_iff in H1. destruct H1 as (p1 & E1 & _). injection E1 as <- <-. apply in_flat_map in H2. destruct H2 as (k2 & Hk & H2). apply in_map_iff in H2. destruct H2 as (p2 & E2 & _). injection E2 as _ ->. contradiction.
  - rewrite map_app, list_sum_app, B, <- P2. cbn [list_sum fold_right]. f_equal. rewrite map_map. cbn [snd]. clear. induction (pairs n adj k) as [|p l IH]; cbn in *; [lia|]. unfold list_sum in IH. rewrite IH. lia.
Qed.
Lemma average_ok n adj s rs : closed n adj -> 2 <= n -> (s == 1)%Q -> exists T, total_distance n adj T /\ averageDistance n adj s rs = Ok (Some (qn T / (qn n * (qn n - 1)))%Q).
Proof.
  intros CL HN HS. destruct (distribution_val n adj s rs CL HN HS) as (r & E & L & V). destruct (tagged n adj CL (seq 0 n) (seq_NoDup _ _)) as (A & B).
  eexists. split; [exists (flat_map (fun k => map (fun p => (p, k)) (pairs n adj k)) (seq 0 n)); split; [exact A|split; [|reflexivity]]|].
  - intros i j k. rewrite in_flat_map. split.
    + intros (k' & _ & H). apply in_map_iff in H. destruct H as (p & E1 & H). injection E1 as -> ->. apply pairs_in in H; auto.
    + intros (Hi & Hj & Hd). exists k. split; [apply in_seq; pose proof (dist_small n adj i j k CL Hi Hd); lia|]. apply in_map_iff. exists (i, j). split; auto. apply pairs_in; auto.
  - unfold averageDistance. rewrite E. cbn [bind]. rewrite L. destruct (Nat.ltb_spec n n); [lia|]. destruct (Nat.ltb_spec n 2); [lia|]. rewrite B. assert (EM : map (fun i => i * nth i r 0) (seq 0 n) = map (fun k => k * list_sum (map (fun i => occurrences k (D n adj i)) (seq 0 n))) (seq 0 n)) by (apply map_ext_in; intros k Hk; apply in_seq in Hk; rewrite V by lia; auto). rewrite EM. auto.
Qed.
Lemma sampled_ub_count n adj s rs : 2 <= n -> (1 < s)%Q -> (s < qn n)%Q -> distanceDistribution n adj s rs = Err UB.
Proof.
  intros HN HS H1. unfold distanceDistribution. destruct (Nat.ltb_spec n 2); [lia|]. assert (L1 : Qle_bool 1 s = true) by (apply Qle_bool_iff, Qlt_le_weak; auto).
  assert (L2 : Qle_bool s 1 = false) by (destruct (Qle_bool s 1) eqn:E; auto; apply Qle_bool_iff in E; destruct (Qlt_not_le _ _ HS E)). assert (L3 : Qle_bool (qn n) s = false) by (destruct (Qle_bool (qn n) s) eqn:E; auto; apply Qle_bool_iff in E; destruct (Qlt_not_le _ _ H1 E)).
  unfold sample_of. rewrite L1, L2, L3. cbn [negb andb]. assert (G : (1 <= Qfloor s)%Z) by (change 1%Z with (Qfloor 1); apply Qfloor_resp_le, Qlt_le_weak; auto).
  assert (G2 : (Qfloor s < Z.of_nat n)%Z). { rewrite Zlt_Qlt. eapply Qle_lt_trans; [apply Qfloor_le|exact H1]. }
  destruct (Z.to_nat (Qfloor s)) as [|m] eqn:EM; [lia|]. assert (L4 : Qle_bool 1 (qn (S m) / qn n) = false).
  { destruct (Qle_bool 1 (qn (S m) / qn n)) eqn:E; auto. apply Qle_bool_iff in E. exfalso. assert (P : (0 < qn n)%Q) by (unfold qn; change 0%Q with (inject_Z 0); rewrite <- Zlt_Qlt; lia).
    apply (Qmult_le_r _ _ _ P) in E. assert (X : (qn (S m) / qn n * qn n == qn (S m))%Q) by (field; intros Z; rewrite Z in P; discriminate). rewrite X, Qmult_1_l in E. unfold qn in E. rewrite <- Zle_Qle in E. lia. }
  rewrite L4. cbn [negb]. destruct n as [|n]; [lia|]. cbn [seq dd_loop Nat.leb]. assert (PK : pick (S n) (fun _ => false) (S n) rs = Ok (S n, rs)) by (destruct rs; cbn [pick]; rewrite Nat.ltb_irrefl; auto). rewrite PK. cbn [bind]. unfold distances at 1. rewrite Nat.leb_refl. reflexivity.
Qed.
