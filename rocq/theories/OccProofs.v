(** Proofs about the option sort-variables (C65). *)
Require Import List Arith Bool NArith ZArith QArith Lia.
Require Import Verif.Base Verif.CNFModel Verif.CNFProofs Verif.Outcome Verif.TrailModel Verif.TrailSpec Verif.TrailLemmas Verif.HeapModel Verif.HeapSpec Verif.BranchModel Verif.BranchSpec Verif.BranchProofs Verif.BranchMore Verif.BranchCases Verif.DbModel Verif.SolverModel Verif.SolverLemmas Verif.OccModel Verif.OccSpec.
Import ListNotations.
Local Open Scope nat_scope.

Lemma nth_set {A} (d x : A) l k j : k < length l -> nth j (set_nth k x l) d = if j =? k then x else nth j l d.
Proof.
  intros H. unfold set_nth. assert (L : length (firstn k l) = k) by (rewrite firstn_length; lia).
  destruct (skipn k l) as [|y r] eqn:E.
  { exfalso. assert (length (skipn k l) = 0) by (rewrite E; auto). rewrite skipn_length in H0. lia. }
  assert (EL : l = firstn k l ++ y :: r) by (rewrite <- E; symmetry; apply firstn_skipn).
  destruct (Nat.eqb_spec j k) as [->|N].
  - rewrite app_nth2 by lia. rewrite L, Nat.sub_diag. auto.
  - transitivity (nth j (firstn k l ++ y :: r) d); [|rewrite <- EL; auto]. destruct (Nat.lt_ge_cases j k) as [Hj|Hj].
    + rewrite !app_nth1 by lia. auto.
    + rewrite !app_nth2 by lia. rewrite L. destruct (j - k) eqn:EK; [lia|]. auto.
Qed.

Lemma lit_lt l n : l < n * 2 <-> lvar l < n.
Proof.
  rewrite (lit_eta l), lvar_mk. unfold mkLit. destruct (lsign l); lia.
Qed.

(** ** Summing up *)
Definition cnt (c : clause) (l : lit) : Q := inject_Z (Z.of_nat (count_occ Nat.eq_dec c l)).

Lemma occ_lits_ok n w ls : forall occ, (forall l, In l ls -> lvar l < n) -> length occ = n * 2 ->
  exists o, occ_lits w ls occ = Ok o /\ length o = n * 2 /\ forall l, (nth l o 0 == cnt ls l * w + nth l occ 0)%Q.
Proof.
  induction ls as [|x r IH]; intros occ HO HL; cbn [occ_lits].
  - exists occ. split; [auto|]. split; [auto|]. intros l. unfold cnt. cbn. ring.
  - assert (Hx : x < length occ) by (rewrite HL; apply lit_lt, HO; left; auto).
    unfold upd. destruct (Nat.ltb_spec x (length occ)); [|lia]. cbn [oget bind].
    destruct (IH (set_nth x (nth x occ 0 + w)%Q occ)) as (o & E & L & H1).
    { intros l Hl. apply HO. right. auto. } { rewrite set_nth_length. auto. }
    exists o. split; [auto|]. split; [auto|]. intros l. rewrite H1, nth_set by auto. unfold cnt. cbn [count_occ].
    destruct (Nat.eq_dec x l) as [->|Hn].
    + rewrite Nat.eqb_refl, Nat2Z.inj_succ. unfold Z.succ. rewrite inject_Z_plus. change (inject_Z 1) with 1%Q. ring.
    + destruct (Nat.eqb_spec l x); [congruence|]. ring.
Qed.
Lemma occ_clauses_ok n cs : forall occ, over n cs -> length occ = n * 2 ->
  exists o, occ_clauses cs occ = Ok o /\ length o = n * 2 /\ forall l, (nth l o 0 == weight cs l + nth l occ 0)%Q.
Proof.
  induction cs as [|c r IH]; intros occ HO HL; cbn [occ_clauses].
  - exists occ. split; [auto|]. split; [auto|]. intros l. cbn. ring.
  - destruct (occ_lits_ok n (share c) c occ) as (o & E & L & H1); auto.
    { intros l Hl. apply (HO c); auto. left. auto. }
    rewrite E. cbn [bind]. destruct (IH o) as (o2 & E2 & L2 & H2); auto. { intros d l Hd. apply HO. right. auto. }
    exists o2. split; [auto|]. split; [auto|]. intros l. rewrite H2, H1.
    change (weight (c :: r) l) with (cnt c l / inject_Z (Z.of_nat (length c)) + weight r l)%Q.
    unfold share, Qdiv. ring.
Qed.

(** ** The maximum *)
Lemma max_element_ok r : forall x, In (max_element x r) (x :: r) /\ forall y, In y (x :: r) -> (y <= max_element x r)%Q.
Proof.
  unfold max_element. induction r as [|a r IH]; intros x; cbn [fold_left].
  - split; [left; auto|]. intros y [<-|[]]. apply Qle_refl.
  - destruct (q_gt a x) eqn:E.
    + destruct (IH a) as [I1 I2]. split; [right; auto|]. intros y [<-|[<-|Hy]].
      * apply q_gt_true in E. apply (Qle_trans _ a); [apply Qlt_le_weak; auto|]. apply I2. left. auto.
      * apply I2. left. auto.
      * apply I2. right. auto.
    + destruct (IH x) as [I1 I2]. split. { destruct I1 as [<-|I1]; [left; auto|right; right; auto]. }
      intros y [<-|[<-|Hy]].
      * apply I2. left. auto.
      * apply q_gt_false in E. apply (Qle_trans _ x); auto. apply I2. left. auto.
      * apply I2. right. auto.
Qed.

Lemma inj_nonneg n : (0 <= inject_Z (Z.of_nat n))%Q.
Proof. unfold Qle. cbn. lia. Qed.
Lemma term_nonneg c l : (0 <= inject_Z (Z.of_nat (count_occ Nat.eq_dec c l)) / inject_Z (Z.of_nat (length c)))%Q.
Proof. apply Qmult_le_0_compat; [apply inj_nonneg|]. apply Qinv_le_0_compat, inj_nonneg. Qed.
Lemma weight_nonneg cs l : (0 <= weight cs l)%Q.
Proof.
  induction cs as [|c r IH]; cbn [weight fold_right]; [apply Qle_refl|]. fold (weight r l).
  rewrite <- (Qplus_0_r 0). apply Qplus_le_compat; auto. apply term_nonneg.
Qed.
Lemma weight_pos cs c l : In c cs -> In l c -> (0 < weight cs l)%Q.
Proof.
  intros Hc Hl. induction cs as [|d r IH]; [destruct Hc|]. cbn [weight fold_right]. fold (weight r l).
  destruct Hc as [->|Hc].
  - apply (Qlt_le_trans _ (inject_Z (Z.of_nat (count_occ Nat.eq_dec c l)) / inject_Z (Z.of_nat (length c)) + 0)).
    + rewrite Qplus_0_r. unfold Qdiv. rewrite <- (Qmult_0_l 0). apply Qmult_lt_compat_nonneg.
      * split; [discriminate|]. apply (count_occ_In Nat.eq_dec) in Hl. unfold Qlt. cbn. lia.
      * split; [discriminate|]. apply Qinv_lt_0_compat. destruct c; [destruct Hl|]. unfold Qlt. cbn [length]. cbn. lia.
    + apply Qplus_le_compat; [apply Qle_refl|apply weight_nonneg].
  - apply (Qlt_le_trans _ (0 + weight r l)). { rewrite Qplus_0_l. auto. } apply Qplus_le_compat; [apply term_nonneg|apply Qle_refl].
Qed.
Lemma weight_none cs l : ~ some_literal cs -> (weight cs l == 0)%Q.
Proof.
  intros H. induction cs as [|c r IH]; cbn [weight fold_right]; [reflexivity|]. fold (weight r l).
  rewrite IH. 2:{ intros (d & x & Hd & Hx). apply H. exists d, x. split; auto. right. auto. }
  destruct c as [|x c]; [cbn; reflexivity|]. exfalso. apply H. exists (x :: c), x. split; left; auto.
Qed.

Lemma greatest_exists n cs : 0 < n -> exists m, greatest n cs m.
Proof.
  intros Hn. induction n as [|n IH]; [lia|]. 
  assert (HM : exists m, (weight cs (mkLit n false) == m \/ weight cs (mkLit n true) == m)%Q /\ (weight cs (mkLit n false) <= m)%Q /\ (weight cs (mkLit n true) <= m)%Q).
  { destruct (Qlt_le_dec (weight cs (mkLit n false)) (weight cs (mkLit n true))) as [H|H].
    - exists (weight cs (mkLit n true)). split; [right; reflexivity|]. split; [apply Qlt_le_weak; auto|apply Qle_refl].
    - exists (weight cs (mkLit n false)). split; [left; reflexivity|]. split; [apply Qle_refl|auto]. }
  destruct HM as (m & HM & Hp & Hq).
  assert (HN : forall l, lvar l = n -> (weight cs l <= m)%Q).
  { intros l <-. rewrite (lit_eta l) in *. rewrite lvar_mk in *. destruct (lsign l); auto. }
  assert (HE : exists l, lvar l = n /\ (weight cs l == m)%Q).
  { destruct HM as [HM|HM]; [exists (mkLit n false)|exists (mkLit n true)]; rewrite lvar_mk; auto. }
  destruct n as [|n].
  - exists m. split. { destruct HE as (l & E & W). exists l. split; auto. lia. } intros l Hl. apply HN. lia.
  - destruct (IH ltac:(lia)) as (k & (lk & Lk & Wk) & Hk). destruct (Qlt_le_dec k m) as [H|H].
    + exists m. split. { destruct HE as (l & E & W). exists l. split; auto. lia. }
      intros l Hl. destruct (Nat.eq_dec (lvar l) (S n)) as [E|E]; [apply HN; auto|]. apply (Qle_trans _ k); [apply Hk; lia|apply Qlt_le_weak; auto].
    + exists k. split. { exists lk. split; auto. }
      intros l Hl. destruct (Nat.eq_dec (lvar l) (S n)) as [E|E]; [|apply Hk; lia]. apply (Qle_trans _ m); auto.
Qed.

(** ** The vector *)
Lemma relative_ok n cs : over n cs -> 0 < n -> exists o m, length o = n * 2 /\ (forall l, (nth l o 0 == weight cs l)%Q) /\
  greatest n cs m /\ relative_occurrences n cs = Ok (map (fun x => num_div x m) o).
Proof.
  intros HO Hn. unfold relative_occurrences. destruct (repeat 0%Q (n * 2)) as [|z r] eqn:ER.
  { exfalso. assert (length (repeat 0%Q (n * 2)) = 0) by (rewrite ER; auto). rewrite repeat_length in H. lia. }
  destruct (occ_clauses_ok n cs (z :: r)) as (o & E & L & HW); auto.
  { rewrite <- ER. apply repeat_length. }
  assert (HW' : forall l, (nth l o 0 == weight cs l)%Q).
  { intros l. rewrite HW, <- ER. rewrite nth_repeat. ring. }
  rewrite E. cbn [bind]. destruct o as [|y q]. { cbn in L. lia. }
  exists (y :: q), (max_element y q). split; [auto|]. split; [auto|]. split; [|auto].
  destruct (max_element_ok q y) as [M1 M2]. split.
  - apply (In_nth _ _ 0%Q) in M1. destruct M1 as (l & Hl & El). exists l. split; [apply lit_lt; lia|].
    rewrite <- El. symmetry. apply HW'.
  - intros l Hl. rewrite <- HW'. apply M2. apply nth_In. rewrite L. apply lit_lt. auto.
Qed.

Lemma greatest_pos n cs m : over n cs -> greatest n cs m -> some_literal cs -> (0 < m)%Q.
Proof. intros HO [_ H] (c & l & Hc & Hl). apply (Qlt_le_trans _ (weight cs l)); [apply (weight_pos cs c); auto|]. apply H. apply (HO c); auto. Qed.
Lemma greatest_zero n cs m : greatest n cs m -> ~ some_literal cs -> (m == 0)%Q.
Proof. intros [(l & Hl & E) _] H. rewrite <- E. apply weight_none. auto. Qed.
Lemma greatest_unique n cs m m' : greatest n cs m -> greatest n cs m' -> (m == m')%Q.
Proof. intros [(l & Hl & E) H] [(l' & Hl' & E') H']. apply Qle_antisym; [rewrite <- E|rewrite <- E']; auto. Qed.

Lemma numbers_map (f : Q -> Q) o : numbers (map (fun x => Some (f x)) o) = Some (map f o).
Proof. induction o as [|x r IH]; cbn; auto. rewrite IH. auto. Qed.

Lemma num_div_pos x m : (0 < m)%Q -> num_div x m = Some (x / m)%Q.
Proof. intros H. unfold num_div. destruct (Qeq_bool m 0) eqn:E; auto. apply Qeq_bool_iff in E. rewrite E in H. discriminate H. Qed.
Lemma num_div_zero x m : (m == 0)%Q -> num_div x m = None.
Proof. intros H. unfold num_div. apply Qeq_bool_iff in H. rewrite H. auto. Qed.

Lemma relative_values n cs m : over n cs -> some_literal cs -> greatest n cs m ->
  exists o, relative_occurrences n cs = Ok (map Some o) /\ length o = 2 * n /\ forall l, lvar l < n -> (nth l o 0 == weight cs l / m)%Q.
Proof.
  intros HO HS HG.
  assert (Hn : 0 < n). { destruct HS as (c & l & Hc & Hl). specialize (HO c l Hc Hl). lia. }
  destruct (relative_ok n cs HO Hn) as (o & k & L & W & G & E). pose proof (greatest_pos n cs k HO G HS) as HP.
  exists (map (fun x => x / k)%Q o). split.
  - rewrite E. f_equal. rewrite map_map. apply map_ext. intros x. apply num_div_pos. auto.
  - split; [rewrite map_length; lia|]. intros l Hl. apply lit_lt in Hl.
    rewrite (nth_indep _ 0%Q (0 / k)%Q) by (rewrite map_length; lia). rewrite (map_nth (fun x => x / k)%Q). rewrite W.
    rewrite (greatest_unique _ _ _ _ G HG). reflexivity.
Qed.
Lemma relative_nan n cs : over n cs -> ~ some_literal cs -> relative_occurrences n cs = Ok (repeat None (2 * n)).
Proof.
  intros HO HS. destruct (Nat.eq_dec n 0) as [->|Hn].
  - reflexivity.
  - destruct (relative_ok n cs HO ltac:(lia)) as (o & k & L & W & G & E). rewrite E. f_equal.
    pose proof (greatest_zero n cs k G HS) as HZ. rewrite Nat.mul_comm, <- L. clear - HZ.
    induction o as [|x r IH]; cbn; auto. rewrite (num_div_zero _ _ HZ), IH. auto.
Qed.
Lemma numbers_some o : numbers (map Some o) = Some o.
Proof. induction o as [|x r IH]; cbn; auto. rewrite IH. auto. Qed.

Lemma var_dec n cs : over n cs -> some_literal cs \/ ~ some_literal cs.
Proof.
  intros _. induction cs as [|[|x c] r IH].
  - right. intros (c & l & [] & _).
  - destruct IH as [(c & l & Hc & Hl)|H].
    + left. exists c, l. split; auto. right. auto.
    + right. intros (c & l & [<-|Hc] & Hl); [destruct Hl|]. apply H. exists c, l. auto.
  - left. exists (x :: c), x. split; left; auto.
Qed.

(** ** The entry of a variable *)
Definition good_entries (cs : list clause) (n : nat) (act : list Q) (pol : list bool) (m : Q) : Prop :=
  forall v, v < n -> (nth v act 0 == var_weight cs v / m)%Q /\
    nth_error pol v = Some (q_gt (weight cs (mkLit v false)) (weight cs (mkLit v true))).

Lemma q_gt_div x y m : (0 < m)%Q -> q_gt (x / m) (y / m) = q_gt x y.
Proof.
  intros Hm. apply eq_true_iff_eq. rewrite !q_gt_true. unfold Qdiv. rewrite Qmult_lt_r; [reflexivity|]. apply Qinv_lt_0_compat. auto.
Qed.
Lemma q_gt_comp x x' y y' : (x == x')%Q -> (y == y')%Q -> q_gt x y = q_gt x' y'.
Proof. intros H1 H2. apply eq_true_iff_eq. rewrite !q_gt_true, H1, H2. reflexivity. Qed.

Lemma entry_ok n cs o m v : (0 < m)%Q -> (forall l, lvar l < n -> (nth l o 0 == weight cs l / m)%Q) -> v < n ->
  (fst (sort_entry o v) == var_weight cs v / m)%Q /\ snd (sort_entry o v) = q_gt (weight cs (mkLit v false)) (weight cs (mkLit v true)).
Proof.
  intros Hm H Hv. unfold sort_entry. cbn [fst snd].
  pose proof (H (mkLit v true)) as H1. pose proof (H (mkLit v false)) as H2. rewrite lvar_mk in H1, H2. specialize (H1 Hv). specialize (H2 Hv).
  split.
  - rewrite H1, H2. unfold var_weight, Qdiv. ring.
  - rewrite (q_gt_comp _ _ _ _ H2 H1). apply q_gt_div. auto.
Qed.

Lemma map_seq_nth {B} (f : nat -> B) n r d v : v < n -> nth v (map f (seq 0 n) ++ r) d = f v.
Proof.
  intros H. rewrite app_nth1 by (rewrite map_length, seq_length; auto).
  rewrite (nth_indep _ d (f 0)) by (rewrite map_length, seq_length; auto). rewrite map_nth, seq_nth by auto. auto.
Qed.
Lemma map_seq_nth_error {B} (f : nat -> B) n r v : v < n -> nth_error (map f (seq 0 n) ++ r) v = Some (f v).
Proof.
  intros H. rewrite nth_error_app1 by (rewrite map_length, seq_length; auto).
  rewrite nth_error_map. rewrite (nth_error_nth' _ 0) by (rewrite seq_length; auto). rewrite seq_nth by auto. auto.
Qed.

Lemma vs_sorted_ok ext okamt d0 ph t b cs m : vs_reach Qarith ext okamt d0 ph t b -> over (nvt t) cs -> some_literal cs -> greatest (nvt t) cs m ->
  exists o b1, vs_sorted_init cs t b = Ok (Some b1) /\ vs_init Qarith (Some o) t b = Ok b1 /\ good_entries cs (nvt t) (vs_act Qarith b1) (vs_pol Qarith b1) m.
Proof.
  intros HR HO HS HG. destruct (relative_values (nvt t) cs m HO HS HG) as (o & E & L & W).
  pose proof (greatest_pos _ _ _ HO HG HS) as HP.
  destruct (vs_reach_inv Qarith _ _ _ _ _ _ HR) as [HB LP].
  destruct (vs_init_spec Qarith ph t (Some (sort_entry o)) b HB LP) as (b1 & E1 & _).
  exists (sort_entry o), b1. unfold vs_sorted_init. rewrite E. cbn [bind]. rewrite numbers_some, E1. cbn [bind].
  split; [auto|]. split; [auto|]. unfold vs_init in E1.
  apply bind_ok in E1. destruct E1 as (h & _ & E1). inversion E1. cbn [vs_act vs_pol].
  intros v Hv. cbn [F Qarith] in *. destruct (entry_ok (nvt t) cs o m v HP W Hv) as [X Y]. split.
  - rewrite (map_seq_nth (fun v => fst (sort_entry o v))) by auto. auto.
  - rewrite (map_seq_nth_error (fun v => snd (sort_entry o v))) by auto. rewrite Y. auto.
Qed.
Lemma lr_sorted_ok ph t b cs m : lr_reach Qarith ph t b -> over (nvt t) cs -> some_literal cs -> greatest (nvt t) cs m ->
  exists o b1, lr_sorted_init cs t b = Ok (Some b1) /\ lr_init Qarith (Some o) t b = Ok b1 /\ good_entries cs (nvt t) (lr_w Qarith b1) (lr_pol Qarith b1) m.
Proof.
  intros HR HO HS HG. destruct (relative_values (nvt t) cs m HO HS HG) as (o & E & L & W).
  pose proof (greatest_pos _ _ _ HO HG HS) as HP.
  pose proof (lr_reach_inv Qarith _ _ _ HR) as HI.
  destruct (lr_init_spec Qarith ph t (Some (sort_entry o)) b HI) as (b1 & E1 & _).
  exists (sort_entry o), b1. unfold lr_sorted_init. rewrite E. cbn [bind]. rewrite numbers_some, E1. cbn [bind].
  split; [auto|]. split; [auto|]. unfold lr_init in E1.
  apply bind_ok in E1. destruct E1 as (h & _ & E1). inversion E1. cbn [lr_w lr_pol].
  intros v Hv. cbn [F Qarith] in *. destruct (entry_ok (nvt t) cs o m v HP W Hv) as [X Y]. split.
  - rewrite (map_seq_nth (fun v => fst (sort_entry o v))) by auto. auto.
  - rewrite (map_seq_nth_error (fun v => snd (sort_entry o v))) by auto. rewrite Y. auto.
Qed.

(** ** Without a conflict nothing changes *)
Lemma choice_of cs n m act pol t p : (0 < m)%Q -> nvt t = n -> good_entries cs n act pol m ->
  choosable t (lvar p) -> nth_error pol (lvar p) = Some (lsign p) ->
  (forall v, choosable t v -> q_gt (nth v act 0%Q) (nth (lvar p) act 0%Q) = false) -> sorted_choice cs t p.
Proof.
  intros Hm <- HG HC HP HM. destruct (HG (lvar p) (proj1 HC)) as [W1 W2]. split; [auto|]. split.
  - intros v Hv. specialize (HM v Hv). destruct (HG v (proj1 Hv)) as [V1 _]. rewrite (q_gt_comp _ _ _ _ V1 W1) in HM.
    rewrite q_gt_div in HM by auto. apply q_gt_false. auto.
  - rewrite HP in W2. inversion W2 as [S]. clear - S. pose proof (lit_eta p) as EP. set (v := lvar p) in *. set (s := lsign p) in *. clearbody v s. subst p.
    rewrite lneg_mk. destruct (q_gt (weight cs (mkLit v false)) (weight cs (mkLit v true))) eqn:E; subst s; cbn [negb].
    + apply q_gt_true in E. split; [apply Qlt_le_weak; auto|]. intros H. rewrite H in E. destruct (Qlt_irrefl _ E).
    + apply q_gt_false in E. split; auto.
Qed.

Lemma quiet_vs_same t0 b0 ph t b : quiet_vs t0 b0 ph t b -> vs_act Qarith b = vs_act Qarith b0 /\ vs_pol Qarith b = vs_pol Qarith b0.
Proof.
  induction 1 as [|ph t b o t' H IH HL HE|ph t b ls H IH|ph t b v x H IH|ph t b b' H IH Hn E|ph t b p q b' t' H IH Hp E Hq HD|ph t b b' H IH Hp E]; auto.
  - unfold vs_reset in E. apply bind_ok in E. destruct E as (h & _ & E). inversion E. auto.
  - unfold vs_pick in E. apply bind_ok in E. destruct E as ([x h] & _ & E). destruct x; [|discriminate].
    apply bind_ok in E. destruct E as (s & _ & E). inversion E. auto.
  - unfold vs_pick in E. apply bind_ok in E. destruct E as ([x h] & _ & E). destruct x; [|inversion E; auto].
    apply bind_ok in E. destruct E as (s & _ & E). inversion E.
Qed.
Lemma quiet_vs_reach ext okamt d0 t0 b0 ph t b : vs_reach Qarith ext okamt d0 Full t0 b0 -> quiet_vs t0 b0 ph t b -> vs_reach Qarith ext okamt d0 ph t b.
Proof.
  intros H0. induction 1 as [|ph t b o t' H IH HL HE|ph t b ls H IH|ph t b v x H IH|ph t b b' H IH Hn E|ph t b p q b' t' H IH Hp E Hq HD|ph t b b' H IH Hp E].
  - auto.
  - eapply vr_trail; eauto.
  - eapply vr_assume; eauto.
  - eapply vr_flag; eauto.
  - eapply vr_reset; eauto.
  - eapply vr_pick; eauto.
  - eapply vr_none; eauto.
Qed.

Lemma vs_sorted_choice d0 ph0 t0 b cs b0 ph t b1 p b2 : (0 < d0)%Q ->
  vs_reach Qarith false (okpos Qarith (fun i => 0 <= i)%Q) d0 ph0 t0 b -> over (nvt t0) cs -> vs_sorted_init cs t0 b = Ok (Some b0) ->
  quiet_vs t0 b0 ph t b1 -> ph <> Stale -> nvt t = nvt t0 -> vs_pick Qarith t b1 = Ok (Some p, b2) -> some_literal cs -> sorted_choice cs t p.
Proof.
  intros Hd HR HO HI HQ Hp Hn HP HS.
  assert (Hpos : 0 < nvt t0) by (destruct HS as (c & l & Hc & Hl); specialize (HO c l Hc Hl); lia).
  destruct (greatest_exists (nvt t0) cs Hpos) as (m & HG). pose proof (greatest_pos _ _ _ HO HG HS) as Hm.
  destruct (vs_sorted_ok _ _ _ _ _ _ cs m HR HO HS HG) as (o & bx & E1 & E2 & HE). rewrite HI in E1. inversion E1. subst bx.
  pose proof (quiet_vs_reach _ _ _ _ _ _ _ _ (vr_init Qarith _ _ _ _ _ _ _ _ HR E2) HQ) as HR1.
  destruct (quiet_vs_same _ _ _ _ _ HQ) as [EA EP].
  destruct (vs_pick_good Qarith _ _ _ _ _ _ HR1 Hp) as (r & bz & Ez & G & GP). rewrite HP in Ez. inversion Ez. subst r bz.
  destruct G as (G1 & G2 & G3). apply value_var in G2.
  apply (choice_of cs (nvt t0) m (vs_act Qarith b0) (vs_pol Qarith b0)); auto.
  - split; auto.
  - rewrite <- EP. apply GP. auto.
  - intros v (V1 & V2 & V3). rewrite <- EA.
    exact (vs_pick_max Qarith _ _ d0 ph t b1 p b2 Qarith_ordered Hd HR1 Hp HP v V1 V2 V3).
Qed.

(** ** LRB *)
Lemma quiet_lr_same t0 b0 ph t b : quiet_lr t0 b0 ph t b -> lr_w Qarith b = lr_w Qarith b0 /\ lr_pol Qarith b = lr_pol Qarith b0.
Proof.
  induction 1 as [|ph t b o t' H IH HL HE|ph t b ls H IH|ph t b v x H IH|ph t b b' H IH Hn E|ph t b p b' t' H IH Hp E HD|ph t b b' H IH Hp E]; auto.
  - unfold lr_reset in E. apply bind_ok in E. destruct E as (h & _ & E). inversion E. auto.
  - unfold lr_pick in E. apply bind_ok in E. destruct E as ([x h] & _ & E). destruct x; [|discriminate].
    apply bind_ok in E. destruct E as (s & _ & E). inversion E. auto.
  - unfold lr_pick in E. apply bind_ok in E. destruct E as ([x h] & _ & E). destruct x; [|inversion E; auto].
    apply bind_ok in E. destruct E as (s & _ & E). inversion E.
Qed.
Lemma quiet_lr_reach t0 b0 ph t b : lr_reach Qarith Full t0 b0 -> quiet_lr t0 b0 ph t b -> lr_reach Qarith ph t b.
Proof.
  intros H0. induction 1 as [|ph t b o t' H IH HL HE|ph t b ls H IH|ph t b v x H IH|ph t b b' H IH Hn E|ph t b p b' t' H IH Hp E HD|ph t b b' H IH Hp E].
  - auto.
  - eapply lr_r_trail; eauto.
  - eapply lr_r_assume; eauto.
  - eapply lr_r_flag; eauto.
  - eapply lr_r_reset; eauto.
  - eapply lr_r_pick; eauto.
  - eapply lr_r_none; eauto.
Qed.
Lemma lr_pick_more t b r b' ph : LI Qarith ph t b -> ph <> Stale -> HeapProofs.HO (order Qarith (lr_w Qarith b)) (hp (lr_heap Qarith b)) ->
  lr_pick Qarith t b = Ok (r, b') -> HeapProofs.HO (order Qarith (lr_w Qarith b')) (hp (lr_heap Qarith b')) /\
  forall p, r = Some p -> forall v, choosable t v -> order Qarith (lr_w Qarith b) v (lvar p) = false.
Proof.
  intros (HB & _) Hp HH E. unfold lr_pick in E.
  destruct (pick_BI ph t (lr_heap Qarith b) (length (lr_w Qarith b)) (order Qarith (lr_w Qarith b)) HB Hp) as (x & h' & Ex & R & O).
  pose proof (order_swo Qarith _ _ Qarith_ordered (lr_w Qarith b)) as SW.
  rewrite Ex in E. cbn [bind] in E. destruct x as [x|].
  - destruct R as (R1 & R2 & R3 & R4). apply bind_ok in E. destruct E as (s & _ & E). inversion E; subst. cbn [lr_w lr_heap]. split; [apply O; auto|].
    intros p Ep v Hv. inversion Ep. rewrite lvar_mk. apply R4; auto.
  - inversion E; subst. cbn [lr_w lr_heap]. split; [apply O; auto|]. discriminate.
Qed.
Lemma lr_reset_HO ph t b b' : LI Qarith ph t b -> nvt t <= length (lr_w Qarith b) -> lr_reset Qarith t b = Ok b' ->
  HeapProofs.HO (order Qarith (lr_w Qarith b')) (hp (lr_heap Qarith b')).
Proof.
  intros (HB & _) Hn E. unfold lr_reset in E.
  destruct (BI_reset ph t (lr_heap Qarith b) (length (lr_w Qarith b)) (order Qarith (lr_w Qarith b)) HB Hn) as (h' & Eh & HB' & O').
  rewrite Eh in E. cbn in E. inversion E; subst. cbn. apply O'. apply (order_swo Qarith _ _ Qarith_ordered).
Qed.
Lemma lr_init_HO ph t o b b' : LI Qarith ph t b -> lr_init Qarith (Some o) t b = Ok b' ->
  HeapProofs.HO (order Qarith (lr_w Qarith b')) (hp (lr_heap Qarith b')).
Proof.
  intros HI E. unfold lr_init in E. revert E. set (b2 := mkLRB Qarith _ _ _ _ _ _). intros E.
  unfold lr_reset in E. apply bind_ok in E. destruct E as (h & Eh & E). inversion E; subst b'. cbn [lr_w lr_heap].
  destruct (hbuild (order Qarith (lr_w Qarith b2)) (decision_vars t) (lr_heap Qarith b2)) as [h1|] eqn:EB; [|discriminate].
  cbn in Eh. inversion Eh; subst h1.
  destruct HI as (HB & LP & LA & LQ).
  assert (HX : BI Stale t (lr_heap Qarith b2) (length (lr_w Qarith b2)) /\ nvt t <= length (lr_w Qarith b2)).
  { unfold b2; cbn [lr_heap lr_w]. destruct (Nat.ltb_spec (length (lr_w Qarith b)) (nvt t)) as [Hl|Hl]; cbn [lr_heap lr_w lr_pol lr_ia lr_pa].
    - rewrite app_length, map_length, seq_length, skipn_length, resize_length by lia. replace (nvt t + (nvt t - nvt t)) with (nvt t) by lia. split; [|lia].
      pose proof (BI_grow _ _ _ _ HB) as HG. rewrite Nat.max_r in HG by lia. auto.
    - rewrite app_length, map_length, seq_length, skipn_length. replace (nvt t + (length (lr_w Qarith b) - nvt t)) with (length (lr_w Qarith b)) by lia.
      split; [apply (BI_stale _ _ _ _ HB)|lia]. }
  destruct HX as [HX Hn].
  destruct (BI_reset Stale t _ _ (order Qarith (lr_w Qarith b2)) HX Hn) as (h' & Eh' & _ & O'). rewrite EB in Eh'. inversion Eh'; subst h'.
  apply O'. apply (order_swo Qarith _ _ Qarith_ordered).
Qed.
Lemma quiet_lr_HO t0 b0 ph t b : lr_reach Qarith Full t0 b0 -> HeapProofs.HO (order Qarith (lr_w Qarith b0)) (hp (lr_heap Qarith b0)) ->
  quiet_lr t0 b0 ph t b -> ph <> Stale -> HeapProofs.HO (order Qarith (lr_w Qarith b)) (hp (lr_heap Qarith b)).
Proof.
  intros H0 HO0. induction 1 as [|ph t b o t' H IH HL HE|ph t b ls H IH|ph t b v x H IH|ph t b b' H IH Hn E|ph t b p b' t' H IH Hp E HD|ph t b b' H IH Hp E]; intros HN; auto.
  - apply IH. intros ->. destruct o; cbn in HN; congruence.
  - apply IH. destruct x; congruence.
  - apply (lr_reset_HO ph t b b'); auto. apply lr_reach_inv. apply (quiet_lr_reach t0 b0); auto.
  - apply (lr_pick_more t b (Some p) b' ph); auto. apply lr_reach_inv. apply (quiet_lr_reach t0 b0); auto.
  - apply (lr_pick_more t b None b' ph); auto. apply lr_reach_inv. apply (quiet_lr_reach t0 b0); auto.
Qed.
Lemma lr_sorted_choice ph0 t0 b cs b0 ph t b1 p b2 :
  lr_reach Qarith ph0 t0 b -> over (nvt t0) cs -> lr_sorted_init cs t0 b = Ok (Some b0) ->
  quiet_lr t0 b0 ph t b1 -> ph <> Stale -> nvt t = nvt t0 -> lr_pick Qarith t b1 = Ok (Some p, b2) -> some_literal cs -> sorted_choice cs t p.
Proof.
  intros HR HO HI HQ Hp Hn HP HS.
  assert (Hpos : 0 < nvt t0) by (destruct HS as (c & l & Hc & Hl); specialize (HO c l Hc Hl); lia).
  destruct (greatest_exists (nvt t0) cs Hpos) as (m & HG). pose proof (greatest_pos _ _ _ HO HG HS) as Hm.
  destruct (lr_sorted_ok _ _ _ cs m HR HO HS HG) as (o & bx & E1 & E2 & HE). rewrite HI in E1. inversion E1. subst bx.
  pose proof (lr_r_init Qarith _ _ _ _ _ HR E2) as HR0.
  pose proof (quiet_lr_reach _ _ _ _ _ HR0 HQ) as HR1.
  pose proof (lr_init_HO _ _ _ _ _ (lr_reach_inv _ _ _ _ HR) E2) as HH0.
  pose proof (quiet_lr_HO _ _ _ _ _ HR0 HH0 HQ Hp) as HH.
  destruct (quiet_lr_same _ _ _ _ _ HQ) as [EA EP].
  destruct (lr_pick_good Qarith _ _ _ HR1 Hp) as (r & bz & Ez & G & GP). rewrite HP in Ez. inversion Ez. subst r bz.
  destruct G as (G1 & G2 & G3). apply value_var in G2.
  destruct (lr_pick_more t b1 (Some p) b2 ph (lr_reach_inv _ _ _ _ HR1) Hp HH HP) as [_ HM].
  apply (choice_of cs (nvt t0) m (lr_w Qarith b0) (lr_pol Qarith b0)); auto.
  - split; auto.
  - rewrite <- EP. apply GP. auto.
  - intros v Hv. rewrite <- EA. apply (HM p eq_refl v Hv).
Qed.

(** ** The database after the first problem *)
Lemma create_iterated ls lbd lem d c d' : (forall x, In x (cls d) -> x < length (arena d)) -> createClause ls lbd lem d = Ok (c, d') ->
  iterated d' = iterated d ++ [ls] /\ (forall x, In x (cls d') -> x < length (arena d')).
Proof.
  intros H E. unfold createClause in E. destruct (65536 <=? N.of_nat (length ls))%N; [discriminate|]. injection E as <- <-.
  unfold iterated. cbn [cls arena]. rewrite map_app. cbn [map]. split.
  - f_equal.
    + apply map_ext_in. intros x Hx. unfold clits, cobj_at. cbn [arena]. rewrite app_nth1 by auto. auto.
    + unfold clits, cobj_at. cbn [arena]. rewrite app_nth2, Nat.sub_diag by auto. auto.
  - intros x Hx. rewrite app_length. cbn [length]. apply in_app_or in Hx. destruct Hx as [Hx|[<-|[]]]; [specialize (H x Hx)|]; lia.
Qed.
Lemma create_all_iterated lem cs : forall d d', (forall x, In x (cls d) -> x < length (arena d)) -> create_all cs lem d = Ok d' ->
  iterated d' = iterated d ++ cs /\ nv d' = nv d.
Proof.
  induction cs as [|c r IH]; intros d d' H E; cbn [create_all] in E.
  - injection E as <-. rewrite app_nil_r. auto.
  - apply bind_ok in E. destruct E as ([x d1] & E1 & E2). destruct (create_iterated _ _ _ _ _ _ H E1) as [I1 H1].
    destruct (IH _ _ H1 E2) as [I2 N2]. rewrite I2, I1, <- app_assoc. split; auto. rewrite N2.
    unfold createClause in E1. destruct (65536 <=? N.of_nat (length c))%N; [discriminate|]. injection E1 as _ <-. auto.
Qed.
Lemma first_problem C n cs lem s : solver_init n cs lem (solver_new C) = Ok s -> iterated (sv_d s) = cs /\ nvt (sv_t s) = n.
Proof.
  intros E. unfold solver_init in E. apply bind_ok in E. destruct E as (d1 & E1 & E).
  cbn [solver_new sv_d sv_e sv_t] in E1, E. rewrite init_undo_none in E by reflexivity. cbn [bind] in E. injection E as <-.
  cbn [with_e core sv_d sv_t]. unfold db_init in E1.
  assert (HG : cls (db_grow n db_new) = [] /\ nv (db_grow n db_new) = n).
  { unfold db_grow. cbn [nv db_new]. destruct (Nat.ltb_spec 0 n); cbn [cls nv]; [auto|]. split; [reflexivity|]. cbn. lia. }
  destruct HG as [G1 G2]. destruct (create_all_iterated lem cs _ _ ltac:(rewrite G1; intros x []) E1) as [I N].
  unfold iterated in I at 2. rewrite G1 in I. split; [exact I|]. rewrite N, G2. clear.
  unfold trail_init. cbn. destruct n; auto.
Qed.

Lemma vs_sorted_defined ext okamt d0 ph t b cs : vs_reach Qarith ext okamt d0 ph t b -> over (nvt t) cs -> some_literal cs ->
  exists b0, vs_sorted_init cs t b = Ok (Some b0) /\ vs_reach Qarith ext okamt d0 Full t b0.
Proof.
  intros HR HO HS. assert (Hpos : 0 < nvt t) by (destruct HS as (c & l & Hc & Hl); specialize (HO c l Hc Hl); lia).
  destruct (greatest_exists (nvt t) cs Hpos) as (m & HG).
  destruct (vs_sorted_ok _ _ _ _ _ _ cs m HR HO HS HG) as (o & bx & E1 & E2 & HE). exists bx. split; auto. eapply vr_init; eauto.
Qed.
Lemma lr_sorted_defined ph t b cs : lr_reach Qarith ph t b -> over (nvt t) cs -> some_literal cs ->
  exists b0, lr_sorted_init cs t b = Ok (Some b0) /\ lr_reach Qarith Full t b0.
Proof.
  intros HR HO HS. assert (Hpos : 0 < nvt t) by (destruct HS as (c & l & Hc & Hl); specialize (HO c l Hc Hl); lia).
  destruct (greatest_exists (nvt t) cs Hpos) as (m & HG).
  destruct (lr_sorted_ok _ _ _ cs m HR HO HS HG) as (o & bx & E1 & E2 & HE). exists bx. split; auto. eapply lr_r_init; eauto.
Qed.
