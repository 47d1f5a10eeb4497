(** Proofs about the distances. *)
Require Import List Arith Bool Lia.
Require Import Verif.Base Verif.Outcome Verif.CNFModel Verif.CNFProofs Verif.GraphModel Verif.GraphSpec Verif.GraphBuild Verif.GraphProofs Verif.GraphUse Verif.DistModel Verif.DistSpec.
Import ListNotations.

Definition none {A} (o : option A) : bool := match o with None => true | Some _ => false end.
Lemma upd_same {A} (f : nat -> A) i x : upd f i x i = x.
Proof. unfold upd. rewrite Nat.eqb_refl. auto. Qed.
Lemma upd_other {A} (f : nat -> A) i j x : j <> i -> upd f i x j = f j.
Proof. intros H. unfold upd. destruct (Nat.eqb_spec j i); [contradiction|auto]. Qed.
(** a counter over a list without repetition changes by the changed element only *)
Lemma filter_change (f g : nat -> bool) w : forall l, NoDup l -> (forall x, x <> w -> f x = g x) ->
  (In w l -> length (filter f l) + (if g w then 1 else 0) = length (filter g l) + (if f w then 1 else 0)) /\ (~ In w l -> length (filter f l) = length (filter g l)).
Proof.
  induction l as [|x l IH]; intros ND H; [split; [intros []|auto]|]. inversion ND as [|? ? N1 N2]; subst. destruct (IH N2 H) as (I1 & I2). split.
  - intros [->|Hw].
    + specialize (I2 N1). cbn. destruct (f w), (g w); cbn; lia.
    + assert (x <> w) by (intros ->; contradiction). specialize (I1 Hw). cbn. rewrite (H x) by auto. destruct (g x); cbn; lia.
  - intros Hw. assert (x <> w) by (intros ->; apply Hw; left; auto). assert (G : ~ In w l) by (intros G; apply Hw; right; auto). specialize (I2 G). cbn. rewrite (H x) by auto. destruct (g x); cbn; lia.
Qed.

Lemma flen {A} (p : A -> bool) l : length (filter p l) <= length l.
Proof. induction l as [|x l IH]; cbn; auto. destruct (p x); cbn; lia. Qed.

Lemma tally_ok c t : c < length t -> exists t1, tally c t = Ok t1 /\ length t1 = length t /\ forall k, nth k t1 0 = nth k t 0 + (if c =? k then 1 else 0).
Proof.
  intros H. unfold tally. destruct (nth_error t c) as [x|] eqn:E; [|apply nth_error_None in E; lia]. exists (set_nth c (S x) t). split; auto. split; [apply set_nth_length|]. intros k.
  pose proof (set_nth_nth c (S x) t k) as G. apply Nat.ltb_lt in H. rewrite H, andb_true_r in G. destruct (k =? c) eqn:EKC; [apply Nat.eqb_eq in EKC; subst k|apply Nat.eqb_neq in EKC].
  - rewrite (nth_error_nth _ _ 0 G), (nth_error_nth _ _ 0 E), Nat.eqb_refl. lia.
  - rewrite (proj2 (Nat.eqb_neq c k)) by auto. rewrite Nat.add_0_r. destruct (nth_error t k) as [y|] eqn:EK; [rewrite (nth_error_nth _ _ 0 G), (nth_error_nth _ _ 0 EK); auto|]. apply nth_error_None in G. apply nth_error_None in EK. rewrite !nth_overflow; auto.
Qed.

Section Dist.
Variables (n s : nat) (adj : nat -> list nat).
Hypothesis CL : closed n adj.
Hypothesis SN : s < n.
Definition undef (d : nat -> option nat) : nat := length (filter (fun x => none (d x)) (seq 0 n)).
Definition has (k : nat) (o : option nat) : bool := match o with Some j => j =? k | None => false end.
Definition cnt (d : nat -> option nat) (k : nat) : nat := length (filter (fun x => has k (d x)) (seq 0 n)).
Lemma undef_upd d w c : w < n -> d w = None -> undef d = S (undef (upd d w (Some c))).
Proof.
  intros H E. unfold undef. destruct (filter_change (fun x => none (d x)) (fun x => none (upd d w (Some c) x)) w (seq 0 n)) as (A & _); [apply seq_NoDup|intros x Hx; rewrite upd_other; auto|].
  specialize (A ltac:(apply in_seq; lia)). rewrite upd_same, E in A. cbn [none] in A. lia.
Qed.
Lemma cnt_upd d w c k : w < n -> d w = None -> cnt (upd d w (Some c)) k = cnt d k + (if c =? k then 1 else 0).
Proof.
  intros H E. unfold cnt. destruct (filter_change (fun x => has k (d x)) (fun x => has k (upd d w (Some c) x)) w (seq 0 n)) as (A & _); [apply seq_NoDup|intros x Hx; rewrite upd_other; auto|].
  specialize (A ltac:(apply in_seq; lia)). rewrite upd_same, E in A. cbn [has] in A. lia.
Qed.
Lemma visit_ok c : forall ns d q, (forall w, In w ns -> w < n) -> exists d1 new, dvisit n c d q ns = Ok (d1, q ++ new) /\
  (forall x k, d x = Some k -> d1 x = Some k) /\ (forall x, In x new -> d1 x = Some c /\ In x ns) /\
  (forall x, d x = None -> d1 x = None \/ (d1 x = Some c /\ In x new)) /\ (forall w, In w ns -> d1 w <> None) /\ undef d = length new + undef d1.
Proof.
  induction ns as [|w ns IH]; intros d q H.
  - exists d, []. cbn. rewrite app_nil_r. split; auto. split; auto. split; [intros x []|]. split; [auto|]. split; [intros x []|auto].
  - assert (HW : w < n) by (apply H; left; auto). assert (HR : forall x, In x ns -> x < n) by (intros x Hx; apply H; right; auto). cbn [dvisit]. destruct (Nat.leb_spec n w); [lia|]. destruct (d w) as [k|] eqn:E.
    + destruct (IH d q HR) as (d1 & new & E1 & A & B & C & D & F). exists d1, new. split; auto. split; auto. split; [intros x Hx; destruct (B x Hx); split; auto; right; auto|]. split; auto. split; auto.
      intros x [<-|Hx]; [rewrite (A _ _ E); discriminate|auto].
    + destruct (IH (upd d w (Some c)) (q ++ [w]) HR) as (d1 & new & E1 & A & B & C & D & F). assert (W1 : d1 w = Some c) by (apply A, upd_same).
      exists d1, (w :: new). rewrite <- app_assoc in E1. split; [exact E1|]. split; [|split; [|split; [|split]]].
      * intros x k Hx. apply A. rewrite upd_other; auto. intros ->. congruence.
      * intros x [<-|Hx]; [split; auto; left; auto|]. destruct (B x Hx). split; auto. right. auto.
      * intros x Hx. destruct (Nat.eq_dec x w) as [->|N]; [right; split; auto; left; auto|]. destruct (C x) as [G|(G1 & G2)]; [rewrite upd_other; auto|left; auto|right; split; auto; right; auto].
      * intros x [<-|Hx]; [rewrite W1; discriminate|auto].
      * rewrite (undef_upd d w c HW E), F. cbn. lia.
Qed.
Record Inv (d : nat -> option nat) (q : list nat) : Prop := mkInv {
  i_walk : forall x k, d x = Some k -> walk adj s k x /\ x < n /\ k + undef d < n;
  i_queue : exists j q1 q2, q = q1 ++ q2 /\ (forall x, In x q1 -> d x = Some j) /\ (forall x, In x q2 -> d x = Some (S j)) /\ (q <> [] -> forall x k, d x = Some k -> k <= S j);
  i_done : forall x k y, d x = Some k -> ~ In x q -> In y (adj x) -> exists k', d y = Some k' /\ k' <= S k;
  i_start : d s = Some 0 }.
Lemma queue_front d x r : Inv d (x :: r) -> exists j q1 q2, r = q1 ++ q2 /\ d x = Some j /\ (forall y, In y q1 -> d y = Some j) /\ (forall y, In y q2 -> d y = Some (S j)) /\ (forall y k, d y = Some k -> k <= S j).
Proof.
  intros I. destruct (i_queue _ _ I) as (j & q1 & q2 & E & A & B & C). specialize (C ltac:(discriminate)). destruct q1 as [|x0 q1]; cbn in E.
  - exists (S j), r, []. rewrite app_nil_r. split; auto. subst q2. split; [apply B; left; auto|]. split; [intros y Hy; apply B; right; auto|]. split; [intros y []|]. intros y k Hy. specialize (C y k Hy). lia.
  - injection E as <- ->. exists j, q1, q2. split; auto. split; [apply A; left; auto|]. split; [intros y Hy; apply A; right; auto|]. auto.
Qed.
Lemma step_ok d x r : Inv d (x :: r) -> exists d1 q1, dvisit n (next (d x)) d r (adj x) = Ok (d1, q1) /\ Inv d1 q1 /\ length q1 + undef d1 = length r + undef d /\ (forall y k, d y = Some k -> d1 y = Some k).
Proof.
  intros I. destruct (queue_front d x r I) as (j & q1 & q2 & -> & EX & Q1 & Q2 & QM). destruct (i_walk _ _ I x j EX) as (WX & XN & XU). rewrite EX. cbn [next].
  destruct (visit_ok (S j) (adj x) d (q1 ++ q2)) as (d1 & new & E & A & B & C & D & F); [intros w Hw; apply (CL x); auto|].
  assert (IV : forall y k, d1 y = Some k -> d y = Some k \/ (d y = None /\ k = S j /\ In y new)).
  { intros y k Hy. destruct (d y) as [k'|] eqn:Ey; [left; rewrite (A _ _ Ey) in Hy; auto|]. right. destruct (C y Ey) as [G|(G1 & G2)]; [congruence|]. split; auto. split; [congruence|auto]. }
  exists d1, ((q1 ++ q2) ++ new). split; auto. split; [|split; auto; rewrite (app_length (q1 ++ q2)); lia]. constructor.
  - intros y k Hy. destruct (IV y k Hy) as [Hd|(Hd & -> & Hn)]; [destruct (i_walk _ _ I y k Hd) as (G1 & G2 & G3); split; auto; split; auto; lia|].
    destruct (B y Hn) as (_ & Ha). split; [econstructor; eauto|]. split; [apply (CL x); auto|]. assert (length new <> 0) by (destruct new; [destruct Hn|discriminate]). lia.
  - exists j, q1, (q2 ++ new). rewrite app_assoc. split; auto. split; [intros y Hy; apply A; auto|]. split; [intros y Hy; apply in_app_iff in Hy; destruct Hy as [Hy|Hy]; [apply A; auto|apply B; auto]|].
    intros _ y k Hy. destruct (IV y k Hy) as [Hd|(_ & -> & _)]; [apply (QM y); auto|auto].
  - intros y k z Hy Hq Hz. destruct (IV y k Hy) as [Hd|(_ & _ & Hn)]; [|exfalso; apply Hq, in_or_app; right; auto].
    destruct (Nat.eq_dec y x) as [->|N].
    + assert (k = j) as -> by congruence. destruct (d1 z) as [k'|] eqn:Ez; [|exfalso; apply (D z); auto]. exists k'. split; auto. destruct (IV z k' Ez) as [G|(_ & -> & _)]; [apply (QM z); auto|auto].
    + destruct (i_done _ _ I y k z Hd) as (k' & G1 & G2); [intros [G|G]; [congruence|apply Hq, in_or_app; left; auto]|auto|]. exists k'. split; auto.
  - apply A, (i_start _ _ I).
Qed.
Lemma loop_ok : forall fuel d q, Inv d q -> length q + undef d <= fuel -> exists d1, dloop fuel n adj d q = Ok d1 /\ Inv d1 [] /\ (forall y k, d y = Some k -> d1 y = Some k).
Proof.
  induction fuel as [|fuel IH]; intros d q I HF.
  - destruct q; [|cbn in HF; lia]. exists d. cbn. auto.
  - destruct q as [|x r]; [exists d; cbn; auto|]. cbn [dloop length] in *. destruct (step_ok d x r I) as (d1 & q1 & E & I1 & L & X). rewrite E. cbn [bind]. destruct (IH d1 q1 I1 ltac:(lia)) as (d2 & E2 & I2 & X2). exists d2. split; auto.
Qed.
Definition start : nat -> option nat := upd (fun _ => None) s (Some 0).
Lemma undef_start : 1 + undef start <= n.
Proof.
  unfold start. pose proof (undef_upd (fun _ => None) s 0 SN eq_refl) as H. assert (undef (fun _ => None) <= n); [|lia]. unfold undef. etransitivity; [apply flen|rewrite seq_length; auto].
Qed.
Lemma start_inv : Inv start [s].
Proof.
  constructor.
  - intros x k H. unfold start, upd in H. destruct (Nat.eqb_spec x s) as [->|]; [|discriminate]. injection H as <-. split; [constructor|]. split; auto. pose proof undef_start. lia.
  - exists 0, [s], []. split; auto. split; [intros x [<-|[]]; apply upd_same|]. split; [intros x []|]. intros _ x k H. unfold start, upd in H. destruct (x =? s); [injection H as <-; lia|discriminate].
  - intros x k y H N. exfalso. unfold start, upd in H. destruct (Nat.eqb_spec x s) as [->|]; [apply N; left; auto|discriminate].
  - apply upd_same.
Qed.
Lemma inv_distance d v : Inv d [] -> is_distance adj s v (d v).
Proof.
  intros I. assert (M : forall j y, walk adj s j y -> exists k, d y = Some k /\ k <= j).
  { intros j y W. induction W as [|j x y W IH Hy]; [exists 0; split; [apply (i_start _ _ I)|auto]|]. destruct IH as (k & Hk & Hj). destruct (i_done _ _ I x k y Hk ltac:(intros []) Hy) as (k' & G1 & G2). exists k'. split; auto. lia. }
  unfold is_distance. destruct (d v) as [k|] eqn:E.
  - split; [apply (i_walk _ _ I); auto|]. intros j W. destruct (M j v W) as (k' & G1 & G2). congruence || (assert (k = k') by congruence; lia).
  - intros k W. destruct (M k v W) as (k' & G1 & _). congruence.
Qed.
(** ** alldistances *)
Lemma all_ok : exists d, dloop n n adj start [s] = Ok d /\ Inv d [].
Proof. destruct (loop_ok n start [s] start_inv) as (d & E & I & _); [pose proof undef_start; cbn; lia|]. exists d. auto. Qed.
(** ** distance *)
Lemma visit_keeps c : forall ns d q d1 q1 x k, dvisit n c d q ns = Ok (d1, q1) -> d x = Some k -> d1 x = Some k.
Proof.
  induction ns as [|w ns IH]; intros d q d1 q1 x k E H; cbn in E; [injection E as <- <-; auto|]. destruct (n <=? w); [discriminate|]. destruct (d w) eqn:EW; [eapply IH; eauto|]. eapply IH; [exact E|]. rewrite upd_other; auto. intros ->. congruence.
Qed.
Lemma loop_keeps : forall fuel d q d1 x k, dloop fuel n adj d q = Ok d1 -> d x = Some k -> d1 x = Some k.
Proof.
  induction fuel as [|fuel IH]; intros d q d1 x k E H; destruct q as [|y q]; cbn in E; try discriminate; [injection E as <-; auto|injection E as <-; auto|].
  destruct (dvisit n (next (d y)) d q (adj y)) as [(d2 & q2)|] eqn:EV; [|discriminate]. cbn in E. eapply IH; [exact E|]. eapply visit_keeps; eauto.
Qed.
Lemma tvisit_ok v c : forall ns d q d1 q1, dvisit n c d q ns = Ok (d1, q1) ->
  tvisit n v c d q ns = Ok (inr (d1, q1)) \/ exists k, tvisit n v c d q ns = Ok (inl (Some k)) /\ d1 v = Some k.
Proof.
  induction ns as [|w ns IH]; intros d q d1 q1 E; cbn in E |- *; [injection E as <- <-; auto|]. destruct (n <=? w); [discriminate|]. destruct (d w) eqn:EW; [apply IH; auto|].
  destruct (Nat.eqb_spec w v) as [->|N]; [|apply IH; auto]. right. exists c. rewrite upd_same. split; auto. eapply visit_keeps; [exact E|]. apply upd_same.
Qed.
Lemma tloop_ok v : v < n -> forall fuel d q d1, dloop fuel n adj d q = Ok d1 -> tloop fuel n v adj d q = Ok (d1 v).
Proof.
  intros HV. induction fuel as [|fuel IH]; intros d q d1 E; destruct q as [|y q]; cbn in E |- *; try discriminate; try (injection E as <-; destruct (Nat.leb_spec n v); [lia|auto]).
  destruct (dvisit n (next (d y)) d q (adj y)) as [(d2 & q2)|] eqn:EV; [|discriminate]. cbn [bind] in E. destruct (tvisit_ok v _ _ _ _ _ _ EV) as [ET|(k & ET & Ek)]; rewrite ET; cbn [bind].
  - apply IH. auto.
  - f_equal. symmetry. eapply loop_keeps; eauto.
Qed.
(** ** distances *)
Definition totals (t0 t : list nat) (d : nat -> option nat) : Prop := length t = length t0 /\ forall k, k < length t0 -> nth k t 0 = nth k t0 0 + cnt d k.
Lemma svisit_ok t0 j : n <= length t0 -> forall ns d t q d1 q1, dvisit n (S j) d q ns = Ok (d1, q1) -> j + undef d < n -> totals t0 t d ->
  exists t1, svisit n (S j) d t q ns = Ok (d1, t1, q1) /\ totals t0 t1 d1.
Proof.
  intros HT. induction ns as [|w ns IH]; intros d t q d1 q1 E HU HC; cbn in E |- *; [injection E as <- <-; exists t; auto|]. destruct (Nat.leb_spec n w) as [|HW]; [discriminate|]. destruct (d w) eqn:EW; [apply (IH d t q); auto|].
  pose proof (undef_upd d w (S j) HW EW) as U. destruct HC as (C1 & C2). destruct (tally_ok (S j) t) as (t1 & ET & L1 & V1); [lia|]. rewrite ET. cbn [bind]. apply (IH _ t1 (q ++ [w])); auto; [lia|].
  split; [lia|]. intros k Hk. rewrite V1, (C2 k Hk), (cnt_upd d w (S j) k HW EW). lia.
Qed.
Lemma sloop_ok t0 : n <= length t0 -> forall fuel d t q d1, Inv d q -> dloop fuel n adj d q = Ok d1 -> totals t0 t d -> exists t1, sloop fuel n adj d t q = Ok (d1, t1) /\ totals t0 t1 d1.
Proof.
  intros HT. induction fuel as [|fuel IH]; intros d t q d1 I E HC; destruct q as [|y q]; cbn in E |- *; try discriminate; try (injection E as <-; exists t; auto; fail).
  destruct (step_ok d y q I) as (d2 & q2 & EV & I2 & _). rewrite EV in E. cbn [bind] in E. destruct (queue_front d y q I) as (j & _ & _ & _ & EY & _). destruct (i_walk _ _ I y j EY) as (_ & _ & U). rewrite EY in *. cbn [next] in *.
  destruct (svisit_ok t0 j HT _ _ t _ _ _ EV U HC) as (t1 & ES & HC1). rewrite ES. cbn [bind]. apply (IH d2 t1 q2); auto.
Qed.
Lemma start_totals t0 t : tally 0 t0 = Ok t -> n <= length t0 -> totals t0 t start.
Proof.
  intros E H. destruct (tally_ok 0 t0) as (t1 & E1 & L & V); [lia|]. rewrite E in E1. injection E1 as <-. split; auto. intros k Hk. rewrite V. unfold start. rewrite (cnt_upd (fun _ => None) s 0 k SN eq_refl).
  assert (Z : cnt (fun _ => None) k = 0) by (unfold cnt; cbn [has]; clear; induction (seq 0 n); auto). rewrite Z. lia.
Qed.
End Dist.

Lemma range_all n u : u < n -> (n <=? u) = false.
Proof. intros H. apply Nat.leb_gt. auto. Qed.
Lemma occurrences_cnt n d k : occurrences k (map d (seq 0 n)) = cnt n d k.
Proof. unfold occurrences, cnt. induction (seq 0 n) as [|x l IH]; cbn; auto. unfold has at 1. destruct (match d x with Some j => j =? k | None => false end); cbn; lia. Qed.
Lemma nth_dist n (d : nat -> option nat) v : v < n -> nth v (map d (seq 0 n)) None = d v.
Proof. intros H. rewrite (nth_indep _ None (d 0)) by (rewrite map_length, seq_length; auto). rewrite map_nth, seq_nth; auto. Qed.
Lemma alldistances_ok n adj u : closed n adj -> u < n -> exists ds, alldistances n adj u = Ok ds /\ length ds = n /\ forall v, v < n -> is_distance adj u v (nth v ds None).
Proof.
  intros CL H. destruct (all_ok n u adj CL H) as (d & E & I). exists (map d (seq 0 n)). unfold alldistances. rewrite range_all by auto. unfold start in E. rewrite E. split; auto. split; [rewrite map_length, seq_length; auto|].
  intros v Hv. rewrite nth_dist by auto. eapply inv_distance; eauto.
Qed.
Lemma distance_ok n adj u v : closed n adj -> u < n -> v < n -> exists r, distance n adj u v = Ok r /\ is_distance adj u v r.
Proof.
  intros CL H HV. destruct (all_ok n u adj CL H) as (d & E & I). exists (d v). unfold distance. rewrite range_all by auto. split; [|eapply inv_distance; eauto]. eapply tloop_ok; eauto.
Qed.
Lemma distances_ok n adj u t : closed n adj -> u < n -> n <= length t -> exists ds t1, distances n adj u t = Ok (ds, t1) /\ alldistances n adj u = Ok ds /\
  length t1 = length t /\ forall k, k < length t -> nth k t1 0 = nth k t 0 + occurrences k ds.
Proof.
  intros CL H HT. destruct (all_ok n u adj CL H) as (d & E & I). destruct (tally_ok 0 t) as (t1 & ET & _); [lia|].
  destruct (sloop_ok n u adj CL H t HT n (start u) t1 [u] d (start_inv n u adj H) E (start_totals n u H t t1 ET HT)) as (t2 & ES & L & V).
  exists (map d (seq 0 n)), t2. unfold distances, alldistances. rewrite range_all by auto. unfold start in *. rewrite ET. cbn [bind]. rewrite ES, E. cbn [bind]. split; auto. split; auto. split; auto.
  intros k Hk. rewrite occurrences_cnt. auto.
Qed.
(** ** Distances of variables *)
Lemma together_linked cls x y : together cls x y -> linked cls y.
Proof. intros H. apply linked_pairs. exists x. apply together_pairs. apply together_sym. auto. Qed.
Lemma walk_chain cls n lab adj i : interaction cls n lab adj -> i < n -> forall k j, walk adj i k j -> j < n /\ chain cls (lab i) k (lab j).
Proof.
  intros IN HI k j W. induction W as [|k x y W (HX & C) Hy]; [split; auto; constructor|]. assert (HY : y < n) by (apply (si_range _ _ (in_simple _ _ _ _ IN) x); auto). split; auto.
  econstructor; [exact C|]. apply (in_adj _ _ _ _ IN); auto.
Qed.
Lemma chain_walk cls n lab adj i : interaction cls n lab adj -> i < n -> forall k y, chain cls (lab i) k y -> exists j, j < n /\ lab j = y /\ walk adj i k j.
Proof.
  intros IN HI k y C. induction C as [|k x y C (j & HJ & EJ & W) HT]; [exists i; split; auto; split; auto; constructor|].
  pose proof (together_linked _ _ _ HT) as HL. apply (in_onto _ _ _ _ IN) in HL. destruct HL as (i' & HI' & EI'). exists i'. split; auto. split; auto. econstructor; [exact W|]. apply (in_adj _ _ _ _ IN); auto. rewrite EJ, EI'. auto.
Qed.
Lemma distance_variables rtl nvars cls x y : usable nvars cls -> linked cls x -> linked cls y ->
  exists g i j r, init_graph rtl false nvars cls = Ok g /\ mapNode g x = (g, i) /\ mapNode g y = (g, j) /\ distance (g_n g) (g_E g) i j = Ok r /\ nearest cls x y r.
Proof.
  intros U LX LY. destruct (graph_spec rtl nvars cls U) as (g & E & IN & HM & _). destruct (HM x LX) as (i & EI & HI & RI). destruct (HM y LY) as (j & EJ & HJ & RJ).
  destruct (distance_ok (g_n g) (g_E g) i j) as (r & ED & HD); auto; [intros a b Ha Hb; apply (si_range _ _ (in_simple _ _ _ _ IN) a); auto|].
  exists g, i, j, r. do 4 (split; auto). assert (BACK : forall k, chain cls x k y -> walk (g_E g) i k j).
  { intros k C. rewrite <- RI in C. destruct (chain_walk _ _ _ _ _ IN HI k y C) as (j' & HJ' & EJ' & W). assert (j' = j) as -> by (apply (in_inj _ _ _ _ IN); auto; congruence). auto. }
  unfold nearest, is_distance in *. destruct r as [k|].
  - destruct HD as (W & M). split; [|intros m C; apply M; auto]. destruct (walk_chain _ _ _ _ _ IN HI _ _ W) as (_ & C). rewrite RI, RJ in C. auto.
  - intros k C. apply (HD k). auto.
Qed.
