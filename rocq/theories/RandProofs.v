(** Drawing the simulation inputs: closed forms. *)
Require Import List Arith Bool NArith Lia.
Require Import Verif.Base Verif.Outcome Verif.CNFModel Verif.CNFProofs Verif.TrailProofs Verif.GateModel Verif.SimModel Verif.SimSpec Verif.SimWords Verif.RsilSpec Verif.RsilVan.
Require Import Verif.RandModel Verif.RandSpec.
Import ListNotations.

Ltac rw E := let H := fresh in pose proof E as H; unfold vectors, vec, var in *; rewrite H; clear H.
(** ** the generator *)
Lemma random_random k : forall s i, random (random s k) i = random s (S k + i).
Proof. induction k as [|k IH]; intros s i; [reflexivity|]. change (random s (S k)) with (random (rnd s) k). rewrite IH. reflexivity. Qed.
Lemma random_shift k s i : random (state_after s k) i = random s (k + i).
Proof. destruct k as [|k]; [reflexivity|]. apply random_random. Qed.
Lemma state_add a b s : state_after (state_after s a) b = state_after s (a + b).
Proof. destruct b as [|b]; cbn [state_after]; [rewrite Nat.add_0_r; auto|]. rewrite random_shift, Nat.add_succ_r. reflexivity. Qed.
Lemma state_rnd s k : state_after (rnd s) k = state_after s (S k).
Proof. destruct k; reflexivity. Qed.
Lemma random_lt i s : (random s i < 2 ^ 64)%N.
Proof. revert s. induction i as [|i IH]; intros s; [apply rnd_lt|apply IH]. Qed.
Lemma seq_shift_map {A} (f : nat -> A) k : map f (seq 1 k) = map (fun i => f (S i)) (seq 0 k).
Proof. rewrite <- seq_shift, map_map. reflexivity. Qed.
Lemma draw_words_eq k : forall s, draw_words k s = (map (random s) (seq 0 k), state_after s k).
Proof. induction k as [|k IH]; intros s; [reflexivity|]. cbn [draw_words seq map]. rewrite IH, state_rnd, seq_shift_map. reflexivity. Qed.
Lemma mix_word_eq op k : forall w s, mix_word op k w s = (fold_left op (map (random s) (seq 0 k)) w, state_after s k).
Proof. induction k as [|k IH]; intros w s; [reflexivity|]. cbn [mix_word seq map fold_left]. rewrite IH, state_rnd, seq_shift_map. reflexivity. Qed.
Definition mix_at (op : N -> N -> N) (s : N) (k : nat) (t : nat) (w : N) : N := fold_left op (map (fun j => random s (t * k + j)) (seq 0 k)) w.
Lemma mix_words_eq op k : forall x s, mix_words op k x s = (map (fun i => mix_at op s k i (nth i x 0%N)) (seq 0 (length x)), state_after s (length x * k)).
Proof.
  induction x as [|w x IH]; intros s; [reflexivity|]. cbn [mix_words length seq map]. rewrite mix_word_eq, IH, seq_shift_map, state_add. f_equal. f_equal. apply map_ext. intros i. unfold mix_at. cbn [nth]. f_equal. apply map_ext. intros j. rewrite random_shift. f_equal. lia.
Qed.

(** ** filling *)
Lemma existsb_in v ins : existsb (Nat.eqb v) ins = true <-> In v ins.
Proof. rewrite existsb_exists. split; [intros (u & H & E); apply Nat.eqb_eq in E; subst; auto|intros H; exists v; split; auto; apply Nat.eqb_refl]. Qed.
Lemma existsb_out v ins : ~ In v ins -> existsb (Nat.eqb v) ins = false.
Proof. intros H. destruct (existsb (Nat.eqb v) ins) eqn:E; auto. apply existsb_in in E. contradiction. Qed.
Lemma vset_in vs v x : v < length vs -> vset vs v x = Ok (set_nth v x vs).
Proof. intros H. unfold vset, vectors, vec in *. destruct (Nat.ltb_spec v (length vs)); auto. lia. Qed.
Lemma filled_nil f vs : filled [] f vs vs.
Proof. split; auto. Qed.
Lemma filled_cons v ins f f' x vs vs' : v < length vs -> ~ In v ins -> f' v = x -> (forall u, In u ins -> f' u = f u) -> filled ins f (set_nth v x vs) vs' -> filled (v :: ins) f' vs vs'.
Proof.
  intros Hv Hn E1 E2 (L & F). unfold vectors, vec in *. rewrite set_nth_length in L. split; auto. intros u. rewrite F. cbn [existsb]. destruct (Nat.eqb_spec u v) as [->|NE]; cbn [orb].
  - rewrite (existsb_out v ins Hn). rewrite nth_set_nth_same; auto.
  - destruct (existsb (Nat.eqb u) ins) eqn:EI; [symmetry; apply E2, existsb_in; auto|]. rewrite nth_set_nth_other; auto.
Qed.
Lemma filled_eq ins f vs a b : filled ins f vs a -> filled ins f vs b -> a = b.
Proof. intros (L1 & F1) (L2 & F2). apply (nth_ext _ _ [] []); [unfold vectors, vec in *; congruence|]. intros n _. unfold vectors, vec in *. rewrite F1, F2. auto. Qed.
Lemma filled_ext ins f f' vs a : (forall v, In v ins -> f v = f' v) -> filled ins f vs a -> filled ins f' vs a.
Proof. intros E (L & F). split; auto. intros v. rewrite F. destruct (existsb (Nat.eqb v) ins) eqn:EI; auto. apply E, existsb_in; auto. Qed.
Lemma filled_again ins f f' vs a b : filled ins f vs a -> filled ins f' a b -> filled ins f' vs b.
Proof. intros (L1 & F1) (L2 & F2). split; [unfold vectors, vec in *; congruence|]. intros v. rewrite F2, F1. destruct (existsb (Nat.eqb v) ins); auto. Qed.
Lemma filled_in ins f vs a v : filled ins f vs a -> In v ins -> nth v a [] = f v.
Proof. intros (_ & F) H. rewrite F. apply existsb_in in H. rewrite H. auto. Qed.
Lemma randomize_filled ins f : NoDup ins -> forall vs, (forall v, In v ins -> v < length vs) -> exists vs', randomize ins f vs = Ok vs' /\ filled ins f vs vs'.
Proof.
  induction 1 as [|v ins Hn ND IH]; intros vs HB; cbn [randomize]; [exists vs; split; auto; apply filled_nil|].
  assert (Hv : v < length vs) by (apply HB; left; auto). rewrite (vset_in vs v _ Hv). cbn [bind]. destruct (IH (set_nth v (f v) vs)) as (vs' & E & F); [intros u Hu; unfold vectors, vec in *; rewrite set_nth_length; apply HB; right; auto|].
  exists vs'. split; auto. apply (filled_cons v ins f f (f v)); auto.
Qed.
Lemma place_head v ins : place v (v :: ins) = 0.
Proof. cbn [place]. rewrite Nat.eqb_refl. auto. Qed.
Lemma place_tail v u ins : ~ In v ins -> In u ins -> place u (v :: ins) = S (place u ins).
Proof. intros H1 H2. cbn [place]. destruct (Nat.eqb_spec v u) as [->|]; [contradiction|auto]. Qed.
Lemma place_lt v ins : In v ins -> place v ins < length ins.
Proof. induction ins as [|u ins IH]; intros H; [destruct H|]. cbn [place length]. destruct (Nat.eqb_spec u v); [lia|]. destruct H as [|H]; [contradiction|]. specialize (IH H). lia. Qed.

Lemma draw_all_ok K ins : NoDup ins -> forall s vs, (forall v, In v ins -> v < length vs) ->
  exists vs', draw_all K ins s vs = Ok (vs', state_after s (length ins * K)) /\ filled ins (fun v => map (fun i => random s (place v ins * K + i)) (seq 0 K)) vs vs'.
Proof.
  induction 1 as [|v ins Hn ND IH]; intros s vs HB; cbn [draw_all]; [exists vs; split; auto; apply filled_nil|].
  assert (Hv : v < length vs) by (apply HB; left; auto). rewrite draw_words_eq, (vset_in vs v _ Hv). cbn [bind].
  destruct (IH (state_after s K) (set_nth v (map (random s) (seq 0 K)) vs)) as (vs' & E & F); [intros u Hu; unfold vectors, vec in *; rewrite set_nth_length; apply HB; right; auto|].
  exists vs'. split; [unfold vectors, vec in *; rewrite E, state_add; reflexivity|]. eapply filled_cons; [exact Hv|exact Hn| | |exact F].
  - rewrite place_head. reflexivity.
  - intros u Hu. cbv beta. pose proof (place_tail v u ins Hn Hu) as PT. unfold var in *. rewrite PT. apply map_ext. intros i. rewrite random_shift. f_equal. lia.
Qed.
Lemma mix_all_ok op k K ins : NoDup ins -> forall s vs, (forall v, In v ins -> v < length vs) -> (forall v, In v ins -> length (nth v vs []) = K) ->
  exists vs', mix_all op k ins s vs = Ok (vs', state_after s (length ins * K * k)) /\
    filled ins (fun v => map (fun i => mix_at op s k (place v ins * K + i) (nth i (nth v vs []) 0%N)) (seq 0 K)) vs vs'.
Proof.
  induction 1 as [|v ins Hn ND IH]; intros s vs HB HL; cbn [mix_all]; [exists vs; split; auto; apply filled_nil|].
  assert (Hv : v < length vs) by (apply HB; left; auto). assert (Lv : length (nth v vs []) = K) by (apply HL; left; auto).
  unfold vget. unfold vectors, vec in *. destruct (nth_error vs v) as [x|] eqn:EX; [|apply nth_error_None in EX; lia]. cbn [bind]. apply (nth_error_nth vs v []) in EX. rewrite EX in Lv.
  rewrite mix_words_eq, Lv. pose proof (fun y => vset_in vs v y Hv) as VS. unfold vectors, vec in VS. rewrite VS. cbn [bind].
  set (x' := map _ _). assert (NE : forall u, In u ins -> u <> v) by (intros u Hu ->; contradiction).
  destruct (IH (state_after s (K * k)) (set_nth v x' vs)) as (vs' & E & F).
  { intros u Hu. unfold vectors, vec in *. rewrite set_nth_length. apply HB. right. auto. }
  { intros u Hu. unfold vectors, vec in *. rewrite nth_set_nth_other; auto. apply HL. right. auto. }
  exists vs'. split; [unfold vectors, vec in *; rewrite E, state_add; f_equal; f_equal; f_equal; cbn [length]; lia|]. eapply filled_cons; [exact Hv|exact Hn| | |exact F].
  - rewrite place_head, EX. reflexivity.
  - intros u Hu. cbv beta. pose proof (place_tail v u ins Hn Hu) as PT. unfold var in *. rewrite PT. unfold vectors, vec in *. rewrite (nth_set_nth_other _ v u) by auto. apply map_ext. intros i. unfold mix_at. f_equal. apply map_ext. intros j. rewrite random_shift. f_equal. lia.
Qed.
Lemma nth_map_seq {A} (f : nat -> A) k i d : i < k -> nth i (map f (seq 0 k)) d = f i.
Proof. intros H. rewrite (nth_indep _ d (f 0)) by (rewrite map_length, seq_length; auto). rewrite map_nth, seq_nth; auto. Qed.
Lemma simple_fill op K ins s v : drawn op K ins s 1 v = map (fun i => random s (place v ins * K + i)) (seq 0 K).
Proof. unfold drawn. apply map_ext. intros i. unfold mixed. cbn [Nat.sub seq map fold_left]. reflexivity. Qed.
Lemma current_bias_ok b : (b_max b < 2 ^ 32 - 1)%N -> current_bias b = Ok (((b_min b + b_calls b * b_step b) mod 2 ^ 32) mod (b_max b + 1))%N.
Proof.
  intros H. unfold current_bias. change W32 with (2 ^ 32)%N. rewrite (N.mod_small (b_max b + 1)) by lia. destruct (N.eqb_spec (b_max b + 1) 0); [lia|reflexivity].
Qed.
Definition tone (b : biased) : N -> N -> N := if b_true b then N.lor else N.land.
Definition strength (bias : N) : nat := N.to_nat (N.max 1 bias).
Lemma biased_ok K ins b bias : NoDup ins -> current_bias b = Ok bias -> forall vs, (forall v, In v ins -> v < length vs) ->
  exists vs', biased_randomize K ins b vs = Ok (vs', mkBiased (state_after (b_state b) (length ins * K * strength bias)) (b_min b) (b_max b) (b_step b) (b_true b) ((b_calls b + 1) mod 2 ^ 32)%N) /\
    filled ins (drawn (tone b) K ins (b_state b) (strength bias)) vs vs'.
Proof.
  intros ND EB vs HB. unfold biased_randomize. destruct (draw_all_ok K ins ND (b_state b) vs HB) as (v1 & E1 & F1). rewrite E1. cbn [bind]. rewrite EB. cbn [bind].
  destruct (N.ltb_spec 1 bias) as [HL|HL].
  - destruct (mix_all_ok (tone b) (N.to_nat bias - 1) K ins ND (state_after (b_state b) (length ins * K)) v1) as (v2 & E2 & F2).
    { intros v Hv. destruct F1 as (L & _). unfold vectors, vec in *. rewrite L. auto. }
    { intros v Hv. rw (filled_in _ _ _ _ v F1 Hv). rewrite map_length, seq_length. auto. }
    unfold tone in E2. rewrite E2. cbn [bind]. exists v2. assert (ES : strength bias = N.to_nat bias) by (unfold strength; f_equal; lia). rewrite ES. split.
    + rewrite state_add. f_equal. f_equal. f_equal. f_equal. nia.
    + apply (filled_again _ _ _ _ _ _ F1). refine (filled_ext _ _ _ _ _ _ F2). intros v Hv. unfold drawn. apply map_ext_in. intros i Hi. apply in_seq in Hi. rw (filled_in _ _ _ _ v F1 Hv). rewrite nth_map_seq by lia. unfold mix_at, mixed. f_equal. apply map_ext. intros j. rewrite random_shift. f_equal. lia.
  - cbn [bind]. exists v1. assert (ES : strength bias = 1) by (unfold strength; lia). rewrite ES, Nat.mul_1_r. split; auto.
Qed.
Lemma simple_ok K ins s : NoDup ins -> forall vs, (forall v, In v ins -> v < length vs) ->
  exists vs', randomize_with K ins (Simple s) vs = Ok (vs', Simple (state_after s (length ins * K))) /\ filled ins (fun v => map (fun i => random s (place v ins * K + i)) (seq 0 K)) vs vs'.
Proof. intros ND vs HB. cbn [randomize_with]. destruct (draw_all_ok K ins ND s vs HB) as (v1 & E1 & F1). rewrite E1. cbn [bind]. exists v1. auto. Qed.

(** ** words of 64 bits *)
Lemma lor_lt a b : (a < 2 ^ 64)%N -> (b < 2 ^ 64)%N -> (N.lor a b < 2 ^ 64)%N.
Proof. intros Ha Hb. apply low_lt. intros i Hi. rewrite N.lor_spec, !high_bit; auto. Qed.
Lemma land_lt a b : (a < 2 ^ 64)%N -> (N.land a b < 2 ^ 64)%N.
Proof. intros Ha. apply low_lt. intros i Hi. rewrite N.land_spec, high_bit; auto. Qed.
Lemma tone_lt t a b : (a < 2 ^ 64)%N -> (b < 2 ^ 64)%N -> ((if t : bool then N.lor else N.land) a b < 2 ^ 64)%N.
Proof. destruct t; intros; [apply lor_lt|apply land_lt]; auto. Qed.
Lemma fold_lt t l : forall w, (w < 2 ^ 64)%N -> (forall x, In x l -> (x < 2 ^ 64)%N) -> (fold_left (if t : bool then N.lor else N.land) l w < 2 ^ 64)%N.
Proof. induction l as [|x l IH]; intros w Hw HL; [exact Hw|]. cbn [fold_left]. apply IH; [apply tone_lt; auto; apply HL; left; auto|intros y Hy; apply HL; right; auto]. Qed.
Lemma drawn_wf b K ins s k v : wf_vec K (drawn (tone b) K ins s k v).
Proof.
  split; [unfold drawn; rewrite map_length, seq_length; auto|]. intros w Hw. unfold drawn in Hw. apply in_map_iff in Hw. destruct Hw as (i & <- & _). unfold mixed, tone. apply fold_lt; [apply random_lt|]. intros x Hx. apply in_map_iff in Hx. destruct Hx as (j & <- & _). apply random_lt.
Qed.
Lemma simple_wf K ins s v : wf_vec K (map (fun i => random s (place v ins * K + i)) (seq 0 K)).
Proof. split; [rewrite map_length, seq_length; auto|]. intros w Hw. apply in_map_iff in Hw. destruct Hw as (i & <- & _). apply random_lt. Qed.

(** ** every strategy *)
Lemma randomize_with_ok K ins r : NoDup ins -> usable r -> forall vs, (forall v, In v ins -> v < length vs) ->
  exists vs' r' fill, randomize_with K ins r vs = Ok (vs', r') /\ usable r' /\ filled ins fill vs vs' /\ forall v, wf_vec K (fill v).
Proof.
  intros ND. induction r as [s|b|a IHa b IHb p c]; intros HU vs HB.
  - destruct (simple_ok K ins s ND vs HB) as (v1 & E & F). rewrite E. eexists _, _, _. split; [reflexivity|]. split; [exact I|]. split; [exact F|]. intros v. apply simple_wf.
  - cbn [usable] in HU. pose proof (current_bias_ok b HU) as EB. destruct (biased_ok K ins b _ ND EB vs HB) as (v1 & E & F). cbn [randomize_with]. rewrite E. cbn [bind]. eexists _, _, _. split; [reflexivity|]. split; [exact HU|]. split; [exact F|]. intros v. apply drawn_wf.
  - cbn [usable] in HU. destruct HU as (HP & UA & UB). cbn [randomize_with]. destruct (N.eqb_spec p 0); [contradiction|]. destruct (N.eqb ((c / p) mod 2) 0).
    + destruct (IHa UA vs HB) as (v1 & r1 & f & E & U & F & W). rewrite E. cbn [bind]. eexists _, _, f. split; [reflexivity|]. split; [cbn [usable]; auto|]. auto.
    + destruct (IHb UB vs HB) as (v1 & r1 & f & E & U & F & W). rewrite E. cbn [bind]. eexists _, _, f. split; [reflexivity|]. split; [cbn [usable]; auto|]. auto.
Qed.

(** ** cycles of biases *)
Lemma filled_length ins f vs a : filled ins f vs a -> length a = length vs.
Proof. intros (L & _). exact L. Qed.
Definition bias_of (min max step : N) (c : nat) : nat := strength (documented_bias min max step c).
Lemma cyclic_gen K ins min max step t : NoDup ins -> (max < 2 ^ 32 - 1)%N -> forall n c s vs, (min + N.of_nat (c + n) * step < 2 ^ 32)%N -> (N.of_nat (c + n) < 2 ^ 32)%N -> (forall v, In v ins -> v < length vs) ->
  exists l, calls K ins n (Biased (mkBiased s min max step t (N.of_nat c))) vs =
    Ok (l, Biased (mkBiased (state_after s (length ins * K * list_sum (map (bias_of min max step) (seq c n)))) min max step t (N.of_nat (c + n)))) /\ length l = n /\
    forall i, i < n -> filled ins (drawn (if t then N.lor else N.land) K ins (state_after s (length ins * K * list_sum (map (bias_of min max step) (seq c i)))) (bias_of min max step (c + i)))
      (nth i (vs :: l) []) (nth i l []).
Proof.
  intros ND HM. induction n as [|n IH]; intros c s vs HO HC HB.
  - exists []. cbn [calls seq map list_sum fold_right]. rewrite Nat.mul_0_r, Nat.add_0_r. split; [reflexivity|]. split; auto. intros i Hi. lia.
  - cbn [calls randomize_with]. set (b := mkBiased s min max step t (N.of_nat c)). pose proof (current_bias_ok b HM) as EB. cbn [b b_min b_max b_calls b_step] in EB.
    assert (Hlt : (min + N.of_nat c * step < 2 ^ 32)%N) by nia. rewrite (N.mod_small _ (2 ^ 32)) in EB by exact Hlt.
    destruct (biased_ok K ins b _ ND EB vs HB) as (v1 & E & F). rewrite E. cbn [bind b b_state b_min b_max b_step b_true b_calls].
    assert (EC : ((N.of_nat c + 1) mod 2 ^ 32 = N.of_nat (S c))%N) by (rewrite N.mod_small by lia; lia). rewrite EC.
    destruct (IH (S c) (state_after s (length ins * K * bias_of min max step c)) v1) as (l & EL & LL & FL).
    { replace (S c + n) with (c + S n) by lia. exact HO. } { replace (S c + n) with (c + S n) by lia. exact HC. }
    { intros v Hv. rewrite (filled_length _ _ _ _ F). auto. }
    unfold bias_of in EL at 1. unfold documented_bias in EL at 1. rewrite EL. cbn [bind]. exists (v1 :: l). split; [|split; [cbn [length]; auto|]].
    + rewrite state_add. replace (S c + n) with (c + S n) by lia. f_equal. f_equal. f_equal. f_equal. f_equal. cbn [seq map list_sum fold_right]. change (fold_right Nat.add 0) with list_sum. lia.
    + intros [|i] Hi.
      * cbn [nth seq map list_sum fold_right]. rewrite Nat.mul_0_r, Nat.add_0_r. exact F.
      * specialize (FL i ltac:(lia)). change (nth (S i) (vs :: v1 :: l) []) with (nth i (v1 :: l) []). change (nth (S i) (v1 :: l) []) with (nth i l []). rewrite state_add in FL. replace (c + S i) with (S c + i) by lia. cbn [seq map list_sum fold_right]. change (fold_right Nat.add 0) with list_sum. rewrite Nat.mul_add_distr_l. exact FL.
Qed.
Lemma cyclic_ok K ins min max step t n vs : NoDup ins -> (forall v, In v ins -> v < length vs) -> (max < 2 ^ 32 - 1)%N -> (min + N.of_nat n * step < 2 ^ 32)%N -> (N.of_nat n < 2 ^ 32)%N ->
  exists l r, calls K ins n (cyclic_rz min max step t) vs = Ok (l, r) /\ length l = n /\
    forall i, i < n -> filled ins (drawn (if t then N.lor else N.land) K ins (state_after 65535 (length ins * K * list_sum (map (fun c => N.to_nat (N.max 1 (documented_bias min max step c))) (seq 0 i)))) (N.to_nat (N.max 1 (documented_bias min max step i))))
      (nth i (vs :: l) []) (nth i l []).
Proof. intros ND HB HM HO HC. destruct (cyclic_gen K ins min max step t ND HM n 0 65535%N vs HO HC HB) as (l & E & L & F). exists l. eexists. split; [exact E|]. split; [exact L|exact F]. Qed.

(** ** the alternation that never alternates *)
Lemma alternating_calls K ins p b n : p <> 0%N -> forall a vs, calls K ins n (Alternating a b p 0%N) vs = (' (l, a') <- calls K ins n a vs ;; Ok (l, Alternating a' b p 0%N)).
Proof.
  intros HP. induction n as [|n IH]; intros a vs; [reflexivity|]. cbn [calls randomize_with]. destruct (N.eqb_spec p 0); [contradiction|]. rewrite N.div_0_l by auto. change ((0 mod 2 =? 0)%N) with true. cbv iota.
  destruct (randomize_with K ins a vs) as [(v1, a1)|e]; [|reflexivity]. cbn [bind]. rewrite IH. destruct (calls K ins n a1 v1) as [(l, a2)|e]; reflexivity.
Qed.

(** ** the direction of the bias *)
Lemma fold_lor_keeps l : forall w i, N.testbit w i = true -> N.testbit (fold_left N.lor l w) i = true.
Proof. induction l as [|x l IH]; intros w i H; [exact H|]. cbn [fold_left]. apply IH. rewrite N.lor_spec, H. auto. Qed.
Lemma fold_land_keeps l : forall w i, N.testbit w i = false -> N.testbit (fold_left N.land l w) i = false.
Proof. induction l as [|x l IH]; intros w i H; [exact H|]. cbn [fold_left]. apply IH. rewrite N.land_spec, H. auto. Qed.
Lemma direction K ins b vs v1 b1 v2 r2 : NoDup ins -> (forall v, In v ins -> v < length vs) -> (b_max b < 2 ^ 32 - 1)%N ->
  randomize_with K ins (Biased b) vs = Ok (v1, b1) -> randomize_with K ins (Simple (b_state b)) vs = Ok (v2, r2) ->
  forall v j, In v ins -> j < 64 * K -> sim_assignment v2 j v = negb (b_true b) -> sim_assignment v1 j v = negb (b_true b).
Proof.
  intros ND HB HM E1 E2 v j Hv Hj H. destruct (biased_ok K ins b _ ND (current_bias_ok b HM) vs HB) as (w1 & X1 & F1). destruct (simple_ok K ins (b_state b) ND vs HB) as (w2 & X2 & F2).
  rewrite X2 in E2. injection E2 as <- _. cbn [randomize_with] in E1. rewrite X1 in E1. cbn [bind] in E1. injection E1 as <- _.
  unfold sim_assignment in *. rw (filled_in _ _ _ _ v F1 Hv). pose proof (filled_in _ _ _ _ v F2 Hv) as FI. unfold vectors, vec, var in *. rewrite FI in H.
  assert (Hd : j / 64 < K) by (apply Nat.div_lt_upper_bound; lia). unfold drawn. rewrite nth_map_seq in * by auto. unfold mixed, tone. destruct (b_true b); cbn [negb] in *.
  - apply negb_false_iff in H. apply negb_false_iff. apply fold_lor_keeps. auto.
  - apply negb_true_iff in H. apply negb_true_iff. apply fold_land_keeps. auto.
Qed.
