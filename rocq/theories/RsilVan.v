Require Import List Arith Bool NArith ZArith Lia.
Require Import Verif.Base Verif.Outcome Verif.CNFModel Verif.TrailModel Verif.SimModel Verif.SimSpec Verif.SimWords Verif.BranchModel Verif.BranchSpec Verif.RsilModel Verif.RsilSpec.
Import ListNotations.

(** ** The generator *)
Lemma lxor_lt a b : (a < 2 ^ 64)%N -> (b < 2 ^ 64)%N -> (N.lxor a b < 2 ^ 64)%N.
Proof. intros Ha Hb. apply low_lt. intros i Hi. rewrite N.lxor_spec, !high_bit; auto. Qed.
Lemma odd_mult_0 x m : (x < 2 ^ 64)%N -> N.gcd (2 ^ 64) m = 1%N -> ((m * x) mod 2 ^ 64 = 0)%N -> x = 0%N.
Proof.
  intros Hx Hg E. apply N.mod_divide in E; [|lia]. apply N.gauss in E; auto. destruct E as (k & ->).
  destruct (N.eq_dec k 0) as [->|]; [reflexivity|]. exfalso. assert (1 <= k)%N by lia. nia.
Qed.
Lemma shr_fix k s : (0 < k)%N -> s = N.shiftr s k -> s = 0%N.
Proof.
  intros Hk E. destruct (N.eq_dec s 0); auto. exfalso. rewrite N.shiftr_div_pow2 in E.
  assert (2 <= 2 ^ k)%N by (change 2%N with (2 ^ 1)%N at 1; apply N.pow_le_mono_r; lia).
  assert (s / 2 ^ k < s)%N by (apply N.div_lt; lia). lia.
Qed.
Lemma shl_fix s : (s < 2 ^ 64)%N -> s = wtrunc (N.shiftl s 25) -> s = 0%N.
Proof.
  intros Hs E. unfold wtrunc in E. rewrite N.shiftl_mul_pow2 in E. change W64 with (2 ^ 64)%N in E.
  apply (odd_mult_0 s (2 ^ 25 - 1)); auto. 
  pose proof (N.div_mod (s * 2 ^ 25) (2 ^ 64)) as D. rewrite <- E in D by discriminate.
  apply N.mod_divide; [discriminate|]. exists ((s * 2 ^ 25) / 2 ^ 64)%N.
  rewrite N.mul_sub_distr_r, N.mul_1_l, (N.mul_comm (2 ^ 25) s). rewrite (N.mul_comm (_ / _)). specialize (D ltac:(discriminate)). rewrite D at 1. apply N.add_sub.
Qed.
Lemma rnd_lt s : (rnd s < 2 ^ 64)%N.
Proof. unfold rnd, wtrunc. apply N.mod_lt. discriminate. Qed.
Lemma shiftr_lt s k : (s < 2 ^ 64)%N -> (N.shiftr s k < 2 ^ 64)%N.
Proof. intros H. rewrite N.shiftr_div_pow2. apply N.le_lt_trans with s; auto. apply N.div_le_upper_bound; [apply N.pow_nonzero; discriminate|]. assert (1 <= 2 ^ k)%N by (apply N.neq_0_lt_0 in H as ? || idtac; pose proof (N.pow_nonzero 2 k); lia). nia. Qed.
Lemma rnd_nonzero s : (0 < s < 2 ^ 64)%N -> (0 < rnd s < 2 ^ 64)%N.
Proof.
  intros [H0 H1]. split; [|apply rnd_lt]. apply N.neq_0_lt_0. intros E. unfold rnd in E.
  set (s1 := N.lxor s (N.shiftr s 12)) in E.
  assert (L1 : (s1 < 2 ^ 64)%N) by (apply lxor_lt; [auto|apply shiftr_lt; auto]).
  set (s2 := N.lxor s1 (wtrunc (N.shiftl s1 25))) in E.
  assert (L2 : (s2 < 2 ^ 64)%N) by (apply lxor_lt; [auto|unfold wtrunc; apply N.mod_lt; discriminate]).
  set (s3 := N.lxor s2 (N.shiftr s2 27)) in E.
  assert (L3 : (s3 < 2 ^ 64)%N) by (apply lxor_lt; [auto|apply shiftr_lt; auto]).
  unfold wtrunc in E. rewrite N.mul_comm in E. apply odd_mult_0 in E; auto.
  apply N.lxor_eq in E. apply shr_fix in E; [|lia].
  apply N.lxor_eq in E. apply shl_fix in E; auto.
  apply N.lxor_eq in E. apply shr_fix in E; lia.
Qed.
Lemma random_nonzero i : forall s, (0 < s < 2 ^ 64)%N -> (0 < random s i < 2 ^ 64)%N.
Proof. induction i as [|i IH]; intros s Hs; cbn [random]; [|apply IH]; apply rnd_nonzero; auto. Qed.

(** ** The schedule *)
Lemma mask_step h : (h <= 64)%N -> N.lor (wtrunc (N.shiftl (N.ones h) 1)) 1 = N.ones (N.min 64 (h + 1)).
Proof.
  assert (C : forallb (fun k => N.eqb (N.lor (wtrunc (N.shiftl (N.ones (N.of_nat k)) 1)) 1) (N.ones (N.min 64 (N.of_nat k + 1)))) (seq 0 65) = true) by (vm_compute; reflexivity).
  intros Hh. rewrite forallb_forall in C. specialize (C (N.to_nat h)). rewrite N2Nat.id in C. apply N.eqb_eq, C. apply in_seq. lia.
Qed.
Definition hv (c half i : N) : N := if (i <? c)%N then 0%N else (1 + (i - c) / half)%N.
Lemma dec_calls c : (1 <= c < 2 ^ 64)%N -> wtrunc (c + (W64 - 1)) = (c - 1)%N.
Proof.
  intros [H1 H2]. unfold wtrunc. replace (c + (W64 - 1))%N with ((c - 1) + 1 * W64)%N by (unfold W64; lia).
  rewrite N.mod_add by discriminate. apply N.mod_small. unfold W64. change (2 ^ 64)%N with 18446744073709551616%N in H2. lia.
Qed.
Lemma decide_step s c half h : (1 <= c < 2 ^ 64)%N -> (h <= 64)%N ->
  makeRSILDecision (mkVan s c half (N.ones h)) =
  (N.eqb (rnd s mod 2 ^ h) 0, if N.eqb c 1 then mkVan (rnd s) half half (N.ones (N.min 64 (h + 1))) else mkVan (rnd s) (c - 1) half (N.ones h)).
Proof.
  intros Hc Hh. unfold makeRSILDecision. cbn [v_rng v_calls v_half v_mask]. rewrite N.land_ones, dec_calls by auto. f_equal.
  destruct (N.eqb_spec c 1) as [->|Hn]; cbn [N.sub N.eqb].
  - change (1 - 1 =? 0)%N with true. cbv iota. rewrite mask_step by auto. reflexivity.
  - destruct (N.eqb_spec (c - 1) 0); [lia|reflexivity].
Qed.
Lemma schedule_gen k : forall s c half h i, (1 <= c < 2 ^ 64)%N -> (1 <= half < 2 ^ 64)%N -> (h <= 64)%N -> i < k ->
  nth i (decisions k (mkVan s c half (N.ones h))) false = N.eqb (random s i mod 2 ^ N.min 64 (h + hv c half (N.of_nat i))) 0.
Proof.
  induction k as [|k IH]; intros s c half h i Hc Hf Hh Hi; [lia|]. cbn [decisions]. rewrite decide_step by auto. cbn [fst snd].
  destruct i as [|i]; cbn [nth random].
  - unfold hv. cbn [N.of_nat]. destruct (N.ltb_spec 0 c); [|lia]. rewrite N.add_0_r, N.min_r by auto. reflexivity.
  - destruct (N.eqb_spec c 1) as [->|Hn].
    + rewrite IH by (auto; lia). f_equal. f_equal. f_equal. unfold hv. rewrite Nat2N.inj_succ.
      destruct (N.ltb_spec (N.succ (N.of_nat i)) 1); [lia|]. replace (N.succ (N.of_nat i) - 1)%N with (N.of_nat i) by lia.
      assert (E : (if (N.of_nat i <? half)%N then 0 else 1 + (N.of_nat i - half) / half)%N = (N.of_nat i / half)%N).
      { destruct (N.ltb_spec (N.of_nat i) half) as [Hl|Hl]; [rewrite N.div_small by auto; auto|].
        assert (EE : ((N.of_nat i - half + 1 * half) / half = (N.of_nat i - half) / half + 1)%N) by (apply N.div_add; lia).
        replace (N.of_nat i - half + 1 * half)%N with (N.of_nat i) in EE by lia. rewrite EE. apply N.add_comm. }
      rewrite E. generalize (N.of_nat i / half)%N. intros q. lia.
    + rewrite IH by (auto; lia). f_equal. f_equal. f_equal. unfold hv. rewrite Nat2N.inj_succ.
      destruct (N.ltb_spec (N.of_nat i) (c - 1)), (N.ltb_spec (N.succ (N.of_nat i)) c); try lia.
      replace (N.of_nat i - (c - 1))%N with (N.succ (N.of_nat i) - c)%N by lia. reflexivity.
Qed.
Lemma schedule s c half k i : (1 <= c < 2 ^ 64)%N -> (1 <= half < 2 ^ 64)%N -> i < k ->
  nth i (decisions k (mkVan s c half 0)) false = N.eqb (random s i mod 2 ^ halvings c half (N.of_nat i)) 0.
Proof.
  intros Hc Hf Hi. change 0%N with (N.ones 0) at 1. rewrite schedule_gen by (auto; lia). f_equal. f_equal. f_equal.
  unfold hv, halvings. rewrite N.add_0_l. destruct (N.ltb_spec (N.of_nat i) c); [|auto]. apply N.min_r. lia.
Qed.
(** after 64 halvings no number passes any more *)
Lemma vanished s c half k i : (0 < s < 2 ^ 64)%N -> (1 <= c < 2 ^ 64)%N -> (1 <= half < 2 ^ 64)%N -> i < k ->
  (c + 63 * half <= N.of_nat i)%N -> nth i (decisions k (mkVan s c half 0)) false = false.
Proof.
  intros Hs Hc Hf Hi Hl. rewrite schedule by auto.
  assert (E : halvings c half (N.of_nat i) = 64%N).
  { unfold halvings. destruct (N.ltb_spec (N.of_nat i) c); [lia|]. apply N.min_l. 
    assert (63 <= (N.of_nat i - c) / half)%N by (apply N.div_le_lower_bound; lia). lia. }
  rewrite E, N.mod_small by apply random_nonzero, Hs. apply N.eqb_neq. pose proof (random_nonzero i s Hs). lia.
Qed.
