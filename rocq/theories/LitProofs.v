Require Import ZArith Bool List Lia Verif.Base Verif.LitModel.
Local Open Scope Z_scope.

Lemma land1 x : Z.land x 1 = x mod 2.
Proof. change 1 with (Z.ones 1) at 1. rewrite Z.land_ones by lia. reflexivity. Qed.

Lemma LitZ_sign v s : Lit_sign (LitZ v s) = s.
Proof.
  unfold Lit_sign, LitZ. rewrite land1. destruct s.
  - replace (v + v + 1) with (1 + v * 2) by lia. rewrite Z_mod_plus_full. reflexivity.
  - replace (v + v + 0) with (0 + v * 2) by lia. rewrite Z_mod_plus_full. reflexivity.
Qed.

Lemma LitZ_var v s : Lit_var (LitZ v s) = v.
Proof.
  unfold Lit_var, LitZ. rewrite Z.shiftr_div_pow2 by lia. change (2 ^ 1) with 2.
  destruct s.
  - replace (v + v + 1) with (1 + v * 2) by lia. rewrite Z_div_plus_full by lia. reflexivity.
  - replace (v + v + 0) with (0 + v * 2) by lia. rewrite Z_div_plus_full by lia. reflexivity.
Qed.

Lemma LitZ_eta x : x = LitZ (Lit_var x) (Lit_sign x).
Proof.
  unfold LitZ, Lit_var, Lit_sign. rewrite land1, Z.shiftr_div_pow2 by lia. change (2 ^ 1) with 2.
  pose proof (Z_div_mod_eq_full x 2). pose proof (Z.mod_pos_bound x 2 ltac:(lia)).
  destruct (x mod 2 =? 0) eqn:E; simpl; [apply Z.eqb_eq in E | apply Z.eqb_neq in E]; lia.
Qed.

Lemma lxor1 v s : Z.lxor (LitZ v s) 1 = LitZ v (negb s).
Proof.
  unfold LitZ. apply Z.bits_inj'. intros n Hn.
  rewrite Z.lxor_spec.
  destruct (Z.eq_dec n 0) as [->|Hn0].
  - rewrite !Z.bit0_odd. rewrite !Z.odd_add. destruct (Z.odd v), s; reflexivity.
  - assert (Hp: 0 < n) by lia. replace n with (Z.succ (n - 1)) by lia.
    assert (H1 : Z.testbit 1 (Z.succ (n - 1)) = false).
    { change 1 with (2 * 0 + 1) at 1. rewrite Z.testbit_odd_succ by lia. apply Z.bits_0. }
    rewrite H1, xorb_false_r.
    destruct s; simpl negb; cbv iota.
    + replace (v + v + 1) with (2 * v + 1) by lia. replace (v + v + 0) with (2 * v) by lia.
      rewrite Z.testbit_odd_succ, Z.testbit_even_succ by lia. reflexivity.
    + replace (v + v + 1) with (2 * v + 1) by lia. replace (v + v + 0) with (2 * v) by lia.
      rewrite Z.testbit_odd_succ, Z.testbit_even_succ by lia. reflexivity.
Qed.

Lemma Lit_not_mk v s : Lit_not (LitZ v s) = LitZ v (negb s).
Proof. apply lxor1. Qed.

Lemma Lit_not_invol x : Lit_not (Lit_not x) = x.
Proof. unfold Lit_not. rewrite Z.lxor_assoc, Z.lxor_nilpotent, Z.lxor_0_r. reflexivity. Qed.

Lemma lit_encoding v s :
  0 <= v < 2 ^ 30 ->
  int32 (LitZ v s) /\ Lit_var (LitZ v s) = v /\ Lit_sign (LitZ v s) = s /\
  Lit_not (LitZ v s) = LitZ v (negb s) /\ Lit_not (Lit_not (LitZ v s)) = LitZ v s /\
  Lit_xor (LitZ v s) true = LitZ v (negb s) /\ Lit_xor (LitZ v s) false = LitZ v s.
Proof.
  intros H. change (2^30) with 1073741824 in H. repeat split.
  - unfold int32_min, LitZ. destruct s; lia.
  - unfold int32_max, LitZ. destruct s; lia.
  - apply LitZ_var.
  - apply LitZ_sign.
  - apply Lit_not_mk.
  - apply Lit_not_invol.
  - unfold Lit_xor. apply lxor1.
  - unfold Lit_xor. apply Z.lxor_0_r.
Qed.

Lemma lit_order v s v' s' :
  Lit_lt (LitZ v s) (LitZ v' s') = true <->
  (v < v' \/ (v = v' /\ s = false /\ s' = true)).
Proof.
  unfold Lit_lt, LitZ. rewrite Z.ltb_lt. destruct s, s'; split; intros; lia.
Qed.

Lemma lit_equal v s v' s' : Lit_eq (LitZ v s) (LitZ v' s') = true <-> v = v' /\ s = s'.
Proof.
  unfold Lit_eq. rewrite Z.eqb_eq. split.
  - intros H. split.
    + rewrite <- (LitZ_var v s), H. apply LitZ_var.
    + rewrite <- (LitZ_sign v s), H. apply LitZ_sign.
  - intros [-> ->]; reflexivity.
Qed.

Lemma lit_neq v s v' s' : Lit_neq (LitZ v s) (LitZ v' s') = true <-> ~ (v = v' /\ s = s').
Proof.
  unfold Lit_neq. rewrite <- lit_equal. unfold Lit_eq. destruct (_ =? _); simpl; split; congruence.
Qed.

Lemma lit_adjacent x y :
  Lit_lt x y = true -> Lit_var x = Lit_var y ->
  y = Lit_not x /\ forall z, ~ (Lit_lt x z = true /\ Lit_lt z y = true).
Proof.
  intros Hlt Hv. pose proof (LitZ_eta x) as Hx. pose proof (LitZ_eta y) as Hy.
  rewrite Hv in Hx. clear Hv. generalize dependent (Lit_var y). intros v Hx Hy.
  generalize dependent (Lit_sign x). generalize dependent (Lit_sign y). intros sy -> sx ->.
  apply lit_order in Hlt. destruct Hlt as [H|(H & H1 & H2)]; [lia|].
  subst. split; [symmetry; apply Lit_not_mk|].
  intros z [Ha Hb]. unfold Lit_lt, LitZ in *. apply Z.ltb_lt in Ha. apply Z.ltb_lt in Hb. lia.
Qed.

Lemma lit_nat_agree (v : nat) (s : bool) :
  LitZ (Z.of_nat v) s = Z.of_nat (mkLit v s).
Proof. unfold LitZ, mkLit. destruct s; lia. Qed.

Lemma lit_nat_refine (l : nat) :
  Lit_var (Z.of_nat l) = Z.of_nat (lvar l) /\ Lit_sign (Z.of_nat l) = lsign l /\
  Lit_not (Z.of_nat l) = Z.of_nat (lneg l).
Proof.
  rewrite (lit_eta l), <- lit_nat_agree, LitZ_var, LitZ_sign, Lit_not_mk, lvar_mk, lsign_mk, lneg_mk.
  rewrite lit_nat_agree. auto.
Qed.

(** ** lbool *)
Local Open Scope N_scope.
Lemma byte4 n : n < 4 -> n = 0 \/ n = 1 \/ n = 2 \/ n = 3.
Proof. lia. Qed.
