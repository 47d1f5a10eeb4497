(** Words, vectors and fingerprints. *)
Require Import List Arith Bool NArith Lia ZifyBool ZifyNat ZifyN.
Require Import Verif.Base Verif.Outcome Verif.CNFModel Verif.GateModel Verif.SimModel Verif.SimSpec.
Import ListNotations.

Definition ones : N := (2 ^ 64 - 1)%N.
Lemma ones_bit i : N.testbit ones i = (i <? 64)%N.
Proof. change ones with (N.ones 64). destruct (N.ltb_spec i 64); [apply N.ones_spec_low; auto|apply N.ones_spec_high; auto]. Qed.
Lemma high_bit w i : (w < 2 ^ 64)%N -> (64 <= i)%N -> N.testbit w i = false.
Proof. intros H Hi. destruct (N.eq_dec w 0) as [->|Hn]; [apply N.bits_0|]. apply N.bits_above_log2. assert (N.log2 w < 64)%N by (apply N.log2_lt_pow2; lia). lia. Qed.
Lemma low_lt w : (forall i, (64 <= i)%N -> N.testbit w i = false) -> (w < 2 ^ 64)%N.
Proof. intros H. destruct (N.eq_dec w 0) as [->|Hn]; [reflexivity|]. apply N.log2_lt_pow2; [lia|]. destruct (N.lt_ge_cases (N.log2 w) 64) as [|Hx]; auto. pose proof (H _ Hx) as E. rewrite N.bit_log2 in E; [discriminate|auto]. Qed.
Lemma wnot_ones w : wnot w = N.lxor w ones. Proof. reflexivity. Qed.
Lemma wnot_bit w i : N.testbit (wnot w) i = xorb (N.testbit w i) (i <? 64)%N.
Proof. rewrite wnot_ones, N.lxor_spec, ones_bit. auto. Qed.
Lemma wnot_lt w : (w < 2 ^ 64)%N -> (wnot w < 2 ^ 64)%N.
Proof. intros H. apply low_lt. intros i Hi. rewrite wnot_bit, (high_bit w i H Hi). destruct (N.ltb_spec i 64); auto. lia. Qed.
Lemma wnot_invol w : wnot (wnot w) = w.
Proof. apply N.bits_inj. intros i. rewrite !wnot_bit. destruct (N.testbit w i), (i <? 64)%N; auto. Qed.
Lemma word_ext w w' : (w < 2 ^ 64)%N -> (w' < 2 ^ 64)%N -> (forall k, k < 64 -> N.testbit w (N.of_nat k) = N.testbit w' (N.of_nat k)) -> w = w'.
Proof. intros H H' E. apply N.bits_inj. intros i. destruct (N.lt_ge_cases i 64) as [Hi|Hi]; [|rewrite !high_bit; auto]. specialize (E (N.to_nat i)). rewrite N2Nat.id in E. apply E. lia. Qed.
Lemma vec_ext K x y : wf_vec K x -> wf_vec K y -> (forall j, j < 64 * K -> N.testbit (nth (j / 64) x 0%N) (N.of_nat (j mod 64)) = N.testbit (nth (j / 64) y 0%N) (N.of_nat (j mod 64))) -> x = y.
Proof.
  intros (L1 & B1) (L2 & B2) H. apply (nth_ext x y 0%N 0%N); [congruence|]. intros i Hi. apply word_ext; [apply B1, nth_In; auto|apply B2, nth_In; lia|]. intros k Hk.
  specialize (H (i * 64 + k)). rewrite (Nat.div_add_l i 64 k), (Nat.div_small k 64), Nat.add_0_r in H by lia. rewrite (Nat.add_comm (i * 64)), Nat.mod_add, Nat.mod_small in H by lia. apply H. lia.
Qed.

Section V.
Variables (K size : nat).
Lemma values_wf vs l : wf_vectors K size vs -> lvar l < size -> wf_vec K (values vs l).
Proof.
  intros (HL & HW) Hl. assert (HX : wf_vec K (nth (lvar l) vs [])) by (apply HW, nth_In; lia). unfold values. destruct (lsign l); auto. destruct HX as (L1 & B1). split; [rewrite map_length; auto|].
  intros w Hw. apply in_map_iff in Hw. destruct Hw as (w' & <- & Hw). apply (wnot_lt w'), B1. auto.
Qed.
Lemma val_bit vs l j : wf_vectors K size vs -> lvar l < size -> j < 64 * K ->
  lit_val (sim_assignment vs j) l = N.testbit (nth (j / 64) (values vs l) 0%N) (N.of_nat (j mod 64)).
Proof.
  intros HW Hl Hj. destruct (values_wf vs l HW Hl) as (LV & _). unfold lit_val, sim_assignment, values in *. destruct (lsign l); cbn [xorb].
  - rewrite xorb_true_r, negb_involutive. auto.
  - rewrite map_length in LV. rewrite xorb_false_r. rewrite (nth_indep (map _ _) 0%N (N.lxor 0 (2 ^ 64 - 1))) by (rewrite map_length, LV; apply Nat.div_lt_upper_bound; lia). rewrite (map_nth (fun w => N.lxor w (2 ^ 64 - 1))).
    change (2 ^ 64 - 1)%N with ones. rewrite N.lxor_spec, ones_bit. assert (j mod 64 < 64) by (apply Nat.mod_upper_bound; lia). destruct (N.ltb_spec (N.of_nat (j mod 64)) 64); [rewrite xorb_true_r; auto|lia].
Qed.
Lemma alike_values h l m : (forall vs, In vs h -> wf_vectors K size vs) -> lvar l < size -> lvar m < size ->
  (alike K h l m <-> forall vs, In vs h -> values vs l = values vs m).
Proof.
  intros HW Hl Hm. split.
  - intros HA vs Hvs. apply (vec_ext K); [apply values_wf; auto|apply values_wf; auto|]. intros j Hj. rewrite <- !val_bit by auto. apply HA. exists vs, j. split; auto.
  - intros HE a (vs & j & Hvs & Hj & Ha). assert (EV : forall l, lit_val a l = lit_val (sim_assignment vs j) l) by (intros x; unfold lit_val; rewrite Ha; auto). rewrite !EV, !val_bit by auto. rewrite HE; auto.
Qed.
Lemma always_values h l : (forall vs, In vs h -> wf_vectors K size vs) -> lvar l < size ->
  (always K h l <-> forall vs, In vs h -> forall w, In w (values vs l) -> w = ones).
Proof.
  intros HW Hl. split.
  - intros HA vs Hvs w Hw. destruct (values_wf vs l (HW vs Hvs) Hl) as (LV & BV). apply word_ext; [auto|reflexivity|]. intros k Hk. apply (In_nth _ _ 0%N) in Hw. destruct Hw as (i & Hi & <-).
    assert (E : lit_val (sim_assignment vs (i * 64 + k)) l = true) by (apply HA; exists vs, (i * 64 + k); split; auto; split; [nia|auto]). rewrite val_bit in E by (auto; nia).
    rewrite (Nat.div_add_l i 64 k), (Nat.div_small k 64), Nat.add_0_r in E by lia. rewrite (Nat.add_comm (i * 64)), Nat.mod_add, Nat.mod_small in E by lia. rewrite E, ones_bit. symmetry. apply N.ltb_lt. lia.
  - intros HE a (vs & j & Hvs & Hj & Ha). assert (EV : lit_val a l = lit_val (sim_assignment vs j) l) by (unfold lit_val; rewrite Ha; auto). rewrite EV, val_bit by auto. destruct (values_wf vs l (HW vs Hvs) Hl) as (LV & BV).
    rewrite (HE vs Hvs (nth (j / 64) (values vs l) 0%N)), ones_bit by (apply nth_In; rewrite LV; apply Nat.div_lt_upper_bound; lia). assert (j mod 64 < 64) by (apply Nat.mod_upper_bound; lia). apply N.ltb_lt. lia.
Qed.
Lemma alike_neg h l m : alike K h l m -> alike K h (lneg l) (lneg m).
Proof. intros H a Ha. rewrite !lit_val_neg, (H a Ha). auto. Qed.
Lemma not_alike_self h l : 1 <= K -> h <> [] -> ~ alike K h l (lneg l).
Proof. intros HK Hh HA. destruct h as [|vs h]; [contradiction|]. assert (E := HA (sim_assignment vs 0)). rewrite lit_val_neg in E. destruct (lit_val _ l); discriminate E || (discriminate E; exists vs, 0; split; [left; auto|split; [lia|auto]]). all: exists vs, 0; split; [left; auto|split; [lia|auto]]. Qed.
Lemma alike_app h h' l m : alike K (h ++ h') l m -> alike K h l m.
Proof. intros H a (vs & j & Hv & Hj & Ha). apply H. exists vs, j. split; [apply in_or_app; auto|auto]. Qed.
Lemma always_app h h' l : always K (h ++ h') l -> always K h l.
Proof. intros H a (vs & j & Hv & Hj & Ha). apply H. exists vs, j. split; [apply in_or_app; auto|auto]. Qed.
Lemma always_snoc h vs l : (forall v, In v (h ++ [vs]) -> wf_vectors K size v) -> lvar l < size ->
  (always K (h ++ [vs]) l <-> always K h l /\ forall w, In w (values vs l) -> w = ones).
Proof.
  intros HW Hl. assert (HW' : forall v, In v h -> wf_vectors K size v) by (intros v Hv; apply HW, in_or_app; auto). rewrite (always_values (h ++ [vs])), (always_values h); auto.
  split; [intros H; split; [intros v Hv; apply H, in_or_app; auto|apply H, in_or_app; right; left; auto]|]. intros (H1 & H2) v Hv. apply in_app_iff in Hv. destruct Hv as [Hv|[<-|[]]]; [exact (H1 v Hv)|exact H2].
Qed.
Lemma always_one vs l : wf_vectors K size vs -> lvar l < size -> (always K [vs] l <-> forall w, In w (values vs l) -> w = ones).
Proof. intros HW Hl. rewrite always_values; auto; [|intros v [<-|[]]; auto]. split; [intros H; apply H; left; auto|intros H v [<-|[]]; auto]. Qed.
Lemma fp_snoc h vs l : h <> [] -> fingerprint (h ++ [vs]) l = fold_left absorb (values vs l) (fingerprint h l).
Proof. destruct h as [|v0 h]; [intros []; auto|]. intros _. cbn [app fingerprint]. rewrite flat_map_app. cbn [flat_map]. rewrite app_nil_r, !app_assoc, fold_left_app. reflexivity. Qed.
Lemma alike_fp h l m : (forall vs, In vs h -> wf_vectors K size vs) -> lvar l < size -> lvar m < size -> alike K h l m -> fingerprint h l = fingerprint h m.
Proof.
  intros HW Hl Hm HA. pose proof (proj1 (alike_values h l m HW Hl Hm) HA) as HA0. clear HA. rename HA0 into HA. destruct h as [|v0 h]; auto. cbn [fingerprint]. rewrite (HA v0 (or_introl eq_refl)).
  assert (E : flat_map (fun vs' => values vs' l) h = flat_map (fun vs' => values vs' m) h). { assert (HA' : forall vs, In vs h -> values vs l = values vs m) by (intros vs Hv; apply HA; right; auto). clear - HA'. induction h as [|v h IH]; cbn [flat_map]; auto. rewrite HA', IH; auto; [intros; apply HA'; right; auto|left; auto]. }
  rewrite E. auto.
Qed.
End V.
