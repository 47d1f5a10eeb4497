(** Pre- and inprocessing always end: every change that is counted removes a literal or eliminates a variable. *)
Require Import List Arith Bool NArith ZArith Permutation Lia.
From Coq Require Import ZifyBool ZifyNat ZifyN.
Require Import Verif.Base Verif.CNFModel Verif.CNFProofs Verif.Outcome Verif.TrailModel Verif.TrailSpec Verif.TrailProofs Verif.TrailLemmas Verif.DbModel Verif.PropModel Verif.PropProofs Verif.DbProofs
  Verif.PropSpec Verif.PropLemmas Verif.AnalyzeModel Verif.AnalyzeProofs Verif.AnalyzeLemmas Verif.SimpModel Verif.SubsProofs Verif.SimpProofs Verif.SimpSpec Verif.SimpLemmas
  Verif.VEProofs Verif.AsymmProofs Verif.AsymmLemmas Verif.ReduceModel Verif.SolverModel Verif.SolverBase Verif.SolverUnits Verif.SolverSimp.
Import ListNotations.

Lemma mstep_size n t d d' s : SI n d s -> mstep t d d' -> sub_size d' s = sub_size d s.
Proof.
  intros H HM. apply sub_size_len. intros i c Hi. apply Permutation_length, Permutation_sym, (ms_lits _ _ _ HM).
  exact (cls_lt _ _ _ (s_D _ _ _ H) (proj1 (s_cls _ _ _ H i c Hi))).
Qed.
Lemma cleanup_size d s n : sub_size d (cleanup_if n s) = sub_size d s.
Proof. unfold cleanup_if. destruct (0 <? n); reflexivity. Qed.
Lemma fail_if_size d s b : sub_size (fail_if b d) s = sub_size d s.
Proof. destruct b; reflexivity. Qed.
Lemma fail_if_empt d : empt (fail_if false d) = true.
Proof. reflexivity. Qed.

Lemma elim_var_count lim v pos neg d s e t b k d' s' e' t' : eliminate_var lim v pos neg d s e t = Ok (b, k, d', s', e', t') ->
  (k = 0 /\ d' = d /\ s' = s) \/ (k = 1 /\ b = true).
Proof.
  unfold eliminate_var. destruct (_ && _); [intros E; injection E as <- <- <- <- <- <-; auto|]. destruct (count_res _ _ _ _ _); try (intros E; injection E as <- <- <- <- <- <-; auto).
  intros E. apply bind_ok in E. destruct E as ((d1 & s1) & _ & E). apply bind_ok in E. destruct E as ((d2 & s2) & _ & E). apply bind_ok in E. destruct E as ((d3 & s3) & _ & E).
  injection E as <- <- <- <- <- <-. auto.
Qed.
Lemma elim_vars_count lim vs : forall n d s e t b k d' s' e' t', elim_vars lim vs n d s e t = Ok (b, k, d', s', e', t') -> n <= k /\ (k = n -> d' = d /\ s' = s).
Proof.
  induction vs as [|v r IH]; intros n d s e t b k d' s' e' t' E; cbn [elim_vars] in E; [injection E as <- <- <- <- <- <-; auto|].
  destruct (is_undef (vvalue t v)); [|exact (IH _ _ _ _ _ _ _ _ _ _ _ E)].
  apply bind_ok in E. destruct E as ((((((b1 & k1) & d1) & s1) & e1) & t1) & E1 & E). apply elim_var_count in E1. destruct b1.
  - destruct (IH _ _ _ _ _ _ _ _ _ _ _ E) as (A1 & A2). split; [lia|]. intros Hk. destruct E1 as [(-> & -> & ->)|(-> & _)]; [|lia]. apply A2. lia.
  - injection E as <- <- <- <- <- <-. destruct E1 as [(-> & -> & ->)|(_ & E1)]; [auto|discriminate].
Qed.

Section Term.
Variables (P : assignment -> Prop) (C : cfg) (O : oracle).
Notation SS := (SS P).

Lemma pmu_size d w t s e d' w' t' : SS d w t s e -> pmu d w t = Ok (d', w', t') -> sub_size d' s = sub_size d s /\ (empt d = true -> empt d' = true).
Proof.
  intros [HZ HI HE] E. destruct (pmu_spec P False d w t HZ) as (d1 & w1 & t1 & E1 & [A1 A2 A3 A4 A5 A6 A7 A8]). rewrite E in E1. injection E1 as <- <- <-.
  split; auto. exact (mstep_size _ _ _ _ _ HI A2).
Qed.
(** the only way preprocessing can fail: a resolvent that is too long *)
Definition overlong (er : err) : Prop := er = TooLong /\ c_elim C = true /\ (c_lim C = 0 \/ (65536 <= N.of_nat (c_lim C))%N).
Definition finished {A} (m : out A) : Prop := match m with Ok _ => True | Err er => overlong er end.
Lemma elim_size cand d w t s e : SS d w t s e ->
  match eliminate (c_elim C) (c_lim C) cand d s e t with
  | Err er => overlong er
  | Ok (b, n, d', s', e', t') => length (ev e') = length (ev e) + n /\ (n = 0 -> sub_size d' s' = sub_size d s) /\ (c_elim C = false -> n = 0)
  end.
Proof.
  intros [HZ HI HE]. assert (HS := eliminate_spec (nv d) (c_elim C) (c_lim C) cand d s e t HI (vo_I _ _ _ HE) (z_n _ _ _ _ HZ)).
  destruct (eliminate (c_elim C) (c_lim C) cand d s e t) as [[[[[[b k] d'] s'] e'] t']|er] eqn:Ee.
  - destruct HS as (new & A & _ & _ & Hk & _).
    assert (VI : VEI (nvt t) e) by (rewrite (z_n _ _ _ _ HZ); apply HE). destruct (ve_init_spec t e VI) as (_ & _ & I3 & _).
    split; [rewrite (ep_ev _ _ _ _ _ _ _ _ A), app_length, I3; lia|]. unfold eliminate in Ee. destruct (c_elim C).
    + split; [|discriminate]. intros ->. destruct (elim_vars_count _ _ _ _ _ _ _ _ _ _ _ _ _ Ee) as (_ & A2). destruct (A2 eq_refl) as (-> & ->). auto.
    + injection Ee as <- <- <- <- <- <-. auto.
  - destruct HS as (-> & HL). unfold overlong. split; auto. split; auto. unfold eliminate in Ee. destruct (c_elim C); [auto|discriminate].
Qed.

Definition counted (d : db) (s : sdb) (e : ve) (b : option nat) (d' : db) (s' : sdb) (e' : ve) : Prop := forall num, b = Some num ->
  length (ev e) <= length (ev e') /\ (length (ev e') = length (ev e) -> sub_size d' s' + num <= sub_size d s) /\ (c_elim C = false -> length (ev e') = length (ev e)).
Lemma simp_round_count k d w t s e : SS d w t s e ->
  match simp_round C O k d w t s e with
  | Err er => overlong er
  | Ok (b, d', w', t', s', e') => SS d' w' t' s' e' /\ nv d' = nv d /\ counted d s e b d' s' e'
  end.
Proof.
  intros H0. assert (HSR := simp_round_SS P C O k d w t s e H0). unfold simp_round in *.
  destruct (pmu_SS P C d w t s e H0) as (d1 & w1 & t1 & E1 & H1 & R1). destruct (pmu_size _ _ _ _ _ _ _ _ H0 E1) as (S1 & M0). rewrite E1 in *. cbn [bind] in *.
  destruct (empt d1) eqn:M1; [cbn [safe] in HSR; split; [apply HSR|]; split; [apply HSR|intros num Hn; discriminate]|].
  destruct (subsume_SS P C (o_ptr O k) d1 w1 t1 s e H1) as (b2 & d2 & s2 & n2 & E2 & H2 & R2).
  destruct (subsume_list_full (o_ptr O k) (nv d1) (seq 0 (length (subs s))) d1 s cnt0 (ss_I _ _ _ _ _ _ H1)) as (b' & d2' & s2' & n' & E2' & _ & _ & S2).
  unfold subsume_all in *. rewrite E2 in E2'. injection E2' as <- <- <- <-. rewrite E2 in *. cbn [bind] in *. cbn in S2.
  destruct (pmu_SS P C (fail_if b2 d2) w1 t1 s2 e H2) as (d3 & w3 & t3 & E3 & H3 & R3). destruct (pmu_size _ _ _ _ _ _ _ _ H2 E3) as (S3 & M2). rewrite E3 in *. cbn [bind] in *. rewrite fail_if_size in S3.
  destruct (SS_cleanup P C _ _ _ _ _ (sub_nTouched n2) H3) as (H4 & R4).
  destruct (empt d3) eqn:M3; [cbn [safe] in HSR; split; [apply HSR|]; split; [apply HSR|intros num Hn; discriminate]|].
  assert (b2 = true) by (destruct b2; auto; discriminate (M2 eq_refl)). subst b2. specialize (S2 eq_refl).
  destruct (asymm_SS P C _ _ _ _ _ H4 M3) as (b5 & n5 & d5 & w5 & t5 & s5 & E5 & H5 & R5).
  assert (S5 : b5 = true -> sub_size d5 s5 + n5 <= sub_size d3 (cleanup_if (sub_nTouched n2) s2)).
  { destruct H4 as [Z4 I4 _]. assert (I4' : SI (nvt t3) d3 (cleanup_if (sub_nTouched n2) s2)) by (rewrite (z_n _ _ _ _ Z4); auto).
    destruct (asymm_reduce_full (c_asymm C) d3 w3 t3 _ I4' (z_P _ _ _ _ Z4) (z_lim _ _ _ _ Z4)) as (b' & k' & d5' & w5' & t5' & s5' & E5' & _ & _ & S5).
    rewrite E5 in E5'. injection E5' as <- <- <- <- <- <-. exact S5. }
  rewrite cleanup_size in S5. rewrite E5 in *. cbn [bind] in *.
  destruct (pmu_SS P C _ _ _ _ _ H5) as (d6 & w6 & t6 & E6 & H6 & R6). destruct (pmu_size _ _ _ _ _ _ _ _ H5 E6) as (S6 & M5). rewrite E6 in *. cbn [bind] in *. rewrite fail_if_size in S6.
  destruct (SS_cleanup P C _ _ _ _ _ n5 H6) as (H7 & R7).
  destruct (empt d6) eqn:M6; [cbn [safe] in HSR; split; [apply HSR|]; split; [apply HSR|intros num Hn; discriminate]|].
  assert (b5 = true) by (destruct b5; auto; discriminate (M5 eq_refl)). subst b5. specialize (S5 eq_refl).
  assert (HE := elim_size (o_vars O k) _ _ _ _ _ H7).
  destruct (eliminate (c_elim C) (c_lim C) (o_vars O k) d6 (cleanup_if n5 s5) e t6) as [[[[[[b8 n8] d8] s8] e8] t8]|er]; [|exact HE]. destruct HE as (L1 & L2 & L3).
  cbn [bind safe] in *. split; [apply HSR|]. split; [apply HSR|]. intros num Hn. injection Hn as <-. split; [lia|]. split.
  - intros HL. assert (n8 = 0) by lia. subst n8. specialize (L2 eq_refl). rewrite cleanup_size, fail_if_size, L2, cleanup_size. lia.
  - intros HC. specialize (L3 HC). lia.
Qed.

(** without variable elimination the number of rounds is bounded by the number of literals *)
Lemma simp_loop_total fuel : c_elim C = false -> forall k num max d w t s e, SS d w t s e -> (num = 0 -> 1 <= fuel) -> (1 <= num -> sub_size d s + 2 <= fuel) ->
  exists x, simp_loop C O fuel k num max d w t s e = Ok x.
Proof.
  intros HC. induction fuel as [|f IH]; intros k num max d w t s e H0 F0 F1; cbn [simp_loop]; [destruct num; lia|].
  destruct ((max <? 10 * num) && negb (o_term O k)) eqn:Eg; [|eauto]. apply andb_true_iff in Eg. destruct Eg as (Eg & _). apply Nat.ltb_lt in Eg.
  assert (HR := simp_round_count k d w t s e H0). destruct (simp_round C O k d w t s e) as [[[[[[b d1] w1] t1] s1] e1]|er]; [|destruct HR as (_ & HR & _); congruence].
  destruct HR as (H1 & _ & HN). cbn [bind]. destruct b as [num1|]; [|eauto]. destruct (HN num1 eq_refl) as (N1 & N2 & N3). specialize (N2 (N3 HC)).
  apply IH; auto; lia.
Qed.
Lemma ev_bound d w t s e : SS d w t s e -> length (ev e) <= nv d.
Proof.
  intros [HZ HI HE]. destruct (vo_I _ _ _ HE) as [V1 V2 V3 V4]. transitivity (length (seq 0 (nv d))); [|rewrite seq_length; auto].
  apply NoDup_incl_length; auto. intros v Hv. apply V4 in Hv. apply in_seq. destruct (Nat.lt_ge_cases v (length (ec e))); [lia|]. rewrite nth_overflow in Hv by auto. congruence.
Qed.
Lemma simp_loop_ends m : forall z k num max d w t s e, SS d w t s e -> nv d - length (ev e) <= m -> sub_size d s <= z ->
  exists N, forall fuel, N <= fuel -> finished (simp_loop C O fuel k num max d w t s e).
Proof.
  induction m as [m IHm] using lt_wf_ind. induction z as [z IHz] using lt_wf_ind. intros k num max d w t s e H0 Hm Hz.
  assert (HR := simp_round_count k d w t s e H0). assert (HB := ev_bound d w t s e H0).
  destruct (simp_round C O k d w t s e) as [[[[[[b d1] w1] t1] s1] e1]|er] eqn:E1.
  2: { exists 1. intros [|f] Hf; [lia|]. cbn [simp_loop]. destruct (_ && _); [|exact I]. rewrite E1. exact HR. }
  destruct HR as (H1 & Hn & HN). assert (HB1 := ev_bound d1 w1 t1 s1 e1 H1).
  assert (HX : exists N, forall fuel, N <= fuel -> finished match b with Some num => simp_loop C O fuel (S k) num (Nat.max num max) d1 w1 t1 s1 e1 | None => Ok (S k, d1, w1, t1, e1) end).
  { destruct b as [num1|]; [|exists 0; intros; exact I]. destruct (HN num1 eq_refl) as (N1 & N2 & _). destruct (Nat.eq_dec (length (ev e1)) (length (ev e))) as [El|El].
    - specialize (N2 El). destruct num1 as [|num1].
      + exists 1. intros [|f] Hf; [lia|]. cbn [simp_loop]. rewrite Nat.mul_0_r. cbn [Nat.ltb Nat.leb]. destruct (Nat.max 0 max <? 0) eqn:Ex; [apply Nat.ltb_lt in Ex; lia|exact I].
      + apply (IHz (sub_size d1 s1)) ; auto; [lia|]. rewrite Hn, El. exact Hm.
    - apply (IHm (nv d1 - length (ev e1)) ltac:(lia) (sub_size d1 s1)); auto. }
  destruct HX as (N & HX). exists (S N). intros [|f] Hf; [lia|]. cbn [simp_loop]. destruct (_ && _); [|exact I]. rewrite E1. cbn [bind]. apply HX. lia.
Qed.

(** ** The start of a solve *)
Definition presize (s : solver) : nat := sub_size (sv_d s) (sdb_init (sv_d s)).
Lemma loop_start d w t e : Z P d w t -> VEok P (nv d) e -> empt d = false -> SS d w t (sdb_init d) e.
Proof. intros HZ HV Em. assert (HC := z_C _ _ _ _ HZ). constructor; auto. apply (sdb_init_spec _ _ (ci_D _ _ HC) (ci_L _ _ HC) (ci_N _ _ HC Em)). Qed.
Lemma loop_empty k num max d w t s e f : Z P d w t -> empt d = true -> exists x, simp_loop C O (S f) k num max d w t s e = Ok x.
Proof.
  intros HZ Em. cbn [simp_loop]. destruct (_ && _); [|eauto]. unfold simp_round. destruct (pmu_spec P False d w t HZ) as (d1 & w1 & t1 & E1 & [A1 A2 A3 A4 A5 A6 A7 A8]).
  rewrite E1. cbn [bind]. rewrite (A3 Em). cbn [bind]. eauto.
Qed.
Lemma process_total fuel s : c_elim C = false -> Z P (sv_d s) (sv_w s) (sv_t s) -> VEok P (nv (sv_d s)) (sv_e s) -> presize s + 2 <= fuel ->
  exists s', processClauseDatabase C O fuel s = Ok s'.
Proof.
  intros HC HZ HV Hf. unfold processClauseDatabase.
  assert (HX : exists x, simp_loop C O fuel (sv_clk s) 1 0 (sv_d s) (sv_w s) (sv_t s) (sdb_init (sv_d s)) (sv_e s) = Ok x).
  { destruct (empt (sv_d s)) eqn:Em; [destruct fuel as [|f]; [lia|]; apply loop_empty; auto|].
    apply simp_loop_total; auto; [apply loop_start; auto|lia]. }
  destruct HX as (((((k & d) & w) & t) & e) & ->). cbn [bind]. eauto.
Qed.
Lemma process_ends s : Z P (sv_d s) (sv_w s) (sv_t s) -> VEok P (nv (sv_d s)) (sv_e s) -> exists N, forall fuel, N <= fuel -> finished (processClauseDatabase C O fuel s).
Proof.
  intros HZ HV. unfold processClauseDatabase.
  assert (HX : exists N, forall fuel, N <= fuel -> finished (simp_loop C O fuel (sv_clk s) 1 0 (sv_d s) (sv_w s) (sv_t s) (sdb_init (sv_d s)) (sv_e s))).
  { destruct (empt (sv_d s)) eqn:Em.
    - exists 1. intros [|f] Hf; [lia|]. destruct (loop_empty (sv_clk s) 1 0 (sv_d s) (sv_w s) (sv_t s) (sdb_init (sv_d s)) (sv_e s) f HZ Em) as (x & ->). exact I.
    - apply (simp_loop_ends (nv (sv_d s) - length (ev (sv_e s))) (presize s)); auto. apply loop_start; auto. }
  destruct HX as (N & HX). exists N. intros fuel Hf. specialize (HX fuel Hf). destruct (simp_loop _ _ _ _ _ _ _ _ _ _ _) as [((((k & d) & w) & t) & e)|er]; cbn [bind]; [exact I|exact HX].
Qed.
End Term.
