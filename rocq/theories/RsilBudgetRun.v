Require Import List Arith Bool NArith ZArith Lia.
Require Import Verif.Base Verif.Outcome Verif.CNFModel Verif.CNFProofs Verif.TrailModel Verif.TrailSpec Verif.TrailProofs Verif.TrailLemmas.
Require Import Verif.HeapModel Verif.HeapProofs Verif.BranchModel Verif.BranchSpec Verif.BranchProofs Verif.BranchAdvice Verif.SimModel Verif.RsilModel Verif.RsilSpec Verif.RsilVan Verif.RsilPick Verif.RsilBudget.
Import ListNotations.

(** ** The budget left for a variable *)
Fixpoint psum (y : var) (ls : list lit) (b : list Z) : Z :=
  match ls, b with l :: ls, z :: b => ((if (lvar l =? y)%nat then z else 0) + psum y ls b)%Z | _, _ => 0%Z end.
Definition apot (y : var) (a : advice) : Z := psum y (a_lits a) (match a_bud a with Some b => b | None => [] end).
Fixpoint sumz (l : list Z) : Z := match l with [] => 0%Z | x :: r => (x + sumz r)%Z end.
Definition pot (y : var) (m : list advice) : Z := sumz (map (apot y) m).
Definition nneg (k : Z) (m : list advice) : Prop := forall v a, nth_error m v = Some a ->
  exists b, a_bud a = Some b /\ length (a_lits a) <= length b /\ forall i, i < length (a_lits a) -> (k <= nth i b 0)%Z.
Lemma sumz_app l1 l2 : sumz (l1 ++ l2) = (sumz l1 + sumz l2)%Z.
Proof. induction l1; cbn; lia. Qed.
Lemma pot_set y m v a a' : nth_error m v = Some a -> (pot y (set_nth v a' m) = pot y m - apot y a + apot y a')%Z.
Proof.
  intros H. destruct (split_set m v a a' H) as (m1 & m2 & E1 & ->). rewrite E1. unfold pot. rewrite !map_app, !sumz_app. cbn [map sumz]. lia.
Qed.
Lemma psum_set y : forall ls b i z, i < length ls -> i < length b ->
  (psum y ls (set_nth i z b) = psum y ls b + (if (lvar (nth i ls 0%nat) =? y)%nat then z - nth i b 0 else 0))%Z.
Proof.
  induction ls as [|l ls IH]; intros b i z H1 H2; [cbn in H1; lia|]. destruct b as [|x b]; [cbn in H2; lia|]. destruct i as [|i].
  - change (set_nth 0 z (x :: b)) with (z :: b). cbn [psum nth]. destruct (lvar l =? y); lia.
  - change (set_nth (S i) z (x :: b)) with (x :: set_nth i z b). cbn [psum nth]. rewrite IH by (cbn in *; lia). lia.
Qed.
Lemma psum_nonneg y : forall ls b, length ls <= length b -> (forall i, i < length ls -> (0 <= nth i b 0)%Z) -> (0 <= psum y ls b)%Z.
Proof.
  induction ls as [|l ls IH]; intros b HL H; [cbn; lia|]. destruct b as [|x b]; [cbn in HL; lia|]. cbn [psum].
  assert (0 <= x)%Z by (apply (H 0); cbn; lia). assert (0 <= psum y ls b)%Z by (apply IH; [cbn in HL; lia|intros i Hi; apply (H (S i)); cbn; lia]). destruct (lvar l =? y); lia.
Qed.
Lemma pot_nonneg y m : nneg 0 m -> (0 <= pot y m)%Z.
Proof.
  intros H. unfold pot. induction m as [|a m IH]; [cbn; lia|]. cbn [map sumz].
  assert (0 <= sumz (map (apot y) m))%Z by (apply IH; intros v x Hx; apply (H (S v) x Hx)).
  assert (0 <= apot y a)%Z. { destruct (H 0 a eq_refl) as (b & E & HL & HN). unfold apot. rewrite E. apply psum_nonneg; auto. } lia.
Qed.
Lemma psum_set_first y B : forall ls b, length ls <= length b -> psum y ls (set_first (length ls) B b) = (B * Z.of_nat (cnt y ls))%Z.
Proof.
  induction ls as [|l ls IH]; intros b HL; [cbn; lia|]. destruct b as [|x b]; [cbn in HL; lia|]. cbn [length set_first psum]. rewrite IH by (cbn in HL; lia).
  unfold cnt. cbn [filter]. destruct (lvar l =? y); cbn [length]; lia.
Qed.
Lemma pot_init y B maxSize m : roomy maxSize m -> pot y (set_budgets B m) = (to_int B * Z.of_nat (tcnt y m))%Z.
Proof.
  intros HR. unfold pot, set_budgets, tcnt. rewrite map_map. induction m as [|a m IH]; [cbn; lia|]. cbn [map sumz sumn].
  rewrite IH by (intros v x Hx; apply (HR (S v) x Hx)). destruct (HR 0 a eq_refl) as (H1 & b & Eb & HL).
  unfold apot at 1. cbn [a_lits a_bud]. rewrite Eb. cbn [option_map]. rewrite psum_set_first by lia. lia.
Qed.
Lemma set_first_nth B : forall k b i, i < k -> i < length b -> nth i (set_first k B b) 0%Z = B.
Proof. induction k as [|k IH]; intros b i H1 H2; [lia|]. destruct b as [|x b]; [cbn in H2; lia|]. destruct i; cbn [set_first nth]; auto. apply IH; cbn in H2; lia. Qed.
Lemma set_first_length B : forall k b, length (set_first k B b) = length b.
Proof. induction k as [|k IH]; intros [|x b]; cbn [set_first length]; auto. Qed.
Lemma nneg_init B maxSize m : roomy maxSize m -> nneg (to_int B) (set_budgets B m).
Proof.
  intros HR v a Ha. unfold set_budgets in Ha. rewrite nth_error_map in Ha. destruct (nth_error m v) as [x|] eqn:Ex; [|discriminate]. inversion Ha; subst; clear Ha. cbn [a_lits a_bud].
  destruct (HR v x Ex) as (H1 & b & Eb & HL). rewrite Eb. cbn [option_map]. eexists. split; [reflexivity|]. rewrite set_first_length. split; [lia|]. intros i Hi. rewrite set_first_nth by lia. lia.
Qed.

(** ** Using an entry *)
Lemma apot_used y a b i : a_bud a = Some b -> i < length (a_lits a) -> length (a_lits a) <= length b ->
  apot y (used a i) = (apot y a - (if (lvar (nth i (a_lits a) 0%nat) =? y)%nat then 1 else 0))%Z.
Proof.
  intros Eb H1 H2. unfold apot, used. rewrite Eb. cbn [a_lits a_bud]. rewrite psum_set by lia. destruct (lvar _ =? y); lia.
Qed.
Lemma nneg_used k m v a i : nneg (k + 1) m \/ (nneg k m /\ exists b, a_bud a = Some b /\ (k < nth i b 0)%Z) -> nth_error m v = Some a -> i < length (a_lits a) -> nneg k (set_nth v (used a i) m).
Proof.
  intros H Ha Hi w x Hx. rewrite set_nth_nth in Hx.
  assert (HM : nneg k m). { destruct H as [H|[H _]]; auto. intros u z Hz. destruct (H u z Hz) as (b & E & L & N). exists b. split; [auto|]. split; [auto|]. intros j Hj. specialize (N j Hj). lia. }
  destruct ((w =? v) && _); [|apply (HM w x Hx)]. inversion Hx; subst; clear Hx. destruct (HM v a Ha) as (b & E & L & N).
  unfold used. rewrite E. cbn [a_lits a_bud]. eexists. split; [reflexivity|]. rewrite set_nth_length. split; [auto|]. intros j Hj.
  destruct (Nat.eq_dec j i) as [->|Hn].
  - rewrite nth_set_nth_same by lia. destruct H as [H|[_ (b' & E' & HB)]].
    + destruct (H v a Ha) as (b' & E' & _ & N'). rewrite E in E'. inversion E'; subst. specialize (N' i Hi). lia.
    + rewrite E in E'. inversion E'; subst. lia.
  - rewrite nth_set_nth_other by auto. auto.
Qed.
(** ** A pick *)
Lemma loop_used t c a lvl : forall k j q a1, k <= length (a_lits a) -> advice_loop k j lvl t c a = Ok (Some (q, a1)) ->
  exists i, i < length (a_lits a) /\ a1 = used a i /\ lvar q = lvar (nth i (a_lits a) 0) /\ canUse a i = true.
Proof.
  induction k as [|k IH]; intros j q a1 Hk; cbn [advice_loop]; [discriminate|]. destruct (nvt t <=? _); [discriminate|].
  destruct (_ && _ && canUse _ _) eqn:EE; [|apply IH; lia]. intros E. inversion E; subst. exists ((lvl + j) mod length (a_lits a)).
  split; [apply Nat.mod_upper_bound; lia|]. split; auto. split; [|apply andb_true_iff in EE; apply EE]. destruct (lsign c); rewrite ?lvar_neg; auto.
Qed.
Lemma scan_used t : forall cs m x m', advice_scan t cs m = Ok (x, m') ->
  (x = None /\ m' = m) \/ exists q v a i, x = Some q /\ nth_error m v = Some a /\ i < length (a_lits a) /\ m' = set_nth v (used a i) m /\ lvar q = lvar (nth i (a_lits a) 0) /\ canUse a i = true.
Proof.
  induction cs as [|c cs IH]; intros m x m'; cbn [advice_scan].
  - intros E. inversion E; subst. auto.
  - destruct (nth_error m (lvar c)) as [a|] eqn:Ea; [|apply IH]. destruct (a_bb a); [apply IH|].
    intros E. apply bind_ok in E. destruct E as ([[q a1]|] & E1 & E); [|apply (IH _ _ _ E)].
    inversion E; subst. destruct (loop_used _ _ _ _ _ _ _ _ (le_n _) E1) as (i & Hi & -> & HV & HC). right. exists q, (lvar c), a, i. auto 6.
Qed.

Section Numbers.
Variable A : arith.
(** what a pick does to the table: nothing, or one use of a literal of the variable that it returns *)
Lemma pick_used e b g1 g2 t v m ready bb r b' : tab_ok e b m -> rs_pick A g1 g2 t (mkRSIL A v m ready bb) = Ok (r, b') ->
  (r = vsids_pick A (t, v) /\ rs_adv A b' = m) \/
  exists q w a i, r = Some q /\ nth_error m w = Some a /\ i < length (a_lits a) /\ rs_adv A b' = set_nth w (used a i) m /\ lvar q = lvar (nth i (a_lits a) 0) /\ canUse a i = true.
Proof.
  intros HT. unfold rs_pick, vsids_pick. cbn [rs_ready rs_adv rs_vsids rs_bb fst snd]. destruct ready.
  2:{ intros E. apply bind_ok in E. destruct E as ([y w] & E2 & E). inversion E; subst. rewrite E2. auto. }
  intros E. apply bind_ok in E. destruct E as ([x m1] & E1 & E).
  assert (C : (x = None /\ m1 = m) \/ exists q v a i, x = Some q /\ nth_error m v = Some a /\ i < length (a_lits a) /\ m1 = set_nth v (used a i) m /\ lvar q = lvar (nth i (a_lits a) 0) /\ canUse a i = true).
  { destruct g1; [|inversion E1; auto]. unfold getAdvice in E1. destruct (lim t); [inversion E1; auto|]. apply (scan_used _ _ _ _ _ E1). }
  destruct C as [[-> ->]|(q & w & a & i & -> & HA & HI & -> & HQ & HC)].
  2:{ inversion E; subst. right. exists q, w, a, i. auto 6. }
  apply bind_ok in E. destruct E as ([y w] & E2 & E). rewrite E2. destruct y as [p|]; [|inversion E; subst; auto].
  destruct g2; [|inversion E; subst; auto]. unfold getSignAdvice in E. destruct (nth_error m (lvar p)) as [a|] eqn:Ea; [|inversion E; subst; auto].
  destruct (bb && a_bb a && (length (a_lits a) =? 1) && canUse a 0) eqn:EE; [|inversion E; subst; auto].
  inversion E; subst; clear E. rewrite !andb_true_iff in EE. destruct EE as (((X1 & X2) & X3) & X4). apply Nat.eqb_eq in X3.
  right. exists (lneg (nth 0 (a_lits a) 0)), (lvar p), a, 0. split; [auto|]. split; [auto|]. split; [lia|]. split; [auto|]. split; [apply lvar_neg|auto].
Qed.
Lemma canUse_pos a b i : a_bud a = Some b -> canUse a i = true -> (0 < nth i b 0)%Z.
Proof. unfold canUse. intros ->. apply Z.ltb_lt. Qed.
Lemma pick_pot e b t v m ready bb r b' : tab_ok e b m -> nneg 0 m -> rs_pick A true true t (mkRSIL A v m ready bb) = Ok (r, b') ->
  nneg 0 (rs_adv A b') /\
  ((r = vsids_pick A (t, v) /\ rs_adv A b' = m) \/ exists q, r = Some q /\ forall y, pot y (rs_adv A b') = (pot y m - (if (lvar q =? y)%nat then 1 else 0))%Z).
Proof.
  intros HT HN E. destruct (pick_used _ _ _ _ _ _ _ _ _ _ _ HT E) as [[-> ->]|(q & w & a & i & -> & HA & HI & -> & HQ & HC)]; [auto|].
  destruct (HN w a HA) as (bu & EB & HL & HB). split.
  - apply nneg_used; auto. right. split; auto. exists bu. split; auto. apply (canUse_pos a); auto.
  - right. exists q. split; auto. intros y. rewrite (pot_set y m w a _ HA), (apot_used y a bu i EB HI HL), <- HQ. lia.
Qed.
Lemma h_pick_budget t v h r h' : h_pick A Budgeted t v h = Ok (r, h') -> exists b', rs_pick A true true t (core_at A h v) = Ok (r, b') /\ h_core h' = b'.
Proof. unfold h_pick. fold (core_at A h v). intros E. apply bind_ok in E. destruct E as ([x b] & E1 & E). inversion E; subst. eauto. Qed.

Lemma budget_run e b y : forall calls h rs h', tab_ok e b (rs_adv A (h_core h)) -> nneg 0 (rs_adv A (h_core h)) -> h_picks A Budgeted calls h = Ok (rs, h') ->
  nneg 0 (rs_adv A (h_core h')) /\ (Z.of_nat (length (overrides A y calls rs)) <= pot y (rs_adv A (h_core h)) - pot y (rs_adv A (h_core h')))%Z.
Proof.
  induction calls as [|[t v] calls IH]; intros h rs h' HT HN E; cbn [h_picks] in E.
  - inversion E; subst. split; auto. cbn. lia.
  - apply bind_ok in E. destruct E as ([r h1] & E1 & E). apply bind_ok in E. destruct E as ([rs1 h2] & E2 & E). inversion E; subst; clear E.
    destruct (h_pick_budget _ _ _ _ _ E1) as (b' & EP & EC). unfold core_at in EP.
    destruct (pick_pot e b _ _ _ _ _ _ _ HT HN EP) as [HN1 HP]. rewrite <- EC in *.
    assert (HT1 : tab_ok e b (rs_adv A (h_core h1))) by (rewrite EC; eapply tab_ok_same; [exact HT|rewrite <- EC; eapply rs_pick_same; eauto]).
    destruct (IH _ _ _ HT1 HN1 E2) as [HN2 HB]. split; auto. unfold overrides in *. cbn [combine filter fst snd].
    destruct HP as [[-> EM]|(q & -> & HP)].
    + rewrite EM in HB. destruct (vsids_pick A (t, v)) as [p|]; [|exact HB]. rewrite Nat.eqb_refl. cbn [negb]. rewrite andb_false_r. exact HB.
    + rewrite (HP y) in HB. destruct (lvar q =? y); cbn [andb]; [|lia]. destruct (negb _); cbn [length]; lia.
Qed.
End Numbers.
