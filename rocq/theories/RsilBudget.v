Require Import List Arith Bool NArith ZArith Lia.
Require Import Verif.Base Verif.Outcome Verif.CNFModel Verif.CNFProofs Verif.TrailModel Verif.TrailSpec Verif.TrailProofs Verif.TrailLemmas.
Require Import Verif.HeapModel Verif.HeapProofs Verif.BranchModel Verif.BranchSpec Verif.BranchProofs Verif.BranchAdvice Verif.SimModel Verif.RsilModel Verif.RsilSpec Verif.RsilVan Verif.RsilPick.
Import ListNotations.

(** ** Counting the stored literals of a variable *)
Definition cnt (y : var) (ls : list lit) : nat := length (filter (fun l => lvar l =? y) ls).
Fixpoint sumn (l : list nat) : nat := match l with [] => 0 | x :: r => x + sumn r end.
Definition tcnt (y : var) (m : list advice) : nat := sumn (map (fun a => cnt y (a_lits a)) m).
Lemma cnt_app y l1 l2 : cnt y (l1 ++ l2) = cnt y l1 + cnt y l2.
Proof. unfold cnt. rewrite filter_app, app_length. auto. Qed.
Lemma sumn_app l1 l2 : sumn (l1 ++ l2) = sumn l1 + sumn l2.
Proof. induction l1; cbn; lia. Qed.
Lemma split_set {B} (m : list B) v a a' : nth_error m v = Some a -> exists m1 m2, m = m1 ++ a :: m2 /\ set_nth v a' m = m1 ++ a' :: m2.
Proof.
  revert v. induction m as [|x m IH]; intros [|v] H; try discriminate.
  - inversion H; subst. exists [], m. auto.
  - destruct (IH v H) as (m1 & m2 & -> & E). exists (x :: m1), m2. split; auto. change (x :: set_nth v a' (m1 ++ a :: m2) = x :: m1 ++ a' :: m2). rewrite E. auto.
Qed.
Lemma tcnt_set y m v a a' : nth_error m v = Some a -> tcnt y (set_nth v a' m) + cnt y (a_lits a) = tcnt y m + cnt y (a_lits a').
Proof.
  intros H. destruct (split_set m v a a' H) as (m1 & m2 & E1 & ->). rewrite E1. unfold tcnt. rewrite !map_app, !sumn_app. cbn [map sumn]. lia.
Qed.
(** every entry of a table for budgets [has room] *)
Definition roomy (maxSize : nat) (m : list advice) : Prop := forall v a, nth_error m v = Some a -> length (a_lits a) < maxSize /\ exists b, a_bud a = Some b /\ length b = maxSize - 1.
Lemma roomy_set maxSize m v a : roomy maxSize m -> length (a_lits a) < maxSize -> (exists b, a_bud a = Some b /\ length b = maxSize - 1) -> roomy maxSize (set_nth v a m).
Proof. intros H H1 H2 w x Hw. rewrite set_nth_nth in Hw. destruct ((w =? v) && _); [inversion Hw; subst; auto|eauto]. Qed.

Section Build.
Variables (maxSize : nat) (y : var).
Hypothesis H2 : 2 <= maxSize.
Lemma upd_lit v l m m' : adv_upd v (addLiteral maxSize l) m = Ok m' -> roomy maxSize m -> roomy maxSize m' /\ tcnt y m' = tcnt y m + cnt y [l].
Proof.
  unfold adv_upd. destruct (nth_error m v) as [a|] eqn:Ea; [|discriminate]. cbn [oget bind]. intros E HR. apply bind_ok in E. destruct E as (a1 & E1 & E). inversion E; subst; clear E.
  unfold addLiteral in E1. destruct (Nat.ltb_spec (length (a_lits a) + 1) maxSize) as [HL|]; [|discriminate]. inversion E1; subst; clear E1. split.
  - destruct (HR v a Ea) as [H1 HB]. apply roomy_set; auto. cbn [a_lits]. rewrite app_length. cbn. lia.
  - pose proof (tcnt_set y m v a (mkAdv (a_lits a ++ [l]) (a_bb a) (a_bud a)) Ea) as T. cbn [a_lits] in T. rewrite cnt_app in T. lia.
Qed.
Lemma upd_bb v l m m' : adv_upd v (fun a => addLiteral maxSize l (mkAdv (a_lits a) true (a_bud a))) m = Ok m' -> roomy maxSize m -> roomy maxSize m' /\ tcnt y m' = tcnt y m + cnt y [l].
Proof.
  unfold adv_upd. destruct (nth_error m v) as [a|] eqn:Ea; [|discriminate]. cbn [oget bind]. intros E HR. apply bind_ok in E. destruct E as (a1 & E1 & E). inversion E; subst; clear E.
  unfold addLiteral in E1. cbn [a_lits a_bb a_bud] in E1. destruct (Nat.ltb_spec (length (a_lits a) + 1) maxSize) as [HL|]; [|discriminate]. inversion E1; subst; clear E1. split.
  - destruct (HR v a Ea) as [H1 HB]. apply roomy_set; auto. cbn [a_lits]. rewrite app_length. cbn. lia.
  - pose proof (tcnt_set y m v a (mkAdv (a_lits a ++ [l]) true (a_bud a)) Ea) as T. cbn [a_lits] in T. rewrite cnt_app in T. lia.
Qed.
Lemma upd_flag v m m' : adv_upd v (fun a => Ok (mkAdv (a_lits a) false (a_bud a))) m = Ok m' -> roomy maxSize m -> roomy maxSize m' /\ tcnt y m' = tcnt y m.
Proof.
  unfold adv_upd. destruct (nth_error m v) as [a|] eqn:Ea; [|discriminate]. cbn [oget bind]. intros E HR. inversion E; subst; clear E. split.
  - destruct (HR v a Ea) as [H1 HB]. apply roomy_set; auto.
  - pose proof (tcnt_set y m v a (mkAdv (a_lits a) false (a_bud a)) Ea) as T. cbn [a_lits] in T. lia.
Qed.
Lemma entries_cnt key ls : forall m m', add_entries maxSize key ls m = Ok m' -> roomy maxSize m ->
  roomy maxSize m' /\ tcnt y m' = tcnt y m + cnt y (filter (fun e => negb (key =? e)) ls).
Proof.
  induction ls as [|e r IH]; intros m m' E HR; cbn [add_entries] in E.
  - inversion E; subst. split; auto.
  - apply bind_ok in E. destruct E as (m1 & E1 & E). cbn [filter]. destruct (key =? e); cbn [negb].
    + inversion E1; subst. apply IH; auto.
    + destruct (upd_lit _ _ _ _ E1 HR) as [R1 T1]. destruct (IH _ _ E R1) as [R2 T2]. split; auto. rewrite T2, T1.
      assert (EL : cnt y [if lsign key then e else lneg e] = cnt y [e]).
      { unfold cnt. cbn [filter]. replace (lvar (if lsign key then e else lneg e)) with (lvar e) by (destruct (lsign key); [auto|rewrite lvar_neg; auto]). destruct (lvar e =? y); auto. }
      rewrite EL.
      rewrite <- Nat.add_assoc. f_equal. apply (eq_sym (cnt_app y [e] (filter _ r))).
Qed.
Lemma keys_cnt all keys : forall m m', add_equiv_keys maxSize all keys m = Ok m' -> roomy maxSize m ->
  roomy maxSize m' /\ tcnt y m' = tcnt y m + sumn (map (fun k => cnt y (filter (fun e => negb (k =? e)) all)) keys).
Proof.
  induction keys as [|k r IH]; intros m m' E HR; cbn [add_equiv_keys] in E.
  - inversion E; subst. split; auto.
  - apply bind_ok in E. destruct E as (m0 & E0 & E). apply bind_ok in E. destruct E as (m1 & E1 & E).
    destruct (upd_flag _ _ _ E0 HR) as [R0 T0]. destruct (entries_cnt _ _ _ _ E1 R0) as [R1 T1]. destruct (IH _ _ E R1) as [R2 T2]. split; auto. cbn [map sumn]. lia.
Qed.
Definition class_cnt (c : list lit) : nat := if length c <=? maxSize then sumn (map (fun k => cnt y (filter (fun e => negb (k =? e)) c)) c) else 0.
Lemma equivs_cnt cs : forall m m', add_equivs maxSize cs m = Ok m' -> roomy maxSize m -> roomy maxSize m' /\ tcnt y m' = tcnt y m + sumn (map class_cnt cs).
Proof.
  induction cs as [|c r IH]; intros m m' E HR; cbn [add_equivs] in E.
  - inversion E; subst. split; auto.
  - apply bind_ok in E. destruct E as (m1 & E1 & E). cbn [map sumn]. unfold class_cnt at 1. destruct (length c <=? maxSize).
    + destruct (keys_cnt _ _ _ _ E1 HR) as [R1 T1]. destruct (IH _ _ E R1) as [R2 T2]. split; auto. lia.
    + inversion E1; subst. apply IH; auto.
Qed.
Lemma backbones_cnt bs : forall m m', add_backbones maxSize bs m = Ok m' -> roomy maxSize m -> roomy maxSize m' /\ tcnt y m' = tcnt y m + cnt y bs.
Proof.
  induction bs as [|l r IH]; intros m m' E HR; cbn [add_backbones] in E.
  - inversion E; subst. split; auto.
  - apply bind_ok in E. destruct E as (m1 & E1 & E). destruct (upd_bb _ _ _ _ E1 HR) as [R1 T1]. destruct (IH _ _ E R1) as [R2 T2]. split; auto.
    rewrite T2, T1, <- Nat.add_assoc. f_equal. apply (eq_sym (cnt_app y [l] r)).
Qed.
Lemma init_cnt cls bbs n m : adv_init maxSize true cls bbs n = Ok m -> roomy maxSize m /\ tcnt y m = sumn (map class_cnt cls) + cnt y bbs.
Proof.
  unfold adv_init. intros E. apply bind_ok in E. destruct E as (m1 & E1 & E2).
  assert (R0 : roomy maxSize (repeat (adv_new (Some (maxSize - 1))) n)).
  { intros v a Ha. apply nth_error_In, repeat_spec in Ha. subst. cbn. split; [lia|]. exists (repeat 0%Z (maxSize - 1)). split; auto. apply repeat_length. }
  assert (T0 : tcnt y (repeat (adv_new (Some (maxSize - 1))) n) = 0) by (clear; unfold tcnt; induction n; cbn; auto).
  destruct (equivs_cnt _ _ _ E1 R0) as [R1 T1]. destruct (backbones_cnt _ _ _ E2 R1) as [R2 T2]. split; auto. lia.
Qed.

(** the counts for disjoint conjectures *)
Lemma cnt_notin ls : ~ In y (map lvar ls) -> cnt y ls = 0.
Proof. intros H. unfold cnt. induction ls as [|l r IH]; auto. cbn [filter]. destruct (Nat.eqb_spec (lvar l) y) as [E|]; [exfalso; apply H; left; auto|]. apply IH. intros X. apply H. right. auto. Qed.
Lemma cnt_one ls : NoDup (map lvar ls) -> cnt y ls <= 1.
Proof.
  induction ls as [|l r IH]; intros HN; [cbn; lia|]. cbn [map] in HN. inversion HN as [|? ? HA HB]; subst. unfold cnt in *. cbn [filter].
  destruct (Nat.eqb_spec (lvar l) y) as [E|]; [|auto]. cbn [length]. fold (cnt y r). rewrite cnt_notin by congruence. lia.
Qed.
Lemma filter_incl_vars (f : lit -> bool) ls : ~ In y (map lvar ls) -> ~ In y (map lvar (filter f ls)).
Proof. intros H X. apply H. apply in_map_iff in X. destruct X as (l & <- & X). apply filter_In in X. apply in_map. apply X. Qed.
Lemma class_out c : ~ In y (map lvar c) -> class_cnt c = 0.
Proof.
  intros H. unfold class_cnt. destruct (_ <=? _); auto.
  assert (X : forall ks, sumn (map (fun k => cnt y (filter (fun e => negb (k =? e)) c)) ks) = 0).
  { induction ks; cbn [map sumn]; auto. rewrite IHks, cnt_notin; auto. apply filter_incl_vars; auto. }
  apply X.
Qed.
Lemma class_in c l : NoDup (map lvar c) -> In l c -> lvar l = y -> class_cnt c <= length c - 1.
Proof.
  intros HN Hl El. unfold class_cnt. destruct (_ <=? _); [|lia].
  assert (F0 : cnt y (filter (fun e => negb (l =? e)) c) = 0).
  { unfold cnt. rewrite (proj2 (length_zero_iff_nil _)); auto. destruct (filter (fun x => lvar x =? y) _) as [|z r] eqn:E; auto. exfalso.
    assert (Hz : In z (filter (fun x => lvar x =? y) (filter (fun e => negb (l =? e)) c))) by (rewrite E; left; auto).
    apply filter_In in Hz. destruct Hz as [Hz Ez]. apply filter_In in Hz. destruct Hz as [Hz En]. apply Nat.eqb_eq in Ez. apply negb_true_iff, Nat.eqb_neq in En.
    apply En. clear - HN Hl Hz El Ez. induction c as [|x c IH]; [destruct Hl|]. cbn [map] in HN. apply NoDup_cons_iff in HN. destruct HN as [HA HB].
    destruct Hl as [->|Hl], Hz as [->|Hz]; auto.
    - exfalso. apply HA. rewrite El, <- Ez. apply in_map; auto.
    - exfalso. apply HA. rewrite Ez, <- El. apply in_map; auto. }
  assert (F1 : forall k, cnt y (filter (fun e => negb (k =? e)) c) <= 1).
  { intros k. apply Nat.le_trans with (cnt y c); [|apply cnt_one; auto]. unfold cnt. clear. induction c as [|x c IH]; auto. cbn [filter]. destruct (k =? x); cbn [negb filter]; destruct (lvar x =? y); cbn [length]; lia. }
  assert (X : forall ks, In l ks -> sumn (map (fun k => cnt y (filter (fun e => negb (k =? e)) c)) ks) <= length ks - 1).
  { assert (Y : forall ks, sumn (map (fun k => cnt y (filter (fun e => negb (k =? e)) c)) ks) <= length ks).
    { induction ks as [|k ks IH]; cbn [map sumn length]; auto. exact (Nat.add_le_mono _ _ _ _ (F1 k) IH). }
    induction ks as [|k ks IH]; intros HI; [destruct HI|]. cbn [map sumn length]. destruct HI as [->|HI]; [rewrite F0; cbn [Nat.add]; replace (S (length ks) - 1) with (length ks) by lia; exact (Y ks)|].
    specialize (IH HI). eapply Nat.le_trans; [exact (Nat.add_le_mono _ _ _ _ (F1 k) IH)|]. destruct ks; [destruct HI|]. cbn [length] in *. lia. }
  apply X. auto.
Qed.
Lemma total_class cls bbs n c l : good_conjectures n cls bbs -> In c cls -> In l c -> lvar l = y ->
  sumn (map class_cnt cls) + cnt y bbs <= (if length c <=? maxSize then length c - 1 else 0).
Proof.
  intros [HN _] Hc Hl El. rewrite map_app in HN.
  assert (NB : ~ In y (map lvar bbs)).
  { intros X. assert (In y (map lvar (concat cls))) by (rewrite <- El; apply in_map, in_concat; eauto). clear - HN X H. induction (map lvar (concat cls)) as [|z r IH]; [destruct H|]. cbn in HN. inversion HN; subst. destruct H as [->|H]; [apply H2, in_or_app; auto|auto]. }
  rewrite (cnt_notin bbs NB), Nat.add_0_r. apply NoDup_app_l in HN. clear NB. induction cls as [|d r IH]; [destruct Hc|].
  cbn [concat] in HN. rewrite map_app in HN. cbn [map sumn]. destruct Hc as [->|Hc].
  - assert (Z : sumn (map class_cnt r) = 0).
    { assert (Y : forall d, In d r -> class_cnt d = 0).
      { intros d Hd. apply class_out. intros X. apply in_map_iff in X. destruct X as (z & Ez & Hz).
        assert (In y (map lvar c)) by (rewrite <- El; apply in_map; auto). assert (In y (map lvar (concat r))) by (rewrite <- Ez; apply in_map, in_concat; eauto).
        clear - HN H H0. induction (map lvar c) as [|w s IHs]; [destruct H|]. cbn in HN. inversion HN; subst. destruct H as [->|H]; [apply H3, in_or_app; auto|auto]. }
      clear - Y. induction r as [|d r IH]; auto. cbn [map sumn]. rewrite (Y d (or_introl eq_refl)), IH; auto. intros; apply Y; right; auto. }
    rewrite Z, Nat.add_0_r. destruct (length c <=? maxSize) eqn:EL; [apply (class_in c l); auto; eapply NoDup_app_l; eauto|]. unfold class_cnt. rewrite EL. lia.
  - rewrite class_out.
    + apply IH; auto. clear - HN. induction (map lvar d) as [|w s IHs]; auto. cbn in HN. inversion HN; auto.
    + intros X. assert (In y (map lvar (concat r))) by (rewrite <- El; apply in_map, in_concat; eauto).
      clear - HN X H. induction (map lvar d) as [|w s IHs]; [destruct X|]. cbn in HN. inversion HN; subst. destruct X as [->|X]; [apply H2, in_or_app; auto|auto].
Qed.
Lemma total_out cls : ~ In y (map lvar (concat cls)) -> sumn (map class_cnt cls) = 0.
Proof.
  induction cls as [|c r IH]; intros H; auto. cbn [concat] in H. rewrite map_app in H. cbn [map sumn]. rewrite class_out, IH; auto; intros X; apply H, in_or_app; auto.
Qed.
Lemma total_backbone cls bbs n l : good_conjectures n cls bbs -> In l bbs -> lvar l = y -> sumn (map class_cnt cls) + cnt y bbs <= 1.
Proof.
  intros [HN _] Hl El. rewrite map_app in HN. rewrite total_out; auto.
  - cbn [Nat.add]. apply cnt_one. clear - HN. induction (map lvar (concat cls)) as [|z r IH]; auto. cbn in HN. inversion HN; auto.
  - intros X. assert (HB : In y (map lvar bbs)) by (rewrite <- El; apply in_map; auto). clear - HN X HB. induction (map lvar (concat cls)) as [|z r IH]; [destruct X|].
    cbn in HN. inversion HN as [|? ? HA HC]; subst. destruct X as [->|X]; [apply HA, in_or_app; auto|auto].
Qed.
End Build.
