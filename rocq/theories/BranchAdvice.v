Require Import List Arith Bool NArith ZArith Lia.
Require Import Verif.Base Verif.CNFModel Verif.CNFProofs Verif.Outcome Verif.TrailModel Verif.TrailSpec Verif.TrailProofs Verif.TrailLemmas.
Require Import Verif.HeapModel Verif.HeapProofs Verif.BranchModel Verif.BranchSpec Verif.BranchProofs.
Import ListNotations.

(** ** Building the table *)
Lemma nth_ext_error {B} (l m : list B) : (forall i, nth_error l i = nth_error m i) -> l = m.
Proof.
  revert m. induction l as [|x l IH]; intros [|y m] H; auto.
  - specialize (H 0). discriminate.
  - specialize (H 0). discriminate.
  - pose proof (H 0) as H0. cbn in H0. inversion H0; subst. f_equal. apply IH. intros i. apply (H (S i)).
Qed.

Definition advised (key : lit) (ls : list lit) : list lit :=
  map (fun e => if lsign key then e else lneg e) (filter (fun e => negb (key =? e)) ls).

Lemma add_entries_spec maxSize key ls : forall m a, nth_error m (lvar key) = Some a ->
  length (a_lits a) + length (filter (fun e => negb (key =? e)) ls) < maxSize ->
  add_entries maxSize key ls m = Ok (set_nth (lvar key) (mkAdv (a_lits a ++ advised key ls) (a_bb a) (a_bud a)) m).
Proof.
  induction ls as [|e r IH]; intros m a Ha HL; cbn [add_entries].
  - unfold advised. cbn. rewrite app_nil_r. destruct a; cbn. rewrite set_nth_id; auto.
  - unfold advised in *. cbn [filter] in *. destruct (key =? e); cbn [negb bind] in *.
    + apply IH; auto.
    + cbn [length] in HL. unfold adv_upd. rewrite Ha. cbn [oget bind]. unfold addLiteral.
      assert (E : length (a_lits a) + 1 <? maxSize = true) by (apply Nat.ltb_lt; lia). rewrite E. cbn [bind].
      assert (Hl : lvar key < length m) by (eapply nth_error_lt; eauto).
      rewrite (IH _ (mkAdv (a_lits a ++ [if lsign key then e else lneg e]) (a_bb a) (a_bud a))).
      * cbn [a_lits a_bb a_bud map]. rewrite <- app_assoc. cbn [app]. f_equal.
        apply nth_ext_error; intros i. rewrite !set_nth_nth, ?set_nth_length.
        destruct (i =? lvar key); cbn [andb]; auto. destruct (lvar key <? length m); auto.
      * apply set_nth_same; auto.
      * cbn [a_lits]. rewrite app_length. cbn. lia.
Qed.

Section Conj.
Variables (equivs : list (list lit)) (backbones : list lit).

(** where an advised literal for variable [v] comes from *)
Definition from_class (v : var) (p : lit) : Prop :=
  exists c k e, In c equivs /\ In k c /\ In e c /\ lvar k = v /\ p = if lsign k then e else lneg e.
Definition entry_ok (v : var) (a : advice) : Prop :=
  if a_bb a then forall p, In p (a_lits a) -> lvar p = v /\ In p backbones
  else forall p, In p (a_lits a) -> from_class v p.
Definition tab_ok (m : list advice) : Prop := forall v a, nth_error m v = Some a -> entry_ok v a.
Definition empty_at (vs : list var) (m : list advice) : Prop :=
  forall v a, In v vs -> nth_error m v = Some a -> a_lits a = [].

Lemma filter_key_length key c : NoDup (map lvar c) -> In key c ->
  S (length (filter (fun e => negb (key =? e)) c)) = length c.
Proof.
  induction c as [|x c IH]; intros HN Hin; [destruct Hin|]. cbn [map] in HN. inversion HN as [|? ? H1 H2]; subst.
  cbn [filter]. destruct (Nat.eqb_spec key x) as [->|Hne]; cbn [negb length].
  - f_equal. clear IH Hin HN. induction c as [|y c IH]; auto. cbn [filter]. destruct (Nat.eqb_spec x y) as [->|].
    + exfalso. apply H1. left; auto.
    + cbn. f_equal. apply IH; [intros H; apply H1; right; auto|]. inversion H2; auto.
  - f_equal. apply IH; auto. destruct Hin; [congruence|auto].
Qed.

Lemma add_keys_spec maxSize c : In c equivs -> NoDup (map lvar c) -> length c <= maxSize ->
  forall ks m, incl ks c -> NoDup (map lvar ks) -> (forall k, In k ks -> lvar k < length m) ->
  empty_at (map lvar ks) m -> tab_ok m ->
  exists m', add_equiv_keys maxSize c ks m = Ok m' /\ length m' = length m /\ tab_ok m' /\
    (forall v, ~ In v (map lvar ks) -> nth_error m' v = nth_error m v).
Proof.
  intros Hc HN Hlen. induction ks as [|k r IH]; intros m Hi HNk Hlt He Ht; cbn [add_equiv_keys].
  - exists m. auto.
  - assert (Hk : lvar k < length m) by (apply Hlt; left; auto).
    destruct (nth_error m (lvar k)) as [a|] eqn:Ea; [|apply nth_error_None in Ea; lia].
    assert (Ela : a_lits a = []) by (apply (He (lvar k)); auto; left; auto).
    unfold adv_upd. rewrite Ea. cbn [oget bind].
    set (m0 := set_nth (lvar k) _ m).
    assert (Lm0 : length m0 = length m) by apply set_nth_length.
    rewrite (add_entries_spec maxSize k c m0 (mkAdv (a_lits a) false (a_bud a))).
    2:{ apply set_nth_same; auto. }
    2:{ cbn [a_lits]. rewrite Ela. cbn. pose proof (filter_key_length k c HN (Hi k (or_introl eq_refl))). unfold lit, var in *. lia. }
    cbn [bind a_lits a_bb a_bud]. rewrite Ela. cbn [app].
    set (m1 := set_nth (lvar k) _ m0).
    assert (Lm1 : length m1 = length m) by (unfold m1; rewrite set_nth_length; auto).
    assert (N1 : forall v, v <> lvar k -> nth_error m1 v = nth_error m v).
    { intros v Hv. unfold m1, m0. rewrite !set_nth_other by auto. auto. }
    cbn [map] in HNk. inversion HNk as [|? ? Hk1 Hk2]; subst.
    destruct (IH m1) as (m' & E & L & T & N); auto.
    + intros x Hx. apply Hi. right; auto.
    + intros x Hx. rewrite Lm1. apply Hlt. right; auto.
    + intros v b Hv Hb. rewrite N1 in Hb by (intros ->; auto). apply (He v); auto. right; auto.
    + intros v b Hb. destruct (Nat.eq_dec v (lvar k)) as [->|Hv].
      * unfold m1 in Hb. rewrite set_nth_same in Hb by (unfold var in *; lia). inversion Hb; subst. unfold entry_ok. cbn [a_bb a_lits].
        intros p Hp. unfold advised in Hp. apply in_map_iff in Hp. destruct Hp as (e & <- & He1).
        apply filter_In in He1. exists c, k, e. split; [auto|]. split; [apply Hi; left; auto|]. tauto.
      * rewrite N1 in Hb by auto. apply (Ht v b Hb).
    + exists m'. split; [auto|]. split; [congruence|]. split; [auto|].
      intros v Hv. cbn [map In] in Hv. rewrite N by tauto. apply N1. intros ->. tauto.
Qed.

Lemma add_equivs_spec maxSize : forall cs m, incl cs equivs -> NoDup (map lvar (concat cs)) ->
  (forall l, In l (concat cs) -> lvar l < length m) -> empty_at (map lvar (concat cs)) m -> tab_ok m ->
  exists m', add_equivs maxSize cs m = Ok m' /\ length m' = length m /\ tab_ok m' /\
    (forall v, ~ In v (map lvar (concat cs)) -> nth_error m' v = nth_error m v).
Proof.
  induction cs as [|c r IH]; intros m Hi HN Hlt He Ht; cbn [add_equivs].
  - exists m. auto.
  - cbn [concat] in *. rewrite map_app in HN.
    assert (HNc : NoDup (map lvar c)) by (eapply NoDup_app_l; eauto).
    assert (HNr : NoDup (map lvar (concat r))).
    { clear - HN. induction (map lvar c) as [|x l IH]; auto. cbn in HN. inversion HN; auto. }
    assert (Hdis : forall v, In v (map lvar c) -> ~ In v (map lvar (concat r))).
    { clear - HN. induction (map lvar c) as [|x l IH]; intros v; [intros []|]. cbn in HN. inversion HN as [|? ? H1 H2]; subst.
      intros [<-|Hv]; [|auto]. intros H. apply H1. apply in_or_app; auto. }
    assert (Hstep : exists m1, (if length c <=? maxSize then add_equiv_keys maxSize c c m else Ok m) = Ok m1 /\
      length m1 = length m /\ tab_ok m1 /\ (forall v, ~ In v (map lvar c) -> nth_error m1 v = nth_error m v)).
    { destruct (Nat.leb_spec (length c) maxSize) as [Hl|Hl].
      - apply add_keys_spec; auto; [apply Hi; left; auto|intros x Hx; exact Hx| |].
        + intros k Hk. apply Hlt. apply in_or_app; auto.
        + intros v a Hv Ha. apply (He v); auto. rewrite map_app. apply in_or_app; auto.
      - exists m. auto. }
    destruct Hstep as (m1 & -> & L1 & T1 & N1). cbn [bind].
    destruct (IH m1) as (m' & E & L & T & N); auto.
    + intros x Hx. apply Hi. right; auto.
    + intros l Hl. rewrite L1. apply Hlt. apply in_or_app; auto.
    + intros v a Hv Ha. rewrite N1 in Ha by (intros Hc; apply (Hdis v Hc Hv)). apply (He v); auto. rewrite map_app. apply in_or_app; auto.
    + exists m'. split; [auto|]. split; [congruence|]. split; [auto|].
      intros v Hv. rewrite map_app, in_app_iff in Hv. rewrite N by tauto. apply N1. tauto.
Qed.

Lemma add_backbones_spec maxSize : 2 <= maxSize -> forall bs m, incl bs backbones -> NoDup (map lvar bs) ->
  (forall l, In l bs -> lvar l < length m) -> empty_at (map lvar bs) m -> tab_ok m ->
  exists m', add_backbones maxSize bs m = Ok m' /\ length m' = length m /\ tab_ok m' /\
    (forall l, In l bs -> exists a, nth_error m' (lvar l) = Some a /\ a_lits a = [l] /\ a_bb a = true) /\
    (forall v, ~ In v (map lvar bs) -> nth_error m' v = nth_error m v).
Proof.
  intros H2. induction bs as [|l r IH]; intros m Hi HN Hlt He Ht; cbn [add_backbones].
  - exists m. split; [auto|]. split; [auto|]. split; [auto|]. split; [intros l []|auto].
  - assert (Hk : lvar l < length m) by (apply Hlt; left; auto).
    destruct (nth_error m (lvar l)) as [a|] eqn:Ea; [|apply nth_error_None in Ea; lia].
    assert (Ela : a_lits a = []) by (apply (He (lvar l)); auto; left; auto).
    unfold adv_upd. rewrite Ea. cbn [oget bind]. unfold addLiteral. cbn [a_lits a_bb a_bud]. rewrite Ela. cbn [length Nat.add app].
    assert (E1 : 1 <? maxSize = true) by (apply Nat.ltb_lt; lia). rewrite E1. cbn [bind].
    set (m1 := set_nth (lvar l) _ m).
    assert (Lm1 : length m1 = length m) by apply set_nth_length.
    assert (N1 : forall v, v <> lvar l -> nth_error m1 v = nth_error m v) by (intros v Hv; apply set_nth_other; auto).
    cbn [map] in HN. inversion HN as [|? ? Hk1 Hk2]; subst.
    destruct (IH m1) as (m' & E & L & T & B & N); auto.
    + intros x Hx. apply Hi. right; auto.
    + intros x Hx. rewrite Lm1. apply Hlt. right; auto.
    + intros v b Hv Hb. rewrite N1 in Hb by (intros ->; auto). apply (He v); auto. right; auto.
    + intros v b Hb. destruct (Nat.eq_dec v (lvar l)) as [->|Hv].
      * unfold m1 in Hb. rewrite set_nth_same in Hb by auto. inversion Hb; subst. unfold entry_ok. cbn [a_bb a_lits].
        intros p [<-|[]]. split; auto. apply Hi. left; auto.
      * rewrite N1 in Hb by auto. apply (Ht v b Hb).
    + exists m'. split; [auto|]. split; [congruence|]. split; [auto|]. split.
      * intros x [<-|Hx]; [|auto]. rewrite N by auto. unfold m1. rewrite set_nth_same by auto. eexists. split; [reflexivity|]. auto.
      * intros v Hv. cbn [map In] in Hv. rewrite N by tauto. apply N1. intros ->. tauto.
Qed.

Lemma adv_init_spec maxSize budgets size : 2 <= maxSize -> good_conjectures size equivs backbones ->
  exists m, adv_init maxSize budgets equivs backbones size = Ok m /\ length m = size /\ tab_ok m /\
    (forall l, In l backbones -> exists a, nth_error m (lvar l) = Some a /\ a_lits a = [l] /\ a_bb a = true).
Proof.
  intros H2 [HN Hr]. unfold adv_init. remember (repeat _ size) as m0 eqn:Em0.
  assert (L0 : length m0 = size) by (subst m0; apply repeat_length).
  assert (E0 : forall v a, nth_error m0 v = Some a -> a_lits a = [] /\ a_bb a = false).
  { intros v a Ha. rewrite Em0 in Ha. apply nth_error_In, repeat_spec in Ha. subst. auto. }
  rewrite map_app in HN.
  destruct (add_equivs_spec maxSize equivs m0) as (m1 & -> & L1 & T1 & N1).
  - intros x Hx; auto.
  - eapply NoDup_app_l; eauto.
  - intros l Hl. rewrite L0. apply Hr. apply in_or_app; auto.
  - intros v a _ Ha. apply (E0 v a Ha).
  - intros v a Ha. destruct (E0 v a Ha) as [E1 E2]. unfold entry_ok. rewrite E2, E1. intros p [].
  - cbn [bind]. destruct (add_backbones_spec maxSize H2 backbones m1) as (m2 & E2 & L2 & T2 & B2 & N2); auto.
    + intros x Hx; auto.
    + clear - HN. induction (map lvar (concat equivs)) as [|x l IH]; auto. cbn in HN. inversion HN; auto.
    + intros l Hl. rewrite L1, L0. apply Hr. apply in_or_app; auto.
    + intros v a Hv Ha. rewrite N1 in Ha; [apply (E0 v a Ha)|].
      clear - HN Hv. induction (map lvar (concat equivs)) as [|x l IH]; [intros []|]. cbn in HN. inversion HN as [|? ? H1 H2]; subst.
      intros [->|H]; [apply H1, in_or_app; auto|]. apply IH; auto.
    + exists m2. split; [auto|]. split; [congruence|]. auto.
Qed.
End Conj.

(** ** Using the table *)
Definition same_adv (m m' : list advice) : Prop :=
  length m' = length m /\
  forall v a', nth_error m' v = Some a' -> exists a, nth_error m v = Some a /\ a_lits a' = a_lits a /\ a_bb a' = a_bb a.

Lemma same_adv_refl m : same_adv m m. Proof. split; eauto. Qed.
Lemma same_adv_trans m1 m2 m3 : same_adv m1 m2 -> same_adv m2 m3 -> same_adv m1 m3.
Proof.
  intros [L1 H1] [L2 H2]. split; [congruence|]. intros v a Ha. destruct (H2 v a Ha) as (b & Hb & E1 & E2).
  destruct (H1 v b Hb) as (c & Hc & E3 & E4). exists c. split; auto. split; congruence.
Qed.
Lemma used_same a i : a_lits (used a i) = a_lits a /\ a_bb (used a i) = a_bb a.
Proof. unfold used. destruct (a_bud a); auto. Qed.
Lemma same_adv_set m v a i : nth_error m v = Some a -> same_adv m (set_nth v (used a i) m).
Proof.
  intros Ha. split; [apply set_nth_length|]. intros w a' Hw. rewrite set_nth_nth in Hw.
  destruct (Nat.eqb_spec w v) as [->|]; cbn [andb] in Hw.
  - pose proof (nth_error_lt _ _ _ Ha) as Hl. apply Nat.ltb_lt in Hl. rewrite Hl in Hw. inversion Hw; subst.
    exists a. destruct (used_same a i) as [-> ->]. auto.
  - eauto.
Qed.
Lemma tab_ok_same e b m m' : tab_ok e b m -> same_adv m m' -> tab_ok e b m'.
Proof.
  intros H [_ HS] v a' Ha. destruct (HS v a' Ha) as (a & Ha' & E1 & E2). specialize (H v a Ha'). unfold entry_ok in *.
  rewrite E1, E2. auto.
Qed.

Lemma advice_loop_spec t cursor a lvl : (forall p, In p (a_lits a) -> lvar p < nvt t) -> forall k j, k <= length (a_lits a) ->
  exists x, advice_loop k j lvl t cursor a = Ok x /\
    match x with
    | None => True
    | Some (q, a1) => exists p i, In p (a_lits a) /\ q = (if lsign cursor then lneg p else p) /\ a1 = used a i /\
        lvar p < nvt t /\ vvalue t (lvar p) = None /\ isDecisionVar (lvar p) t = true
    end.
Proof.
  intros HR. induction k as [|k IH]; intros j Hk; cbn [advice_loop]; [exists None; auto|].
  set (i := (lvl + j) mod length (a_lits a)).
  assert (Hin : In (nth i (a_lits a) 0) (a_lits a)).
  { apply nth_In. apply Nat.mod_upper_bound. lia. }
  specialize (HR _ Hin). destruct (Nat.leb_spec (nvt t) (lvar (nth i (a_lits a) 0))); [lia|].
  destruct (is_undef _ && _ && _) eqn:EE; [|apply IH; lia].
  apply andb_true_iff in EE. destruct EE as [EE _]. apply andb_true_iff in EE. destruct EE as [E1 E2].
  eexists. split; [reflexivity|]. exists (nth i (a_lits a) 0), i. split; [auto|]. split; [auto|]. split; [auto|]. split; [auto|].
  split; auto. destruct (vvalue t _); [discriminate|auto].
Qed.

Lemma from_class_range n e b v p : good_conjectures n e b -> from_class e v p -> lvar p < n.
Proof.
  intros [_ Hr] (c & k & x & Hc & Hk & Hx & _ & ->).
  assert (lvar x < n) by (apply Hr, in_or_app; left; apply in_concat; eauto).
  destruct (lsign k); rewrite ?lvar_neg; auto.
Qed.

Lemma from_class_contra e v p c : from_class e v p -> lvar c = v ->
  exists cl, In cl e /\ contradicts cl c (if lsign c then lneg p else p).
Proof.
  intros (cl & k & x & Hc & Hk & Hx & Ev & ->) <-. exists cl. split; auto. unfold contradicts.
  pose proof (lit_eta k) as Ek. pose proof (lit_eta c) as Ec. rewrite Ev in Ek.
  destruct (lsign k) eqn:Sk, (lsign c) eqn:Sc; rewrite ?Sk in Ek; rewrite ?Sc in Ec.
  - left. rewrite lneg_invol. replace c with k by congruence. auto.
  - right. split; auto. replace (lneg c) with k; auto. rewrite Ec, lneg_mk. cbn. auto.
  - right. rewrite lneg_invol. split; auto. replace (lneg c) with k; auto. rewrite Ec, lneg_mk. cbn. auto.
  - left. rewrite lneg_invol. replace c with k by congruence. auto.
Qed.

Lemma advice_scan_spec e b n t : good_conjectures n e b -> n <= nvt t -> forall cs m, tab_ok e b m ->
  exists x m', advice_scan t cs m = Ok (x, m') /\ same_adv m m' /\
    forall q, x = Some q -> lvar q < nvt t /\ vvalue t (lvar q) = None /\ isDecisionVar (lvar q) t = true /\
      exists c cl, In c cs /\ In cl e /\ contradicts cl c q.
Proof.
  intros HG Hn. induction cs as [|c r IH]; intros m HT; cbn [advice_scan].
  - exists None, m. split; [auto|]. split; [apply same_adv_refl|]. discriminate.
  - assert (Hskip : exists x m', advice_scan t r m = Ok (x, m') /\ same_adv m m' /\
      forall q, x = Some q -> lvar q < nvt t /\ vvalue t (lvar q) = None /\ isDecisionVar (lvar q) t = true /\
        exists c0 cl, In c0 (c :: r) /\ In cl e /\ contradicts cl c0 q).
    { destruct (IH m HT) as (x & m' & E & S1 & Q). exists x, m'. split; [auto|]. split; [auto|]. intros q Hq.
      destruct (Q q Hq) as (Q1 & Q2 & Q3 & c0 & cl & Q4 & Q5 & Q6). split; [auto|]. split; [auto|]. split; [auto|].
      exists c0, cl. split; [right; auto|auto]. }
    destruct (nth_error m (lvar c)) as [a|] eqn:Ea; [|exact Hskip].
    destruct (a_bb a) eqn:Eb; [exact Hskip|].
    pose proof (HT _ _ Ea) as HE. unfold entry_ok in HE. rewrite Eb in HE.
    destruct (advice_loop_spec t c a (dlevel t)) with (k := length (a_lits a)) (j := 0) as (x & E & R); auto.
    { intros p Hp. specialize (HE p Hp). apply (from_class_range n e b) in HE; auto. lia. }
    rewrite E. cbn [bind]. destruct x as [[q a1]|]; [|exact Hskip].
    destruct R as (p & i & Hp & -> & -> & R1 & R2 & R3). eexists; eexists. split; [reflexivity|].
    split; [apply same_adv_set; auto|]. intros q E1. inversion E1; subst; clear E1.
    assert (EV : lvar (if lsign c then lneg p else p) = lvar p) by (destruct (lsign c); rewrite ?lvar_neg; auto).
    rewrite EV. split; [auto|]. split; [auto|]. split; [auto|].
    destruct (from_class_contra e (lvar c) p c (HE p Hp) eq_refl) as (cl & Hcl & HC). exists c, cl. split; [left; auto|auto].
Qed.

Section RSIL.
Variable A : arith.

Lemma getAdvice_spec e b n t m : good_conjectures n e b -> n <= nvt t -> tab_ok e b m ->
  exists x m', getAdvice t m = Ok (x, m') /\ same_adv m m' /\
    forall q, x = Some q -> lvar q < nvt t /\ vvalue t (lvar q) = None /\ isDecisionVar (lvar q) t = true /\
      exists c cl, In c (skipn (last (lim t) 0) (tr t)) /\ In cl e /\ contradicts cl c q.
Proof.
  intros HG Hn HT. unfold getAdvice. destruct (lim t) as [|k r] eqn:El.
  - exists None, m. split; [auto|]. split; [apply same_adv_refl|]. discriminate.
  - rewrite <- El. apply (advice_scan_spec e b n); auto.
Qed.

Lemma getSignAdvice_spec e b bb l m : tab_ok e b m ->
  lvar (fst (getSignAdvice bb l m)) = lvar l /\ same_adv m (snd (getSignAdvice bb l m)).
Proof.
  intros HT. unfold getSignAdvice. destruct (nth_error m (lvar l)) as [a|] eqn:Ea; [|split; [auto|apply same_adv_refl]].
  destruct (bb && a_bb a && (length (a_lits a) =? 1) && canUse a 0) eqn:EE; cbn [fst snd]; [|split; [auto|apply same_adv_refl]].
  rewrite !andb_true_iff in EE. destruct EE as (((E1 & E2) & E3) & E4). apply Nat.eqb_eq in E3.
  split; [|apply same_adv_set; auto]. rewrite lvar_neg. pose proof (HT _ _ Ea) as HE. unfold entry_ok in HE. rewrite E2 in HE.
  apply HE. apply nth_In. lia.
Qed.

Lemma rs_pick_same g1 g2 t v m ready bb r b' : rs_pick A g1 g2 t (mkRSIL A v m ready bb) = Ok (r, b') -> same_adv m (rs_adv A b').
Proof.
  assert (HL : forall k j lvl c a q a1, advice_loop k j lvl t c a = Ok (Some (q, a1)) -> exists i, a1 = used a i).
  { induction k as [|k IH]; intros j lvl c a q a1; cbn [advice_loop]; [discriminate|].
    destruct (nvt t <=? _); [discriminate|]. destruct (_ && _ && _); [|apply IH]. intros E. inversion E; subst. eauto. }
  assert (HS : forall cs m x m', advice_scan t cs m = Ok (x, m') -> same_adv m m').
  { induction cs as [|c cs IH]; intros m0 x m'; cbn [advice_scan].
    - intros E. inversion E; subst. apply same_adv_refl.
    - destruct (nth_error m0 (lvar c)) as [a|] eqn:Ea; [|apply IH]. destruct (a_bb a); [apply IH|].
      intros E. apply bind_ok in E. destruct E as ([[q a1]|] & E1 & E); [|apply (IH _ _ _ E)].
      inversion E; subst. apply HL in E1. destruct E1 as (i & ->). apply same_adv_set; auto. }
  unfold rs_pick. cbn [rs_ready rs_adv rs_vsids rs_bb]. destruct ready.
  - intros E. apply bind_ok in E. destruct E as ([x m1] & E1 & E).
    assert (S1 : same_adv m m1).
    { destruct g1; [|inversion E1; subst; apply same_adv_refl]. unfold getAdvice in E1.
      destruct (lim t); [inversion E1; subst; apply same_adv_refl|]. apply (HS _ _ _ _ E1). }
    destruct x as [p|]; [inversion E; subst; auto|].
    apply bind_ok in E. destruct E as ([y w] & E2 & E). destruct y as [p|]; [|inversion E; subst; auto].
    destruct g2.
    + destruct (getSignAdvice bb p m1) as [q m2] eqn:EG. inversion E; subst. cbn [rs_adv].
      apply (same_adv_trans _ m1); auto. unfold getSignAdvice in EG.
      destruct (nth_error m1 (lvar p)) as [a|] eqn:Ea; [|inversion EG; subst; apply same_adv_refl].
      destruct (_ && _); inversion EG; subst; [apply same_adv_set; auto|apply same_adv_refl].
    + inversion E; subst. auto.
  - intros E. apply bind_ok in E. destruct E as ([y w] & E2 & E). inversion E; subst. apply same_adv_refl.
Qed.

Lemma adv_reach_same m0 m : adv_reach A m0 m -> same_adv m0 m.
Proof.
  induction 1 as [|m g1 g2 t v ready bb r b' H IH E]; [apply same_adv_refl|].
  apply (same_adv_trans _ m); auto. eapply rs_pick_same; eauto.
Qed.

Lemma rs_pick_good ext okamt d0 ph t v maxSize budgets equivs backbones n m0 m ready bb g1 g2 :
  vs_reach A ext okamt d0 ph t v -> ph <> Stale ->
  2 <= maxSize -> good_conjectures n equivs backbones -> n <= nvt t ->
  adv_init maxSize budgets equivs backbones n = Ok m0 -> adv_reach A m0 m ->
  exists r b', rs_pick A g1 g2 t (mkRSIL A v m ready bb) = Ok (r, b') /\ good_pick t r /\
    ((rs_vsids A b' = v /\ r <> None) \/
     exists r0, vs_pick A t v = Ok (r0, rs_vsids A b') /\ option_map lvar r = option_map lvar r0).
Proof.
  intros HR Hp H2 HG Hn EI HA.
  destruct (adv_init_spec equivs backbones maxSize budgets n H2 HG) as (m1 & E1 & L1 & T1 & _). rewrite EI in E1. inversion E1; subst m1.
  assert (HT : tab_ok equivs backbones m) by (eapply tab_ok_same; eauto; apply adv_reach_same; auto).
  destruct (vs_pick_spec A ph t v (vs_reach_inv _ _ _ _ _ _ _ HR) Hp) as (r0 & v' & EV & GV & _).
  unfold rs_pick. cbn [rs_ready rs_adv rs_vsids rs_bb]. rewrite EV. destruct ready.
  2:{ cbn [bind]. eexists; eexists. split; [reflexivity|]. split; [auto|]. right. exists r0. auto. }
  assert (Hadv : exists x m', (if g1 then getAdvice t m else Ok (None, m)) = Ok (x, m') /\ same_adv m m' /\
     forall q, x = Some q -> lvar q < nvt t /\ vvalue t (lvar q) = None /\ isDecisionVar (lvar q) t = true).
  { destruct g1.
    - destruct (getAdvice_spec equivs backbones n t m HG Hn HT) as (x & m' & E & S & Q). exists x, m'. split; [auto|]. split; [auto|].
      intros q Hq. destruct (Q q Hq) as (Q1 & Q2 & Q3 & _). auto.
    - exists None, m. split; [auto|]. split; [apply same_adv_refl|]. discriminate. }
  destruct Hadv as (x & m' & -> & S & Q). cbn [bind]. destruct x as [q|].
  - destruct (Q q eq_refl) as (Q1 & Q2 & Q3). eexists; eexists. split; [reflexivity|]. split.
    + cbn [good_pick]. split; [auto|]. split; [apply value_var; auto|auto].
    + left. cbn. split; auto. discriminate.
  - destruct r0 as [p|].
    + pose proof (getSignAdvice_spec equivs backbones bb p m' (tab_ok_same _ _ _ _ HT S)) as [GS _].
      destruct (getSignAdvice bb p m') as [q m2] eqn:EG. cbn [fst] in GS.
      assert (HQ : exists q' m3, (if g2 then (q, m2) else (p, m')) = (q', m3) /\ lvar q' = lvar p).
      { destruct g2; eauto. }
      destruct HQ as (q' & m3 & -> & Ev). eexists; eexists. split; [reflexivity|]. split.
      * cbn [good_pick] in *. destruct GV as (G1 & G2 & G3). rewrite Ev. split; [auto|]. split; [|auto].
        apply value_var. rewrite Ev. apply value_var. auto.
      * right. exists (Some p). cbn. rewrite Ev. auto.
    + eexists; eexists. split; [reflexivity|]. split; [auto|]. right. exists None. auto.
Qed.

Lemma getAdvice_contradicts maxSize budgets equivs backbones n m0 m t p m' :
  2 <= maxSize -> good_conjectures n equivs backbones -> n <= nvt t ->
  adv_init maxSize budgets equivs backbones n = Ok m0 -> adv_reach A m0 m ->
  getAdvice t m = Ok (Some p, m') ->
  exists c l, In c equivs /\ In l (skipn (last (lim t) 0) (tr t)) /\ contradicts c l p.
Proof.
  intros H2 HG Hn EI HA EG.
  destruct (adv_init_spec equivs backbones maxSize budgets n H2 HG) as (m1 & E1 & L1 & T1 & _). rewrite EI in E1. inversion E1; subst m1.
  assert (HT : tab_ok equivs backbones m) by (eapply tab_ok_same; eauto; apply adv_reach_same; auto).
  destruct (getAdvice_spec equivs backbones n t m HG Hn HT) as (x & m2 & E & _ & Q). rewrite EG in E. inversion E; subst.
  destruct (Q p eq_refl) as (_ & _ & _ & c & cl & Q4 & Q5 & Q6). exists cl, c. auto.
Qed.

Lemma sign_backbone maxSize equivs backbones n m0 l : 2 <= maxSize -> good_conjectures n equivs backbones ->
  adv_init maxSize false equivs backbones n = Ok m0 -> In l backbones ->
  forall s m, adv_reach A m0 m -> fst (getSignAdvice true (mkLit (lvar l) s) m) = lneg l.
Proof.
  intros H2 HG EI Hl s m HA.
  destruct (adv_init_spec equivs backbones maxSize false n H2 HG) as (m1 & E1 & L1 & T1 & B1). rewrite EI in E1. inversion E1; subst m1.
  destruct (B1 l Hl) as (a0 & Ha0 & El & Eb). 
  assert (NB : forall v a, nth_error m0 v = Some a -> a_bud a = None).
  { clear - EI. unfold adv_init in EI. apply bind_ok in EI. destruct EI as (m1 & E1 & E2).
    assert (U : forall v f m m', (forall a a', f a = Ok a' -> a_bud a' = a_bud a) -> adv_upd v f m = Ok m' ->
      (forall v a, nth_error m v = Some a -> a_bud a = None) -> forall v a, nth_error m' v = Some a -> a_bud a = None).
    { intros v f m m' Hf E H w a Ha. unfold adv_upd in E. destruct (nth_error m v) as [x|] eqn:Ex; [|discriminate]. cbn in E.
      apply bind_ok in E. destruct E as (y & Ey & E). inversion E; subst. rewrite set_nth_nth in Ha.
      destruct ((w =? v) && _); [inversion Ha; subst; rewrite (Hf _ _ Ey); eauto|eauto]. }
    assert (AL : forall l a a', addLiteral maxSize l a = Ok a' -> a_bud a' = a_bud a).
    { intros l a a'. unfold addLiteral. destruct (_ <? _); [|discriminate]. intros E. inversion E; auto. }
    assert (H0 : forall v a, nth_error m1 v = Some a -> a_bud a = None).
    { assert (H : forall v a, nth_error (repeat (adv_new None) n) v = Some a -> a_bud a = None).
      { intros v a Ha. apply nth_error_In, repeat_spec in Ha. subst. auto. }
      revert H E1. generalize (repeat (adv_new None) n). clear E2 m0. revert m1. induction equivs as [|c r IH]; intros m1 m H E; cbn [add_equivs] in E.
      - inversion E; subst; auto.
      - apply bind_ok in E. destruct E as (m2 & E2 & E). apply (IH _ m2); auto. clear IH E. destruct (_ <=? _); [|inversion E2; subst; auto].
        revert H E2. generalize c at 2. intros ks. revert m. induction ks as [|k ks IH]; intros m H E; cbn [add_equiv_keys] in E; [inversion E; subst; auto|].
        apply bind_ok in E. destruct E as (m3 & E3 & E). apply bind_ok in E. destruct E as (m4 & E4 & E). apply (IH m4); auto. clear IH E.
        assert (H3 : forall v a, nth_error m3 v = Some a -> a_bud a = None).
        { eapply U; [|exact E3|exact H]. intros a a' Ea. inversion Ea; auto. }
        clear E3 H. revert m3 E4 H3. generalize c. intros ls. induction ls as [|x ls IH]; intros m3 E H; cbn [add_entries] in E; [inversion E; subst; auto|].
        apply bind_ok in E. destruct E as (m5 & E5 & E). apply (IH m5); auto. destruct (k =? x); [inversion E5; subst; auto|].
        eapply U; [|exact E5|exact H]. apply AL. }
    clear E1. revert m1 E2 H0. induction backbones as [|x r IH]; intros m1 E H; cbn [add_backbones] in E; [inversion E; subst; auto|].
    apply bind_ok in E. destruct E as (m2 & E2 & E). apply (IH m2); auto.
    eapply U; [|exact E2|exact H]. intros a a' Ea. apply AL in Ea. auto. }
  assert (HS : same_adv m0 m) by (apply adv_reach_same; auto).
  assert (NB' : forall v a, nth_error m v = Some a -> a_bud a = None).
  { clear - HA NB. assert (K : forall a i, a_bud a = None -> used a i = a) by (intros a i E; unfold used; rewrite E; auto).
    induction HA as [|m g1 g2 t v ready bb r b' H IH E]; auto.
    assert (HL : forall k j lvl c a q a1, advice_loop k j lvl t c a = Ok (Some (q, a1)) -> exists i, a1 = used a i).
    { induction k as [|k IHk]; intros j lvl c a q a1; cbn [advice_loop]; [discriminate|].
      destruct (nvt t <=? _); [discriminate|]. destruct (_ && _ && _); [|apply IHk]. intros E0. inversion E0; subst. eauto. }
    assert (SN : forall v a m, nth_error m v = Some a -> (forall v a, nth_error m v = Some a -> a_bud a = None) ->
      forall i, set_nth v (used a i) m = m).
    { intros w a mm Ha Hm i. rewrite K by (eapply Hm; eauto). apply set_nth_id; auto. }
    assert (SC : forall cs x m', advice_scan t cs m = Ok (x, m') -> m' = m).
    { induction cs as [|c cs IHc]; intros x m'; cbn [advice_scan]; [intros E0; inversion E0; auto|].
      destruct (nth_error m (lvar c)) as [a|] eqn:Ea; [|apply IHc]. destruct (a_bb a); [apply IHc|].
      intros E0. apply bind_ok in E0. destruct E0 as ([[q a1]|] & E2 & E0); [|apply (IHc _ _ E0)].
      inversion E0; subst. apply HL in E2. destruct E2 as (i & ->). apply SN; auto. }
    assert (EB : rs_adv A b' = m).
    { revert E. unfold rs_pick. cbn [rs_ready rs_adv rs_vsids rs_bb]. destruct ready.
      - intros E. apply bind_ok in E. destruct E as ([x m1] & E1 & E).
        assert (S1 : m1 = m).
        { destruct g1; [|inversion E1; subst; auto]. unfold getAdvice in E1. destruct (lim t); [inversion E1; auto|]. apply (SC _ _ _ E1). }
        subst m1. destruct x as [p|]; [inversion E; subst; auto|].
        apply bind_ok in E. destruct E as ([y w] & E2 & E). destruct y as [p|]; [|inversion E; subst; auto].
        destruct g2; [|inversion E; subst; auto]. unfold getSignAdvice in E.
        destruct (nth_error m (lvar p)) as [a|] eqn:Ea; [|inversion E; subst; auto].
        destruct (_ && _); inversion E; subst; auto. apply SN; auto.
      - intros E. apply bind_ok in E. destruct E as ([y w] & E2 & E). inversion E; subst. auto. }
    rewrite EB. auto. }
  destruct (nth_error m (lvar l)) as [a|] eqn:Ea.
  2:{ apply nth_error_None in Ea. destruct HS as [HL _]. apply nth_error_lt in Ha0. unfold var in *. lia. }
  destruct (proj2 HS _ _ Ea) as (a' & Ha' & E1' & E2'). rewrite Ha0 in Ha'. inversion Ha'; subst a'.
  unfold getSignAdvice. rewrite lvar_mk, Ea, E2', E1', El, Eb. unfold canUse. rewrite (NB' _ _ Ea). reflexivity.
Qed.
Lemma rs_pick_keeps g1 g2 t b r b' : rs_pick A g1 g2 t b = Ok (r, b') -> rs_ready A b' = rs_ready A b /\ rs_bb A b' = rs_bb A b.
Proof.
  unfold rs_pick. destruct (rs_ready A b) eqn:ER.
  - intros E. apply bind_ok in E. destruct E as ([x m] & E1 & E). destruct x as [p|]; [inversion E; subst; auto|].
    apply bind_ok in E. destruct E as ([y v] & EV & E). destruct y as [p|]; [|inversion E; subst; auto].
    destruct (if g2 then _ else _) as [q m1]. inversion E; subst; auto.
  - intros E. apply bind_ok in E. destruct E as ([y v] & EV & E). inversion E; subst; auto.
Qed.
Lemma rs_pick_good_flags ext okamt d0 ph t v maxSize budgets equivs backbones n m0 m ready bb g1 g2 :
  vs_reach A ext okamt d0 ph t v -> ph <> Stale ->
  2 <= maxSize -> good_conjectures n equivs backbones -> n <= nvt t ->
  adv_init maxSize budgets equivs backbones n = Ok m0 -> adv_reach A m0 m ->
  exists r b', rs_pick A g1 g2 t (mkRSIL A v m ready bb) = Ok (r, b') /\ good_pick t r /\
    ((rs_vsids A b' = v /\ r <> None) \/
     exists r0, vs_pick A t v = Ok (r0, rs_vsids A b') /\ option_map lvar r = option_map lvar r0) /\
    rs_ready A b' = ready /\ rs_bb A b' = bb.
Proof.
  intros H1 H2 H3 H4 H5 H6 H7. destruct (rs_pick_good ext okamt d0 ph t v maxSize budgets equivs backbones n m0 m ready bb g1 g2 H1 H2 H3 H4 H5 H6 H7) as (r & b' & E & G1 & G2).
  exists r, b'. destruct (rs_pick_keeps _ _ _ _ _ _ E) as [K1 K2]. auto.
Qed.
End RSIL.
