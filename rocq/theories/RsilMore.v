Require Import List Arith Bool NArith ZArith Lia.
Require Import Verif.Base Verif.Outcome Verif.CNFModel Verif.CNFProofs Verif.TrailModel Verif.TrailSpec Verif.TrailProofs Verif.TrailLemmas.
Require Import Verif.HeapModel Verif.HeapProofs Verif.BranchModel Verif.BranchSpec Verif.BranchProofs Verif.BranchAdvice Verif.SimModel Verif.RsilModel Verif.RsilSpec Verif.RsilVan Verif.RsilPick Verif.RsilBudget Verif.RsilBudgetRun.
Import ListNotations.

(** ** Forgetting the budgets *)
Definition erase (a : advice) : advice := mkAdv (a_lits a) (a_bb a) None.
Lemma erase_used a i : erase (used a i) = erase a.
Proof. unfold erase. destruct (used_same a i) as [-> ->]. auto. Qed.
Lemma used_erase a i : used (erase a) i = erase a. Proof. reflexivity. Qed.
Lemma map_set {B C} (f : B -> C) v x : forall m, map f (set_nth v x m) = set_nth v (f x) (map f m).
Proof. intros m. apply nth_ext_error. intros i. rewrite nth_error_map, !set_nth_nth, nth_error_map, map_length. destruct ((i =? v) && _); auto. Qed.
Lemma erase_set m v a i : nth_error m v = Some a -> map erase (set_nth v (used a i) m) = map erase m.
Proof.
  intros H. rewrite map_set, erase_used. apply nth_ext_error. intros j. rewrite set_nth_nth, map_length. destruct (Nat.eqb_spec j v) as [->|]; cbn [andb]; auto.
  rewrite nth_error_map, H. destruct (v <? length m); auto.
Qed.
Lemma set_erase m v a : nth_error m v = Some a -> set_nth v (erase a) (map erase m) = map erase m.
Proof.
  intros H. apply nth_ext_error. intros j. rewrite set_nth_nth, map_length. destruct (Nat.eqb_spec j v) as [->|]; cbn [andb]; auto.
  rewrite nth_error_map, H. destruct (v <? length m); auto.
Qed.
Lemma erase_budgets B m : map erase (set_budgets B m) = map erase m.
Proof. unfold set_budgets. rewrite map_map. apply map_ext. auto. Qed.

Lemma loop_erase t c a lvl : (forall i, i < length (a_lits a) -> canUse a i = true) -> forall k j x, k <= length (a_lits a) -> advice_loop k j lvl t c a = Ok x ->
  advice_loop k j lvl t c (erase a) = Ok (match x with Some (q, _) => Some (q, erase a) | None => None end).
Proof.
  intros HC. induction k as [|k IH]; intros j x Hk; cbn [advice_loop]; [intros E; inversion E; auto|].
  cbn [erase a_lits]. destruct (nvt t <=? _); [discriminate|].
  rewrite (HC ((lvl + j) mod length (a_lits a))) by (apply Nat.mod_upper_bound; lia).
  change (canUse (erase a) ((lvl + j) mod length (a_lits a))) with true.
  destruct (_ && _ && true); intros E1; [inversion E1; auto|]. apply (IH (S j) x ltac:(lia) E1).
Qed.
Lemma usable a b : a_bud a = Some b -> (forall i, i < length (a_lits a) -> (1 <= nth i b 0)%Z) -> forall i, i < length (a_lits a) -> canUse a i = true.
Proof. intros E H i Hi. unfold canUse. rewrite E. apply Z.ltb_lt. specialize (H i Hi). lia. Qed.
Lemma scan_erase t : forall cs m x m', nneg 1 m -> advice_scan t cs m = Ok (x, m') -> advice_scan t cs (map erase m) = Ok (x, map erase m).
Proof.
  induction cs as [|c cs IH]; intros m x m' HN; cbn [advice_scan].
  - intros E. inversion E; subst. auto.
  - rewrite nth_error_map. destruct (nth_error m (lvar c)) as [a|] eqn:Ea; cbn [option_map]; [|apply IH; auto]. change (a_bb (erase a)) with (a_bb a). change (a_lits (erase a)) with (a_lits a).
    destruct (a_bb a) eqn:Eb; [apply IH; auto|]. intros E. apply bind_ok in E. destruct E as (y & E1 & E).
    destruct (HN _ _ Ea) as (bu & EB & HL & HB). rewrite (loop_erase _ _ _ _ (usable a bu EB HB) _ _ _ (le_n _) E1). cbn [bind].
    destruct y as [[q a1]|]; [|apply (IH _ _ _ HN E)]. inversion E; subst. rewrite set_erase; auto.
Qed.
Lemma nneg_weak k k' m : (k' <= k)%Z -> nneg k m -> nneg k' m.
Proof. intros Hk H v a Ha. destruct (H v a Ha) as (b & E & L & N). exists b. split; [auto|]. split; [auto|]. intros i Hi. specialize (N i Hi). lia. Qed.

(** building *)
Lemma upd_erase v f m m' : adv_upd v f m = Ok m' -> (forall a a', f a = Ok a' -> f (erase a) = Ok (erase a')) -> adv_upd v f (map erase m) = Ok (map erase m').
Proof.
  unfold adv_upd. rewrite nth_error_map. destruct (nth_error m v) as [a|]; [|discriminate]. cbn [oget bind option_map]. intros E H. apply bind_ok in E. destruct E as (a1 & E1 & E). inversion E; subst.
  rewrite (H _ _ E1). cbn [bind]. rewrite map_set. auto.
Qed.
Lemma add_erase k l a a' : addLiteral k l a = Ok a' -> addLiteral k l (erase a) = Ok (erase a').
Proof. unfold addLiteral. cbn [erase a_lits a_bb a_bud]. destruct (_ <? _); [|discriminate]. intros E. inversion E; auto. Qed.
Lemma entries_erase k key ls : forall m m', add_entries k key ls m = Ok m' -> add_entries k key ls (map erase m) = Ok (map erase m').
Proof.
  induction ls as [|e r IH]; intros m m' E; cbn [add_entries] in *; [inversion E; auto|]. apply bind_ok in E. destruct E as (m1 & E1 & E).
  destruct (key =? e); [inversion E1; subst; cbn [bind]; auto|]. rewrite (upd_erase _ _ _ _ E1) by (intros; apply add_erase; auto). cbn [bind]. auto.
Qed.
Lemma keys_erase k all keys : forall m m', add_equiv_keys k all keys m = Ok m' -> add_equiv_keys k all keys (map erase m) = Ok (map erase m').
Proof.
  induction keys as [|x r IH]; intros m m' E; cbn [add_equiv_keys] in *; [inversion E; auto|]. apply bind_ok in E. destruct E as (m0 & E0 & E). apply bind_ok in E. destruct E as (m1 & E1 & E).
  rewrite (upd_erase _ _ _ _ E0) by (intros a a' X; inversion X; auto). cbn [bind]. rewrite (entries_erase _ _ _ _ _ E1). cbn [bind]. auto.
Qed.
Lemma equivs_erase k cs : forall m m', add_equivs k cs m = Ok m' -> add_equivs k cs (map erase m) = Ok (map erase m').
Proof.
  induction cs as [|c r IH]; intros m m' E; cbn [add_equivs] in *; [inversion E; auto|]. apply bind_ok in E. destruct E as (m1 & E1 & E).
  destruct (_ <=? _); [rewrite (keys_erase _ _ _ _ _ E1)|inversion E1; subst]; cbn [bind]; auto.
Qed.
Lemma backbones_erase k bs : forall m m', add_backbones k bs m = Ok m' -> add_backbones k bs (map erase m) = Ok (map erase m').
Proof.
  induction bs as [|c r IH]; intros m m' E; cbn [add_backbones] in *; [inversion E; auto|]. apply bind_ok in E. destruct E as (m1 & E1 & E).
  rewrite (upd_erase _ _ _ _ E1) by (intros a a' X; apply (add_erase _ _ _ _ X)). cbn [bind]. auto.
Qed.
Lemma map_repeat' {B C} (f : B -> C) x n : map f (repeat x n) = repeat (f x) n.
Proof. induction n; cbn; congruence. Qed.
Lemma init_erase k cls bbs n m : adv_init k true cls bbs n = Ok m -> adv_init k false cls bbs n = Ok (map erase m).
Proof.
  unfold adv_init. intros E. apply bind_ok in E. destruct E as (m1 & E1 & E). apply equivs_erase in E1. rewrite map_repeat' in E1. change (erase (adv_new (Some (k - 1)))) with (adv_new None) in E1.
  rewrite E1. cbn [bind]. apply backbones_erase. auto.
Qed.

Section Numbers.
Variable A : arith.
Lemma pick_erase t v m ready bb r b' : nneg 1 m -> rs_pick A true true t (mkRSIL A v m ready bb) = Ok (r, b') ->
  exists b2, rs_pick A true true t (mkRSIL A v (map erase m) ready bb) = Ok (r, b2) /\ rs_adv A b2 = map erase m /\ rs_ready A b2 = ready /\ rs_bb A b2 = bb.
Proof.
  intros HN. unfold rs_pick. cbn [rs_ready rs_adv rs_vsids rs_bb]. destruct ready.
  2:{ intros E. apply bind_ok in E. destruct E as ([y w] & E2 & E). inversion E; subst. rewrite E2. cbn [bind]. eauto. }
  intros E. apply bind_ok in E. destruct E as ([x m1] & E1 & E).
  assert (EA : getAdvice t (map erase m) = Ok (x, map erase m) /\ (x = None -> m1 = m)).
  { unfold getAdvice in *. destruct (lim t) as [|z zs] eqn:EL; [inversion E1; auto|]. split; [apply (scan_erase _ _ _ _ _ HN E1)|].
    intros ->. destruct (scan_used _ _ _ _ _ E1) as [[_ ->]|(q & ? & ? & ? & X & _)]; [auto|discriminate]. }
  destruct EA as [-> EM]. cbn [bind]. destruct x as [p|]; [inversion E; subst; eauto|]. rewrite (EM eq_refl) in *.
  apply bind_ok in E. destruct E as ([y w] & E2 & E). rewrite E2. cbn [bind]. destruct y as [p|]; [|inversion E; subst; eauto].
  unfold getSignAdvice in *. rewrite nth_error_map. destruct (nth_error m (lvar p)) as [a|] eqn:Ea; cbn [option_map]; [|inversion E; subst; eauto].
  cbn [erase a_bb a_lits canUse a_bud]. rewrite andb_true_r.
  destruct (bb && a_bb a && (length (a_lits a) =? 1)) eqn:EE; cbn [andb] in *; [|inversion E; subst; eauto].
  apply andb_true_iff in EE. destruct EE as [_ EL]. apply Nat.eqb_eq in EL. destruct (HN _ _ Ea) as (bu & EB & HL & HB). rewrite (usable a bu EB HB) in E by lia.
  inversion E; subst; clear E. eexists. split; [reflexivity|]. cbn [rs_adv rs_ready rs_bb]. split; [|auto]. change (used (mkAdv (a_lits a) (a_bb a) None) 0) with (erase a). apply set_erase; auto.
Qed.
Lemma budget_full e b : forall calls k h g rs h', tab_ok e b (rs_adv A (h_core h)) -> nneg k (rs_adv A (h_core h)) -> (Z.of_nat (length calls) <= k)%Z ->
  rs_adv A (h_core g) = map erase (rs_adv A (h_core h)) -> rs_ready A (h_core g) = rs_ready A (h_core h) -> rs_bb A (h_core g) = rs_bb A (h_core h) ->
  h_picks A Budgeted calls h = Ok (rs, h') -> exists g', h_picks A Unrestricted calls g = Ok (rs, g').
Proof.
  induction calls as [|[t v] calls IH]; intros k h g rs h' HT HN HK G1 G2 G3 E; cbn [h_picks] in *; [inversion E; subst; eauto|].
  apply bind_ok in E. destruct E as ([r h1] & E1 & E). apply bind_ok in E. destruct E as ([rs1 h2] & E2 & E). inversion E; subst; clear E. cbn [length] in HK.
  destruct (h_pick_budget _ _ _ _ _ _ E1) as (b' & EP & EC). unfold core_at in EP.
  assert (HN1 : nneg 1 (rs_adv A (h_core h))) by (apply (nneg_weak k); [lia|auto]).
  destruct (pick_erase _ _ _ _ _ _ _ HN1 EP) as (b2 & EP2 & B1 & B2 & B3).
  unfold h_pick at 1. rewrite G1, G2, G3, EP2. cbn [bind].
  destruct (rs_pick_flags _ _ _ _ _ _ _ EP) as [F1 F2]. cbn [rs_ready rs_bb] in F1, F2.
  assert (HC : map erase (rs_adv A b') = map erase (rs_adv A (h_core h)) /\ nneg (k - 1) (rs_adv A b')).
  { destruct (pick_used A e b _ _ _ _ _ _ _ _ _ HT EP) as [[_ ->]|(q & w & a & i & _ & HA & HI & -> & _ & HCU)].
    - split; auto. apply (nneg_weak k); [lia|auto].
    - split; [apply erase_set; auto|]. apply nneg_used; auto. left. replace (k - 1 + 1)%Z with k by lia. auto. }
  destruct HC as [HC1 HC2].
  assert (HT1 : tab_ok e b (rs_adv A b')) by (eapply tab_ok_same; [exact HT|eapply rs_pick_same; eauto]).
  destruct (IH (k - 1)%Z h1 (mkHeur b2 (h_blocked g) (h_van g)) rs1 h') as (g' & EG); cbn [h_core]; try rewrite EC; auto; try congruence; [lia|].
  rewrite EG. cbn [bind]. eauto.
Qed.
(** the picks are defined and legal *)
Lemma h_picks_good k n maxSize budgets cls bbs m0 : 2 <= maxSize -> good_conjectures n cls bbs -> adv_init maxSize budgets cls bbs n = Ok m0 ->
  forall calls h, searching A n calls -> (exists m1, same_adv m0 m1 /\ same_adv m1 (rs_adv A (h_core h))) ->
  exists rs h', h_picks A k calls h = Ok (rs, h') /\ Forall2 (fun c r => good_pick (fst c) r /\ (option_map lvar r = option_map lvar (vsids_pick A c) \/ r <> None)) calls rs.
Proof.
  intros H2 HG EI.
  assert (P : forall t v h g1 g2, n <= nvt t -> (exists ext okamt d0 ph, vs_reach A ext okamt d0 ph t v /\ ph <> Stale) -> same_adv m0 (rs_adv A (h_core h)) ->
    exists r b', rs_pick A g1 g2 t (core_at A h v) = Ok (r, b') /\ good_pick t r /\ (option_map lvar r = option_map lvar (vsids_pick A (t, v)) \/ r <> None) /\ same_adv m0 (rs_adv A b')).
  { intros t v h g1 g2 Hn (ext & okamt & d0 & ph & HR & Hp) HS.
    assert (HP := rs_pick_good A ext okamt d0 ph t v maxSize budgets cls bbs n m0). 
    destruct (adv_init_spec cls bbs maxSize budgets n H2 HG) as (m1 & E1 & L1 & T1 & _). rewrite EI in E1. inversion E1; subst m1.
    assert (HT : tab_ok cls bbs (rs_adv A (h_core h))) by (eapply tab_ok_same; eauto).
    clear HP. unfold core_at.
    destruct (vs_pick_spec A ph t v (vs_reach_inv _ _ _ _ _ _ _ HR) Hp) as (r0 & v' & EV & GV & _).
    assert (EVS : vsids_pick A (t, v) = r0) by (unfold vsids_pick; cbn [fst snd]; rewrite EV; auto). rewrite EVS.
    assert (D : exists r b', rs_pick A g1 g2 t (mkRSIL A v (rs_adv A (h_core h)) (rs_ready A (h_core h)) (rs_bb A (h_core h))) = Ok (r, b') /\ good_pick t r /\ (option_map lvar r = option_map lvar r0 \/ r <> None)).
    { set (m := rs_adv A (h_core h)) in *. unfold rs_pick. cbn [rs_ready rs_adv rs_vsids rs_bb]. rewrite EV. destruct (rs_ready A (h_core h)).
      2:{ cbn [bind]. eexists; eexists. split; [reflexivity|]. auto. }
      assert (Hadv : exists x m', (if g1 then getAdvice t m else Ok (None, m)) = Ok (x, m') /\ same_adv m m' /\
         forall q, x = Some q -> lvar q < nvt t /\ vvalue t (lvar q) = None /\ isDecisionVar (lvar q) t = true).
      { destruct g1.
        - destruct (getAdvice_spec cls bbs n t m HG Hn HT) as (x & m' & E & S & Q). exists x, m'. split; [auto|]. split; [auto|].
          intros q Hq. destruct (Q q Hq) as (Q1 & Q2 & Q3 & _). auto.
        - exists None, m. split; [auto|]. split; [apply same_adv_refl|]. discriminate. }
      destruct Hadv as (x & m' & -> & S & Q). cbn [bind]. destruct x as [q|].
      - destruct (Q q eq_refl) as (Q1 & Q2 & Q3). eexists; eexists. split; [reflexivity|]. split; [|right; discriminate]. cbn [good_pick]. split; [auto|]. split; [apply value_var; auto|auto].
      - destruct r0 as [p|].
        + pose proof (getSignAdvice_spec cls bbs (rs_bb A (h_core h)) p m' (tab_ok_same _ _ _ _ HT S)) as [GS _].
          destruct (getSignAdvice (rs_bb A (h_core h)) p m') as [q m2] eqn:EG. cbn [fst] in GS.
          assert (HQ : exists q' m3, (if g2 then (q, m2) else (p, m')) = (q', m3) /\ lvar q' = lvar p) by (destruct g2; eauto).
          destruct HQ as (q' & m3 & -> & Ev). eexists; eexists. split; [reflexivity|]. split; [|right; discriminate].
          cbn [good_pick] in *. destruct GV as (G1 & G2 & G3). rewrite Ev. split; [auto|]. split; [|auto]. apply value_var. rewrite Ev. apply value_var. auto.
        + eexists; eexists. split; [reflexivity|]. auto. }
    destruct D as (r & b' & D1 & D2 & D3). exists r, b'. split; [auto|]. split; [auto|]. split; [auto|].
    eapply same_adv_trans; [exact HS|]. eapply rs_pick_same; eauto. }
  induction calls as [|[t v] calls IH]; intros h HS (m1 & S1 & S2); cbn [h_picks]; [eauto|].
  assert (HM : same_adv m0 (rs_adv A (h_core h))) by (eapply same_adv_trans; eauto).
  destruct (HS (t, v) (or_introl eq_refl)) as [Hn HR]. cbn [fst snd] in Hn, HR.
  assert (X : exists r h1, h_pick A k t v h = Ok (r, h1) /\ good_pick t r /\ (option_map lvar r = option_map lvar (vsids_pick A (t, v)) \/ r <> None) /\ same_adv m0 (rs_adv A (h_core h1))).
  { unfold h_pick. fold (core_at A h v). destruct k.
    - destruct (P t v h true true Hn HR HM) as (r & b' & E & Q1 & Q2 & Q3). rewrite E. cbn [bind]. eauto 10.
    - destruct (P t v h (fst (makeRSILDecision (h_van h))) (fst (makeRSILDecision (snd (makeRSILDecision (h_van h))))) Hn HR HM) as (r & b' & E & Q1 & Q2 & Q3).
      destruct (van_pick_defined A _ _ _ _ _ E) as (s' & ES). rewrite ES. cbn [bind]. eauto 10.
    - destruct (P t v h true true Hn HR HM) as (r & b' & E & Q1 & Q2 & Q3). rewrite E. cbn [bind]. eauto 10. }
  destruct X as (r & h1 & E1 & Q1 & Q2 & Q3). rewrite E1. cbn [bind].
  destruct (IH h1) as (rs & h2 & E2 & F2); [intros c Hc; apply HS; right; auto|exists m0; split; [apply same_adv_refl|auto]|]. rewrite E2. cbn [bind]. eexists; eexists. split; [reflexivity|]. constructor; auto.
Qed.
End Numbers.
