Require Import List Arith Bool NArith ZArith Lia.
Require Import Verif.Base Verif.Outcome Verif.CNFModel Verif.CNFProofs Verif.TrailModel Verif.TrailSpec.
Require Import Verif.BranchModel Verif.BranchSpec Verif.BranchProofs Verif.BranchAdvice Verif.SimModel Verif.RsilModel Verif.RsilSpec Verif.RsilVan Verif.RsilPick Verif.RsilBudget Verif.RsilBudgetRun Verif.RsilMore Verif.RsilGen.
Import ListNotations.

Section Numbers.
Variable A : arith.
Definition bud (k : kind) : bool := match k with Budgeted => true | _ => false end.
Lemma set_budgets_same B m : same_adv m (set_budgets B m).
Proof.
  split; [unfold set_budgets; rewrite map_length; auto|]. intros v a Ha. unfold set_budgets in Ha. rewrite nth_error_map in Ha. destruct (nth_error m v) as [x|]; [|discriminate]. cbn in Ha. inversion Ha; subst. eexists. split; [reflexivity|]. auto.
Qed.
Lemma init_new k maxSize B cls bbs n v v0 bb half : 2 <= maxSize -> good_conjectures n cls bbs -> exists m,
  adv_init maxSize (bud k) cls bbs n = Ok m /\ tab_ok cls bbs m /\
  h_init A k maxSize B (Ok (Some (cls, bbs))) n v (h_new A v0 bb half) =
    Ok (mkHeur (mkRSIL A v (if bud k then set_budgets B m else m) true (negb (length bbs =? 0))) true (van_new half)).
Proof.
  intros H2 HG. destruct (adv_init_spec cls bbs maxSize (bud k) n H2 HG) as (m & E & _ & T & _). exists m. split; [auto|]. split; [auto|].
  unfold h_init, h_new. cbn [h_blocked bind h_van]. fold (bud k). rewrite E. cbn [bind]. destruct k; reflexivity.
Qed.
Lemma init_none k maxSize B n v v0 bb half : h_init A k maxSize B (Ok None) n v (h_new A v0 bb half) = Ok (mkHeur (mkRSIL A v [] false bb) true (van_new half)).
Proof. unfold h_init, h_new. cbn [h_blocked h_core rs_adv rs_ready rs_bb h_van bind]. destruct k; reflexivity. Qed.

Lemma picks_ok k maxSize B cls bbs n v v0 bb half calls : 2 <= maxSize -> good_conjectures n cls bbs -> searching A n calls ->
  exists h rs h', h_init A k maxSize B (Ok (Some (cls, bbs))) n v (h_new A v0 bb half) = Ok h /\ h_picks A k calls h = Ok (rs, h') /\
  Forall2 (fun c r => good_pick (fst c) r /\ (option_map lvar r = option_map lvar (vsids_pick A c) \/ r <> None)) calls rs.
Proof.
  intros H2 HG HS. destruct (init_new k maxSize B cls bbs n v v0 bb half H2 HG) as (m & E & T & EI). eexists.
  match type of EI with _ = Ok ?h => destruct (h_picks_good A k n maxSize (bud k) cls bbs m H2 HG E calls h HS) as (rs & h' & EP & F) end.
  { exists m. split; [apply same_adv_refl|]. cbn [h_core rs_adv]. destruct (bud k); [apply set_budgets_same|apply same_adv_refl]. }
  exists rs, h'. split; [exact EI|]. auto.
Qed.
(** without conjectures: VSIDS *)
Lemma picks_none k calls : forall h rs h', rs_ready A (h_core h) = false -> h_picks A k calls h = Ok (rs, h') -> rs = map (vsids_pick A) calls.
Proof.
  induction calls as [|[t v] calls IH]; intros h rs h' HR E; cbn [h_picks] in E; [inversion E; auto|].
  apply bind_ok in E. destruct E as ([r h1] & E1 & E). apply bind_ok in E. destruct E as ([rs1 h2] & E2 & E). inversion E; subst; clear E. cbn [map].
  destruct (h_pick_flags _ _ _ _ _ _ _ E1) as (F1 & _ & _). rewrite (IH h1 rs1 h') by (auto; congruence). f_equal.
  unfold h_pick, van_pick, rs_pick in E1. cbn [rs_ready rs_vsids] in E1. rewrite HR in E1. unfold vsids_pick. cbn [fst snd].
  destruct k; apply bind_ok in E1; destruct E1 as (x & E1 & E3); apply bind_ok in E1; destruct E1 as ([y w] & E1 & E4); rewrite E1; inversion E4; subst; inversion E3; auto.
Qed.
Lemma picks_not_ready k maxSize B n v v0 bb half calls : searching A n calls ->
  exists h h', h_init A k maxSize B (Ok None) n v (h_new A v0 bb half) = Ok h /\ h_picks A k calls h = Ok (map (vsids_pick A) calls, h').
Proof.
  intros HS. rewrite init_none. eexists.
  assert (D : forall calls h, searching A n calls -> rs_ready A (h_core h) = false -> exists rs h', h_picks A k calls h = Ok (rs, h')).
  { clear. induction calls as [|[t v] calls IH]; intros h HS HR; cbn [h_picks]; [eauto|].
    destruct (HS (t, v) (or_introl eq_refl)) as (_ & ext & okamt & d0 & ph & H1 & Hp). cbn [fst snd] in H1.
    destruct (vs_pick_spec A ph t v (vs_reach_inv _ _ _ _ _ _ _ H1) Hp) as (r0 & w & EV & _).
    assert (X : exists r h1, h_pick A k t v h = Ok (r, h1)). { unfold h_pick, van_pick, rs_pick. cbn [rs_ready rs_vsids]. rewrite HR, EV. destruct k; cbn [bind]; eauto. }
    destruct X as (r & h1 & E1). rewrite E1. cbn [bind]. destruct (h_pick_flags _ _ _ _ _ _ _ E1) as (F1 & _ & _).
    destruct (IH h1) as (rs & h' & E2); [intros c Hc; apply HS; right; auto|congruence|]. rewrite E2. cbn [bind]. eauto. }
  destruct (D calls (mkHeur (mkRSIL A v [] false bb) true (van_new half)) HS eq_refl) as (rs & h' & EP). exists h'. split; [reflexivity|].
  rewrite EP. assert (X : rs = map (vsids_pick A) calls) by (eapply picks_none; [|exact EP]; reflexivity). rewrite X. reflexivity.
Qed.

Section Ready.
Variables (maxSize : nat) (cls : list (list lit)) (bbs : list lit) (n : nat) (v v0 : vsids A) (bb : bool) (half : N).
Hypothesis H2 : 2 <= maxSize.
Hypothesis HG : good_conjectures n cls bbs.
Hypothesis HH : (1 <= half < 2 ^ 64)%N.
Notation start k B := (h_init A k maxSize B (Ok (Some (cls, bbs))) n v (h_new A v0 bb half)).
Lemma vanished_picks B h calls rs h' i c : start Vanishing B = Ok h -> h_picks A Vanishing calls h = Ok (rs, h') ->
  (64 * half <= N.of_nat i)%N -> nth_error calls i = Some c -> nth_error rs i = Some (vsids_pick A c).
Proof.
  intros EI EP Hi Hc. destruct (init_new Vanishing maxSize B cls bbs n v v0 bb half H2 HG) as (m & _ & _ & E). rewrite E in EI. inversion EI; subst h; clear EI.
  eapply (gone A half HH 65535 half); [split; reflexivity|exact HH|exact EP|reflexivity|reflexivity|lia|exact Hc].
Qed.
Lemma full_picks B B' h g calls rs h' : start Vanishing B = Ok h -> start Unrestricted B' = Ok g -> h_picks A Vanishing calls h = Ok (rs, h') ->
  (2 * N.of_nat (length calls) <= half)%N -> exists g', h_picks A Unrestricted calls g = Ok (rs, g').
Proof.
  intros EI EU EP HL. destruct (init_new Vanishing maxSize B cls bbs n v v0 bb half H2 HG) as (m & EM & _ & E). rewrite E in EI. inversion EI; subst h; clear EI.
  destruct (init_new Unrestricted maxSize B' cls bbs n v v0 bb half H2 HG) as (m' & EM' & _ & E'). rewrite E' in EU. inversion EU; subst g; clear EU.
  cbn [bud] in *. rewrite EM in EM'. inversion EM'; subst m'.
  eapply (full A half HH 65535 half HH); [exact EP|reflexivity|reflexivity|lia].
Qed.
Lemma budget_picks B h calls rs h' y : start Budgeted B = Ok h -> h_picks A Budgeted calls h = Ok (rs, h') -> (B < 2 ^ 31)%N ->
  (forall c l, In c cls -> In l c -> lvar l = y -> (N.of_nat (length (overrides A y calls rs)) <= if (length c <=? maxSize)%nat then B * N.of_nat (length c - 1) else 0)%N) /\
  (forall l, In l bbs -> lvar l = y -> (N.of_nat (length (overrides A y calls rs)) <= B)%N) /\
  (~ In y (map lvar (concat cls ++ bbs)) -> overrides A y calls rs = []).
Proof.
  clear HH.
  intros EI EP HB. destruct (init_new Budgeted maxSize B cls bbs n v v0 bb half H2 HG) as (m & EM & HT & E). rewrite E in EI. inversion EI; subst h; clear EI. cbn [bud] in *.
  destruct (init_cnt maxSize y H2 cls bbs n m EM) as [RM CM]. 
  assert (ZB : to_int B = Z.of_N B). { unfold to_int. change (2 ^ 31)%N with 2147483648%N in HB. apply N.ltb_lt in HB. rewrite HB. auto. }
  pose proof (nneg_init B maxSize m RM) as N0. rewrite ZB in N0.
  assert (N1 : nneg 0 (set_budgets B m)) by (eapply nneg_weak; [|exact N0]; lia).
  match type of EP with h_picks _ _ _ ?h0 = _ => destruct (budget_run A cls bbs y calls h0 rs h' (tab_ok_same _ _ _ _ HT (set_budgets_same B m)) N1 EP) as [N2 HO] end. cbn [h_core rs_adv] in HO.
  rewrite (pot_init y B maxSize m RM), ZB, CM in HO. pose proof (pot_nonneg y _ N2) as PN.
  assert (MAIN : forall k, sumn (map (class_cnt maxSize y) cls) + cnt y bbs <= k -> (N.of_nat (length (overrides A y calls rs)) <= B * N.of_nat k)%N).
  { intros k Hk. assert (Z.of_nat (length (overrides A y calls rs)) <= Z.of_N B * Z.of_nat k)%Z by nia. nia. }
  split; [|split].
  - intros c l Hc Hl El. pose proof (MAIN _ (total_class maxSize y H2 cls bbs n c l HG Hc Hl El)) as X. destruct (length c <=? maxSize); [exact X|]. rewrite N.mul_0_r in X. exact X.
  - intros l Hl El. pose proof (MAIN _ (total_backbone maxSize y H2 cls bbs n l HG Hl El)) as X. cbn in X. lia.
  - intros HN. rewrite map_app in HN. assert (X : sumn (map (class_cnt maxSize y) cls) + cnt y bbs <= 0).
    { rewrite total_out by (intros X; apply HN, in_or_app; auto). rewrite cnt_notin by (intros X; apply HN, in_or_app; auto). lia. }
    pose proof (MAIN _ X) as Y. destruct (overrides A y calls rs); auto. cbn in Y. lia.
Qed.
Lemma budget_full_picks B B' h g calls rs h' : start Budgeted B = Ok h -> start Unrestricted B' = Ok g -> h_picks A Budgeted calls h = Ok (rs, h') -> (B < 2 ^ 31)%N ->
  (N.of_nat (length calls) <= B)%N -> exists g', h_picks A Unrestricted calls g = Ok (rs, g').
Proof.
  clear HH.
  intros EI EU EP HB HL. destruct (init_new Budgeted maxSize B cls bbs n v v0 bb half H2 HG) as (m & EM & HT & E). rewrite E in EI. inversion EI; subst h; clear EI. cbn [bud] in *.
  destruct (init_new Unrestricted maxSize B' cls bbs n v v0 bb half H2 HG) as (m' & EM' & _ & E'). rewrite E' in EU. inversion EU; subst g; clear EU. cbn [bud] in *.
  rewrite (init_erase _ _ _ _ _ EM) in EM'. inversion EM'; subst m'; clear EM'.
  destruct (init_cnt maxSize 0 H2 cls bbs n m EM) as [RM _].
  assert (ZB : to_int B = Z.of_N B). { unfold to_int. change (2 ^ 31)%N with 2147483648%N in HB. apply N.ltb_lt in HB. rewrite HB. auto. }
  pose proof (nneg_init B maxSize m RM) as N0. rewrite ZB in N0.
  match type of EP with h_picks _ _ _ ?h0 = _ => eapply (budget_full A cls bbs calls (Z.of_N B) h0) end; [apply (tab_ok_same _ _ _ _ HT (set_budgets_same B m))|exact N0|lia|cbn [h_core rs_adv]; rewrite erase_budgets; auto|auto|auto|exact EP].
Qed.
End Ready.

(** only once *)
Lemma init_again k maxSize B gen n v h : h_blocked h = true ->
  exists h2, h_init A k maxSize B gen n v h = Ok h2 /\ h_blocked h2 = true /\ h_van h2 = h_van h /\ rs_vsids A (h_core h2) = v /\
    rs_ready A (h_core h2) = rs_ready A (h_core h) /\ rs_bb A (h_core h2) = rs_bb A (h_core h) /\
    same_adv (rs_adv A (h_core h)) (rs_adv A (h_core h2)) /\ (k <> Budgeted -> rs_adv A (h_core h2) = rs_adv A (h_core h)).
Proof.
  intros HB. unfold h_init. rewrite HB. cbn [bind]. destruct k; eexists; (split; [reflexivity|]); cbn [h_blocked h_van h_core rs_vsids rs_ready rs_bb rs_adv];
    (split; [auto|]); (split; [auto|]); (split; [auto|]); (split; [auto|]); (split; [auto|]); (split; [try apply same_adv_refl; apply set_budgets_same|]); congruence.
Qed.
End Numbers.
