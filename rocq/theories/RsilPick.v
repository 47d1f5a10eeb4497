Require Import List Arith Bool NArith ZArith Lia.
Require Import Verif.Base Verif.Outcome Verif.CNFModel Verif.CNFProofs Verif.TrailModel Verif.TrailSpec Verif.TrailProofs Verif.TrailLemmas.
Require Import Verif.HeapModel Verif.HeapProofs Verif.BranchModel Verif.BranchSpec Verif.BranchProofs Verif.BranchAdvice Verif.SimModel Verif.RsilModel Verif.RsilSpec Verif.RsilVan.
Import ListNotations.

Section Numbers.
Variable A : arith.

Lemma van_pick_rs t b s r b' s' : van_pick A t b s = Ok (r, b', s') -> exists g1 g2,
  rs_pick A g1 g2 t b = Ok (r, b') /\
  (rs_ready A b = true -> g1 = fst (makeRSILDecision s) /\ g2 = fst (makeRSILDecision (snd (makeRSILDecision s))) /\
     (s' = snd (makeRSILDecision s) \/ s' = snd (makeRSILDecision (snd (makeRSILDecision s))))).
Proof.
  unfold van_pick, rs_pick. destruct (rs_ready A b) eqn:ER.
  2:{ intros E. apply bind_ok in E. destruct E as ([y v] & E1 & E). inversion E; subst. exists true, true. rewrite E1. cbn [bind]. split; [auto|discriminate]. }
  destruct (makeRSILDecision s) as [g1 s1] eqn:E1. cbn [fst snd]. destruct (makeRSILDecision s1) as [g2 s2] eqn:E2. cbn [fst snd].
  intros E. exists g1, g2. apply bind_ok in E. destruct E as ([x m] & EA & E). rewrite EA. cbn [bind]. destruct x as [p|].
  { inversion E; subst. auto. }
  apply bind_ok in E. destruct E as ([y v] & EV & E). rewrite EV. cbn [bind]. destruct y as [p|]; [|inversion E; subst; auto].
  destruct (if g2 then _ else _) as [q m1]. inversion E; subst. auto.
Qed.
Lemma van_pick_defined t b s r b' : rs_pick A (fst (makeRSILDecision s)) (fst (makeRSILDecision (snd (makeRSILDecision s)))) t b = Ok (r, b') -> exists s', van_pick A t b s = Ok (r, b', s').
Proof.
  unfold van_pick, rs_pick. destruct (makeRSILDecision s) as [g1 s1] eqn:E1. cbn [fst snd]. destruct (makeRSILDecision s1) as [g2 s2] eqn:E2. cbn [fst snd].
  destruct (rs_ready A b) eqn:ER.
  2:{ intros E. apply bind_ok in E. destruct E as ([y v] & EV & E). inversion E; subst. rewrite EV. cbn [bind]. eauto. }
  intros E. apply bind_ok in E. destruct E as ([x m] & EA & E). rewrite EA. cbn [bind]. destruct x as [p|]; [inversion E; subst; eauto|].
  apply bind_ok in E. destruct E as ([y v] & EV & E). rewrite EV. cbn [bind]. destruct y as [p|]; [|inversion E; subst; eauto].
  destruct (if g2 then _ else _) as [q m1]. inversion E; subst. eauto.
Qed.
Lemma rs_pick_off t b r b' : rs_pick A false false t b = Ok (r, b') ->
  r = vsids_pick A (t, rs_vsids A b) /\ rs_adv A b' = rs_adv A b.
Proof.
  unfold rs_pick, vsids_pick. cbn [fst snd]. destruct (rs_ready A b); cbn [bind].
  - intros E. apply bind_ok in E. destruct E as ([y v] & E1 & E). rewrite E1. destruct y; inversion E; subst; auto.
  - intros E. apply bind_ok in E. destruct E as ([y v] & E1 & E). rewrite E1. inversion E; subst; auto.
Qed.
Lemma rs_pick_flags g1 g2 t b r b' : rs_pick A g1 g2 t b = Ok (r, b') -> rs_ready A b' = rs_ready A b /\ rs_bb A b' = rs_bb A b.
Proof.
  unfold rs_pick. destruct (rs_ready A b) eqn:ER.
  - intros E. apply bind_ok in E. destruct E as ([x m] & EA & E). destruct x as [p|]; [inversion E; subst; auto|].
    apply bind_ok in E. destruct E as ([y v] & EV & E). destruct y as [p|]; [|inversion E; subst; auto].
    destruct (if g2 then _ else _) as [q m1]. inversion E; subst; auto.
  - intros E. apply bind_ok in E. destruct E as ([y v] & EV & E). inversion E; subst; auto.
Qed.

(** the state of the schedule after [j] calls *)
Fixpoint van_after (j : nat) (s : vanish) : vanish := match j with 0 => s | S j => van_after j (snd (makeRSILDecision s)) end.
Lemma van_after_S j : forall s, van_after (S j) s = snd (makeRSILDecision (van_after j s)).
Proof. induction j as [|j IH]; intros s; [reflexivity|]. change (van_after (S (S j)) s) with (van_after (S j) (snd (makeRSILDecision s))). rewrite IH. reflexivity. Qed.
Lemma decisions_nth k : forall j s, j < k -> nth j (decisions k s) false = fst (makeRSILDecision (van_after j s)).
Proof. induction k as [|k IH]; intros j s H; [lia|]. cbn [decisions]. destruct j as [|j]; [reflexivity|]. cbn [nth van_after]. apply IH. lia. Qed.

Definition core_at (h : heur A) (v : vsids A) : rsil A := mkRSIL A v (rs_adv A (h_core h)) (rs_ready A (h_core h)) (rs_bb A (h_core h)).

Lemma h_pick_flags k t v h r h' : h_pick A k t v h = Ok (r, h') -> rs_ready A (h_core h') = rs_ready A (h_core h) /\ rs_bb A (h_core h') = rs_bb A (h_core h) /\ h_blocked h' = h_blocked h.
Proof.
  unfold h_pick. fold (core_at h v). destruct k; intros E.
  - apply bind_ok in E. destruct E as ([x b] & E1 & E). inversion E; subst. destruct (rs_pick_flags _ _ _ _ _ _ E1). auto.
  - apply bind_ok in E. destruct E as ([[x b] s] & E1 & E). inversion E; subst. destruct (van_pick_rs _ _ _ _ _ _ E1) as (g1 & g2 & E2 & _). destruct (rs_pick_flags _ _ _ _ _ _ E2). auto.
  - apply bind_ok in E. destruct E as ([x b] & E1 & E). inversion E; subst. destruct (rs_pick_flags _ _ _ _ _ _ E1). auto.
Qed.
Lemma van_h_pick t v h r h' : h_pick A Vanishing t v h = Ok (r, h') -> rs_ready A (h_core h) = true -> exists b',
  rs_pick A (fst (makeRSILDecision (h_van h))) (fst (makeRSILDecision (van_after 1 (h_van h)))) t (core_at h v) = Ok (r, b') /\
  h_core h' = b' /\ (h_van h' = van_after 1 (h_van h) \/ h_van h' = van_after 2 (h_van h)).
Proof.
  intros E ER. unfold h_pick in E. fold (core_at h v) in E. apply bind_ok in E. destruct E as ([[x b] s] & E1 & E). inversion E; subst.
  destruct (van_pick_rs _ _ _ _ _ _ E1) as (g1 & g2 & E2 & E3). destruct (E3 ER) as (-> & -> & E4). exists b. auto.
Qed.
(** the number of calls made in a sequence of picks *)
Lemma van_calls calls : forall h rs h', h_picks A Vanishing calls h = Ok (rs, h') -> rs_ready A (h_core h) = true ->
  exists j, h_van h' = van_after j (h_van h) /\ length calls <= j <= 2 * length calls.
Proof.
  induction calls as [|[t v] calls IH]; intros h rs h' E ER; cbn [h_picks] in E.
  - inversion E; subst. exists 0. cbn. auto.
  - apply bind_ok in E. destruct E as ([r h1] & E1 & E). apply bind_ok in E. destruct E as ([rs1 h2] & E2 & E). inversion E; subst.
    destruct (h_pick_flags _ _ _ _ _ _ E1) as (F1 & _ & _). destruct (IH _ _ _ E2) as (j & EJ & HJ); [congruence|].
    destruct (van_h_pick _ _ _ _ _ E1 ER) as (b' & _ & _ & [EV|EV]); rewrite EV in EJ.
    + exists (S j). split; [exact EJ|]. cbn [length]. lia.
    + exists (S (S j)). split; [exact EJ|]. cbn [length]. lia.
Qed.
Lemma h_picks_app k c1 : forall c2 h rs h', h_picks A k (c1 ++ c2) h = Ok (rs, h') ->
  exists r1 r2 h1, h_picks A k c1 h = Ok (r1, h1) /\ h_picks A k c2 h1 = Ok (r2, h') /\ rs = r1 ++ r2 /\ length r1 = length c1.
Proof.
  induction c1 as [|[t v] c1 IH]; intros c2 h rs h' E; cbn [app h_picks] in *.
  - exists [], rs, h. auto.
  - apply bind_ok in E. destruct E as ([r h1] & E1 & E). apply bind_ok in E. destruct E as ([rs1 h2] & E2 & E). inversion E; subst.
    destruct (IH _ _ _ _ E2) as (r1 & r2 & h3 & H1 & H2 & -> & HL). exists (r :: r1), r2, h3. rewrite E1. cbn [bind]. rewrite H1. cbn [bind length]. auto.
Qed.
Lemma h_picks_flags k calls : forall h rs h', h_picks A k calls h = Ok (rs, h') -> rs_ready A (h_core h') = rs_ready A (h_core h) /\ rs_bb A (h_core h') = rs_bb A (h_core h).
Proof.
  induction calls as [|[t v] calls IH]; intros h rs h' E; cbn [h_picks] in E; [inversion E; subst; auto|].
  apply bind_ok in E. destruct E as ([r h1] & E1 & E). apply bind_ok in E. destruct E as ([rs1 h2] & E2 & E). inversion E; subst.
  destruct (h_pick_flags _ _ _ _ _ _ E1) as (F1 & F2 & _). destruct (IH _ _ _ E2). split; congruence.
Qed.
Lemma h_picks_length k calls : forall h rs h', h_picks A k calls h = Ok (rs, h') -> length rs = length calls.
Proof.
  induction calls as [|[t v] calls IH]; intros h rs h' E; cbn [h_picks] in E; [inversion E; subst; auto|].
  apply bind_ok in E. destruct E as ([r h1] & E1 & E). apply bind_ok in E. destruct E as ([rs1 h2] & E2 & E). inversion E; subst. cbn. f_equal. eauto.
Qed.

(** once vanished: plain VSIDS *)
Lemma gone half : (1 <= half < 2 ^ 64)%N -> forall s first, (0 < s < 2 ^ 64)%N -> (1 <= first < 2 ^ 64)%N ->
  forall calls h rs h' i c, h_picks A Vanishing calls h = Ok (rs, h') -> rs_ready A (h_core h) = true -> h_van h = mkVan s first half 0 ->
  (first + 63 * half <= N.of_nat i)%N -> nth_error calls i = Some c -> nth_error rs i = Some (vsids_pick A c).
Proof.
  intros Hh s first Hs Hf calls h rs h' i [t v] E ER EV Hi Hc.
  apply nth_error_split in Hc. destruct Hc as (c1 & c2 & -> & HL).
  destruct (h_picks_app _ _ _ _ _ _ E) as (r1 & r2 & h1 & E1 & E2 & -> & HL1). cbn [h_picks] in E2.
  apply bind_ok in E2. destruct E2 as ([r h2] & E2 & E3). apply bind_ok in E3. destruct E3 as ([rs1 h3] & E3 & E4). inversion E4; subst r2 h3; clear E4.
  rewrite nth_error_app2 by lia. replace (i - length r1) with 0 by lia. cbn [nth_error]. f_equal.
  destruct (van_calls _ _ _ _ E1 ER) as (j & EJ & HJ). destruct (h_picks_flags _ _ _ _ _ E1) as (F1 & _).
  destruct (van_h_pick _ _ _ _ _ E2) as (b' & EP & _ & _); [congruence|].
  assert (D : forall k, (i <= k) -> fst (makeRSILDecision (van_after k (h_van h))) = false).
  { intros k Hk. rewrite <- (decisions_nth (S k)) by lia. rewrite EV. apply vanished; auto. lia. }
  rewrite EJ in EP. rewrite D in EP by lia. cbn [van_after] in EP. rewrite <- van_after_S in EP. rewrite D in EP by lia.
  destruct (rs_pick_off _ _ _ _ EP) as [-> _]. reflexivity.
Qed.

(** before the first halving: as without restriction *)
Lemma full half : (1 <= half < 2 ^ 64)%N -> forall s first, (1 <= first < 2 ^ 64)%N ->
  forall calls h rs h', h_picks A Vanishing calls h = Ok (rs, h') -> rs_ready A (h_core h) = true -> h_van h = mkVan s first half 0 ->
  (2 * N.of_nat (length calls) <= first)%N -> exists h2, h_picks A Unrestricted calls h = Ok (rs, h2).
Proof.
  intros Hh s first Hf calls h rs h' E ER EV Hn.
  assert (G : forall calls j g g2 rs h', h_picks A Vanishing calls g = Ok (rs, h') -> rs_ready A (h_core g) = true -> h_van g = van_after j (mkVan s first half 0) ->
    (N.of_nat j + 2 * N.of_nat (length calls) <= first)%N -> h_core g2 = h_core g -> exists h2, h_picks A Unrestricted calls g2 = Ok (rs, h2)).
  2:{ apply (G calls 0 h h rs h'); auto; lia. }
  assert (D : forall k, (N.of_nat k < first)%N -> fst (makeRSILDecision (van_after k (mkVan s first half 0))) = true).
  { intros k Hk. rewrite <- (decisions_nth (S k)) by lia. rewrite schedule by (auto; lia). unfold halvings. destruct (N.ltb_spec (N.of_nat k) first); [|lia].
    change (2 ^ 0)%N with 1%N. rewrite N.mod_1_r. reflexivity. }
  clear calls h rs h' E ER EV Hn. induction calls as [|[t v] calls IH]; intros j g g2 rs h' E ER EV Hn EC; cbn [h_picks] in *.
  - inversion E; subst. eauto.
  - apply bind_ok in E. destruct E as ([r h1] & E1 & E). apply bind_ok in E. destruct E as ([rs1 h3] & E2 & E). inversion E; subst.
    destruct (van_h_pick _ _ _ _ _ E1 ER) as (b' & EP & EB & EJ). rewrite EV in EP. cbn [length] in Hn. rewrite D in EP by lia.
    cbn [van_after] in EP. rewrite <- van_after_S, D in EP by lia.
    unfold h_pick at 1. rewrite EC. fold (core_at g v). rewrite EP. cbn [bind].
    destruct (h_pick_flags _ _ _ _ _ _ E1) as (F1 & _ & _).
    assert (X : exists j', h_van h1 = van_after j' (mkVan s first half 0) /\ j' <= j + 2).
    { destruct EJ as [EJ|EJ]; rewrite EJ, EV; cbn [van_after]; rewrite <- !van_after_S; [exists (S j)|exists (S (S j))]; split; auto; lia. }
    destruct X as (j' & EJ' & HJ').
    destruct (IH j' h1 (mkHeur b' (h_blocked g2) (h_van g2)) rs1 h' E2) as (h4 & E4); [congruence|auto|lia|cbn; auto|]. rewrite E4. cbn [bind]. eauto.
Qed.
End Numbers.
