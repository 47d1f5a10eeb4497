Require Import List Arith Bool NArith Permutation Lia.
Require Import Verif.Base Verif.CNFModel Verif.CNFProofs Verif.Outcome Verif.TrailModel Verif.TrailSpec Verif.TrailProofs Verif.TrailLemmas Verif.DbModel Verif.PropSpec Verif.PropModel
  Verif.PropProofs Verif.DbProofs Verif.SimpModel Verif.SubsProofs Verif.SimpProofs Verif.SimpSpec Verif.SimpLemmas Verif.VEProofs Verif.VESpec.
Import ListNotations.

Record VInv (d0 d : db) (s : sdb) (e : ve) : Prop := {
  v_SI : SI (nv d0) d s;
  v_SL : SL d s;
  v_WR : WR (fun _ => False) d s;
  v_E : VEI (nv d0) e;
  v_rng : forall v, In v (ev e) -> v < nv d0;
  v_nv : nv d = nv d0;
  v_empt : empt d = empt d0;
  v_fwd : forall a, sat a (live_formula d0) -> sat a (live_formula d);
  v_gone : forall i c l, wclause s i = Some c -> In l (clits d c) -> ~ In (lvar l) (ev e);
  v_saved : forall v c, In c (nth v (ec e) []) -> wfc (nv d0) c /\ (exists l, In l c /\ lvar l = v) /\
    forall a, sat a (live_formula d0) -> sat_clause a c;
  v_recon : forall m e2 t2, (forall u, In u (ev e) -> nth u (ec e2) [] = nth u (ec e) []) -> TV (nv d0) t2 ->
    (forall u, In u (ev e) -> vvalue t2 u = None) -> (forall u, u < nv d0 -> ~ In u (ev e) -> vvalue t2 u <> None) ->
    (forall c, Kp m d c -> satisfies_any t2 (clits d c) = true) ->
    exists t3, prop_elim_list e2 (rev (ev e)) t2 = Ok t3 /\ TV (nv d0) t3 /\ (forall u, ~ In u (ev e) -> vvalue t3 u = vvalue t2 u) /\
      (forall u, In u (ev e) -> vvalue t3 u <> None) /\ lim t3 = lim t2 /\ dec t3 = dec t2 /\
      (forall c, Kp m d0 c -> satisfies_any t3 (clits d0 c) = true) }.

Lemma live_WE n d s : SI n d s -> SL d s -> WE (fun a => sat a (live_formula d)) d s.
Proof.
  intros HS HSL i c a Hi Ha. rewrite sat_live in Ha. apply Ha. split; [apply (s_cls _ _ _ HS i c Hi)|apply (sl_live _ _ HSL i c Hi)].
Qed.
(** the live clauses after a step: live clauses before or new clauses *)
Lemma step_fwd (P : assignment -> Prop) n d d' a : DI n d' -> dstep d d' -> NE P d d' -> P a -> sat a (live_formula d) -> sat a (live_formula d').
Proof.
  intros HD HS HN Hp Ha. rewrite sat_live in *. intros c Hc.
  destruct (Nat.lt_ge_cases c (length (arena d))) as [Hlt|Hge].
  - rewrite (ds_lits _ _ HS) by auto. apply Ha. destruct Hc as [C1 C2]. split.
    + apply (ds_cls _ _ HS) in C1. destruct C1; auto. lia.
    + unfold isDeleted in *. destruct (ds_wt _ _ HS c Hlt) as [E|E]; rewrite E in C2; [auto|discriminate].
  - apply HN; auto. split; auto. apply (cls_lt n); [auto|]. apply Hc.
Qed.

Lemma simplified_inv d0 d s e : dreach d0 -> empt d0 = false -> no_deleted d0 -> simplified d0 d s e -> VInv d0 d s e.
Proof.
  intros H0 He Hn HS. destruct (dreach_inv d0 H0) as (HD & HL & HN).
  induction HS as [|ptr is d s e d' s' cnt _ IH E|d s e _ IH|active lm cand t d s e k d' s' e' t' _ IH Ht E].
  - destruct (sdb_init_spec _ d0 HD HL (HN He)) as (HS & _ & HW & HSL). specialize (HSL Hn). constructor; auto.
    + apply VEI_new.
    + intros v [].
    + intros v c Hc. exfalso. destruct v; simpl in Hc; destruct Hc.
    + intros m e2 t2 _ Ht _ Ha Hs. exists t2. simpl. intuition.
  - destruct (subsume_list_spec ptr _ is d s cnt0 (v_SI _ _ _ _ IH)) as (b1 & d1 & s1 & cnt1 & E1 & HP & Hb).
    rewrite E1 in E. inversion E; subst b1 d1 s1 cnt1. destruct (sp_SL _ _ _ _ _ HP (v_SL _ _ _ _ IH)) as [HSL HCov].
    constructor; auto; try apply IH.
    + apply HP.
    + apply (sp_WR _ _ _ _ _ HP); apply IH.
    + rewrite (ds_nv _ _ (sp_step _ _ _ _ _ HP)). apply IH.
    + rewrite (ds_empt _ _ (sp_step _ _ _ _ _ HP)). apply IH.
    + intros a Ha. apply (spost_models _ _ _ _ _ (v_SI _ _ _ _ IH) (v_SL _ _ _ _ IH) (v_WR _ _ _ _ IH) HP). apply (v_fwd _ _ _ _ IH). auto.
    + intros i c l Hi Hl. destruct (sp_vars _ _ _ _ _ HP i c l Hi Hl) as (j & c0 & Hj & Hl0). eapply (v_gone _ _ _ _ IH); eauto.
    + intros m e2 t2 A1 A2 A3 A4 A5. apply (v_recon _ _ _ _ IH m e2 t2); auto. intros c [C1 C2].
      destruct (HCov c C1) as (c' & L1 & L2 & L3). assert (K : Kp m d' c') by (split; auto). apply A5 in K.
      apply satisfies_any_true in K. destruct K as (y & Y1 & Y2). apply satisfies_any_true. exists y. auto.
  - destruct IH. constructor; auto.
    + apply sdb_cleanup_SI. auto.
    + destruct v_SL0. constructor; auto.
  - pose proof (v_E _ _ _ _ IH) as HV.
    pose proof (eliminate_spec (nv d0) active lm cand d s e t (v_SI _ _ _ _ IH) HV Ht) as HE. rewrite E in HE.
    destruct HE as (new & HP & HV' & -> & -> & Hnew & _).
    assert (HVt : VEI (nvt t) e) by (rewrite Ht; auto). destruct (ve_init_spec t e HVt) as (HV1 & L1 & E1 & C1 & F1).
    pose proof (ep_ev _ _ _ _ _ _ _ _ HP) as Eev. rewrite E1 in Eev.
    assert (HWE : WE (fun a => sat a (live_formula d0)) d s).
    { intros i c a Hi Ha. apply (live_WE _ _ _ (v_SI _ _ _ _ IH) (v_SL _ _ _ _ IH) i c a Hi). apply (v_fwd _ _ _ _ IH). auto. }
    destruct (ep_WE _ _ _ _ _ _ _ _ HP _ HWE) as [HWE' HNE].
    assert (Hec : forall u, ~ In u new -> nth u (ec e') [] = nth u (ec e) []).
    { intros u Hu. rewrite (ep_ec _ _ _ _ _ _ _ _ HP) by auto. apply C1. }
    constructor; auto.
    + apply HP.
    + apply (ep_SL _ _ _ _ _ _ _ _ HP), IH.
    + apply (ep_WR _ _ _ _ _ _ _ _ HP); apply IH.
    + intros v Hv. rewrite Eev, in_app_iff in Hv. destruct Hv as [Hv|Hv]; [apply (v_rng _ _ _ _ IH); auto|]. apply Hnew; auto.
    + rewrite (ds_nv _ _ (ep_step _ _ _ _ _ _ _ _ HP)). apply IH.
    + rewrite (ds_empt _ _ (ep_step _ _ _ _ _ _ _ _ HP)). apply IH.
    + intros a Ha. apply (step_fwd (fun a => sat a (live_formula d0)) (nv d0) d d'); auto; [apply HP|apply HP|apply (v_fwd _ _ _ _ IH); auto].
    + intros i c l Hi Hl. destruct (ep_vars _ _ _ _ _ _ _ _ HP i c l Hi Hl) as [V1 (j & c0 & l0 & J1 & J2 & J3)].
      rewrite Eev, in_app_iff. intros [Hx|Hx]; auto. rewrite <- J3 in Hx. apply (v_gone _ _ _ _ IH j c0 l0 J1 J2 Hx).
    + intros v c Hc. destruct (in_dec Nat.eq_dec v new) as [Hv|Hv].
      * destruct (ep_saved _ _ _ _ _ _ _ _ HP v c Hv Hc) as (S1 & S2 & S3). split; auto. split; auto. apply (S1 _ HWE).
      * rewrite Hec in Hc by auto. apply (v_saved _ _ _ _ IH); auto.
    + intros m e2 t2 A1 A2 A3 A4 A5. rewrite Eev in *.
      destruct (ep_recon _ _ _ _ _ _ _ _ HP (v_SL _ _ _ _ IH) m e2 t2) as (t3 & R1 & R2 & R3 & R4 & R5 & R6 & R7); auto.
      * intros u Hu. apply A1. apply in_app_iff; auto.
      * intros u Hu. apply A3. apply in_app_iff; auto.
      * intros i c l Hi Hl. destruct (in_dec Nat.eq_dec (lvar l) new) as [Hx|Hx]; auto. right. apply A4.
        -- apply (di_WFA _ _ (s_D _ _ _ (v_SI _ _ _ _ IH)) c). auto.
        -- rewrite in_app_iff. intros [Hy|Hy]; auto. apply (v_gone _ _ _ _ IH i c l Hi Hl Hy).
      * assert (Hdis : forall u, In u (ev e) -> ~ In u new) by (intros u U1 U2; apply Hnew in U2; tauto).
        destruct (v_recon _ _ _ _ IH m e2 t3) as (t4 & S1 & S2 & S3 & S4 & S5 & S6 & S7); auto.
        -- intros u Hu. rewrite A1 by (apply in_app_iff; auto). apply Hec. auto.
        -- intros u Hu. rewrite R3 by auto. apply A3. apply in_app_iff; auto.
        -- intros u Hu Hx. destruct (in_dec Nat.eq_dec u new) as [Hy|Hy]; auto. rewrite R3 by auto. apply A4; auto. rewrite in_app_iff. tauto.
        -- exists t4. rewrite rev_app_distr, prop_elim_list_app, R1. cbn [bind]. split; auto. split; auto. split.
           ++ intros u Hu. rewrite in_app_iff in Hu. rewrite S3, R3 by tauto. auto.
           ++ split; [|split; [congruence|split; [congruence|auto]]].
              intros u Hu. apply in_app_iff in Hu. destruct (in_dec Nat.eq_dec u (ev e)) as [Ha|Ha]; auto.
              rewrite S3 by auto. destruct Hu; [contradiction|]. auto.
Qed.

Lemma elim_defined d0 d s e active lm cand t : dreach d0 -> empt d0 = false -> no_deleted d0 -> simplified d0 d s e -> nvt t = nv d0 ->
  0 < lm -> (N.of_nat lm < 65536)%N -> exists r, eliminate active lm cand d s e t = Ok r.
Proof.
  intros H0 He Hn HS Ht L1 L2. pose proof (simplified_inv _ _ _ _ H0 He Hn HS) as HI.
  pose proof (eliminate_spec (nv d0) active lm cand d s e t (v_SI _ _ _ _ HI) (v_E _ _ _ _ HI) Ht) as HE.
  destruct (eliminate active lm cand d s e t) as [r|er]; eauto. lia.
Qed.

Lemma elim_models d0 d s e : dreach d0 -> empt d0 = false -> no_deleted d0 -> simplified d0 d s e ->
  forall a, sat a (live_formula d0) -> sat a (live_formula d).
Proof. intros H0 He Hn HS. apply (v_fwd _ _ _ _ (simplified_inv _ _ _ _ H0 He Hn HS)). Qed.

Lemma elim_false d0 d s e active lm cand t k d' s' e' t' : dreach d0 -> empt d0 = false -> no_deleted d0 -> simplified d0 d s e -> nvt t = nv d0 ->
  eliminate active lm cand d s e t = Ok (false, k, d', s', e', t') -> unsat (live_formula d0).
Proof.
  intros H0 He Hn HS Ht E. pose proof (simplified_inv _ _ _ _ H0 He Hn HS) as HI.
  pose proof (eliminate_spec (nv d0) active lm cand d s e t (v_SI _ _ _ _ HI) (v_E _ _ _ _ HI) Ht) as HE. rewrite E in HE.
  destruct HE as (new & _ & _ & _ & _ & _ & Hf). intros a Ha. apply (Hf eq_refl (fun a => sat a (live_formula d0)) a); auto.
  intros i c b Hi Hb. apply (live_WE _ _ _ (v_SI _ _ _ _ HI) (v_SL _ _ _ _ HI) i c b Hi). apply (v_fwd _ _ _ _ HI). auto.
Qed.

Lemma Kp_kept d c : In c (kept_formula d) <-> exists x, Kp true d x /\ clits d x = c.
Proof.
  rewrite in_kept. split; intros (x & X); exists x.
  - destruct X as (X1 & X2 & X3). split; auto. split; auto. apply wt0_LV; auto.
  - destruct X as ((X1 & X2) & X3). split; [apply X1|auto].
Qed.
Lemma Kp_live d c : In c (live_formula d) <-> exists x, Kp false d x /\ clits d x = c.
Proof.
  unfold live_formula. rewrite in_map_iff. split; intros (x & X1 & X2); exists x.
  - apply filter_In in X2. destruct X2 as [X2 X3]. apply negb_true_iff in X3. split; auto. split; [split; auto|discriminate].
  - destruct X1 as [[Y1 Y2] _]. split; auto. apply filter_In. split; auto. rewrite Y2. auto.
Qed.

Lemma elim_reconstruct (m : bool) d0 d s e t : dreach d0 -> empt d0 = false -> no_deleted d0 -> simplified d0 d s e ->
  trail_reach t -> nvt t = nv d0 -> assigns t (nv d0) (fun v => ~ eliminated e v) ->
  trail_satisfies t (if m then kept_formula d else live_formula d) ->
  exists t', propagate_eliminated e t = Ok t' /\ assigns t' (nv d0) (fun _ => True) /\
    (forall l b, value t l = Some b -> value t' l = Some b) /\ trail_satisfies t' (if m then kept_formula d0 else live_formula d0).
Proof.
  intros H0 He Hn HS HT Hnv Hass Hsat. pose proof (simplified_inv _ _ _ _ H0 He Hn HS) as HI.
  assert (HTV : TV (nv d0) t) by (rewrite <- Hnv; apply TI_TV, reach_TI; auto).
  assert (HK : forall x c, (if m then kept_formula x else live_formula x) = (if m then kept_formula x else live_formula x) ->
     In c (if m then kept_formula x else live_formula x) <-> exists y, Kp m x y /\ clits x y = c).
  { intros x c _. destruct m; [apply Kp_kept|apply Kp_live]. }
  assert (Hun : forall u, In u (ev e) -> vvalue t u = None).
  { intros u Hu. destruct (vvalue t u) eqn:Eu; auto. exfalso. assert (Hx : vvalue t u <> None) by congruence.
    apply Hass in Hx; [apply Hx; auto|]. apply (v_rng _ _ _ _ HI). auto. }
  destruct (v_recon _ _ _ _ HI m e t) as (t' & R1 & R2 & R3 & R4 & R5 & R6 & R7); auto.
  - intros u Hu Hx. apply Hass; auto.
  - intros c Hc. destruct (Hsat (clits d c)) as (l & L1 & L2); [apply HK; eauto|]. apply satisfies_any_true. eauto.
  - exists t'. split; auto. split; [|split].
    + intros v Hv. split; auto. intros _. destruct (in_dec Nat.eq_dec v (ev e)) as [Hx|Hx]; auto. rewrite R3 by auto. apply Hass; auto.
    + intros l b Hl. unfold value in *. destruct (in_dec Nat.eq_dec (lvar l) (ev e)) as [Hx|Hx].
      * rewrite (Hun _ Hx) in Hl. discriminate.
      * rewrite R3 by auto. auto.
    + intros c Hc. apply HK in Hc; auto. destruct Hc as (y & Y1 & <-). apply satisfies_any_true. apply R7. auto.
Qed.

Lemma elim_gone d0 d s e : dreach d0 -> empt d0 = false -> no_deleted d0 -> simplified d0 d s e ->
  forall c l, In c (live_formula d) -> In l c -> ~ eliminated e (lvar l).
Proof.
  intros H0 He Hn HS c l Hc Hl. pose proof (simplified_inv _ _ _ _ H0 He Hn HS) as HI. apply Kp_live in Hc.
  destruct Hc as (x & [X1 _] & <-). destruct (v_WR _ _ _ _ HI x X1) as [(i & Hi)|[]]. apply (v_gone _ _ _ _ HI i x l Hi Hl).
Qed.

Lemma undecide_dec vs : forall t v, (forall u, In u vs -> u < length (dec t)) ->
  isDecisionVar v (undecide vs t) = if existsb (Nat.eqb v) vs then false else isDecisionVar v t.
Proof.
  unfold undecide. induction vs as [|u r IH]; intros t v H; cbn [fold_left existsb]; auto.
  assert (Hu : u < length (dec t)) by (apply H; simpl; auto).
  rewrite IH.
  2: { intros x Hx. unfold setDecisionVar; cbn [dec]. rewrite set_nth_length. apply H. simpl; auto. }
  unfold isDecisionVar, setDecisionVar; cbn [dec]. destruct (Nat.eqb_spec v u) as [->|Hn]; cbn [orb].
  - rewrite nth_set_nth_same by auto. destruct (existsb _ _); auto.
  - rewrite nth_set_nth_other by auto. auto.
Qed.

Lemma elim_which d0 d s e active lm cand t b k d' s' e' t' : dreach d0 -> empt d0 = false -> no_deleted d0 -> simplified d0 d s e -> nvt t = nv d0 ->
  length (dec t) = nvt t ->
  eliminate active lm cand d s e t = Ok (b, k, d', s', e', t') ->
  (forall v, eliminated e v -> eliminated e' v) /\
  (forall v, eliminated e' v -> eliminated e v \/
     (v < nvt t /\ vvalue t v = None /\ ~ In v (map lvar (assum t)) /\ isDecisionVar v t' = false)) /\
  (forall v, vvalue t' v = vvalue t v).
Proof.
  intros H0 He Hn HS Ht Hd E. pose proof (simplified_inv _ _ _ _ H0 He Hn HS) as HI.
  pose proof (eliminate_spec (nv d0) active lm cand d s e t (v_SI _ _ _ _ HI) (v_E _ _ _ _ HI) Ht) as HE. rewrite E in HE.
  destruct HE as (new & HP & _ & Et & _ & Hnew & _).
  assert (HVt : VEI (nvt t) e) by (rewrite Ht; apply HI). destruct (ve_init_spec t e HVt) as (HV1 & L1 & E1 & C1 & F1).
  pose proof (ep_ev _ _ _ _ _ _ _ _ HP) as Eev. rewrite E1 in Eev. unfold eliminated. rewrite Eev.
  split; [intros v Hv; apply in_app_iff; auto|]. split.
  - intros v Hv. apply in_app_iff in Hv. destruct Hv as [Hv|Hv]; auto. right. destruct (Hnew v Hv) as (N1 & N2 & N3 & N4).
    split; [lia|]. split; auto. split; auto. subst t'. rewrite undecide_dec.
    + apply existsb_eqb_in in Hv. rewrite Hv. auto.
    + intros u Hu. rewrite Hd, Ht. apply Hnew. auto.
  - intros v. subst t'. unfold vvalue. destruct (undecide_fields new t) as (_ & -> & _). auto.
Qed.
