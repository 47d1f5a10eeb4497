(** Lemmas behind AsymmProps. *)
Require Import List Arith Bool NArith Permutation Lia.
Require Import Verif.Base Verif.CNFModel Verif.Outcome Verif.TrailModel Verif.TrailProofs Verif.DbModel Verif.PropModel Verif.PropProofs Verif.DbProofs
  Verif.PropSpec Verif.PropLemmas Verif.AnalyzeModel Verif.AnalyzeProofs Verif.AnalyzeSpec Verif.AnalyzeLemmas
  Verif.TrailSpec Verif.TrailLemmas   Verif.SimpModel Verif.SubsProofs Verif.SimpProofs Verif.SimpSpec Verif.SimpLemmas Verif.AsymmProofs Verif.AsymmSpec.
Import ListNotations.

Lemma db_grow_cls n d : cls (db_grow n d) = cls d /\ arena (db_grow n d) = arena d /\ empt (db_grow n d) = empt d.
Proof. unfold db_grow. destruct (nv d <? n); auto. Qed.
Lemma fold_remove cs : forall d, let d' := fold_left (fun d c => removeClause c d) cs d in
  (forall c, clits d' c = clits d c) /\ empt d' = empt d /\ cls d' = cls d.
Proof.
  induction cs as [|c r IH]; intros d; simpl; auto. destruct (IH (removeClause c d)) as (A & B & C). split; [|split].
  - intros x. rewrite A. apply clits_remove.
  - rewrite B. reflexivity.
  - rewrite C. reflexivity.
Qed.

Lemma areach_size d w t k : areach d w t k -> LenOk d /\ NEmp d.
Proof.
  pose proof (fun n cs d d' HD HF HL HN E => proj2 (create_all_inv n true cs d d' HD HL HN HF E)) as HI. intros HA. revert HI.
  induction HA as [n cs d HF E|d w t c l b t' _ IH|d w t l c d' HA IH Hd Hv E|d w t _ IH|d w t l t' _ IH|d w t k d' w' t' HA IH E
    |d w t c an d1 c' d' b t' HA IH Hl E1 E2 E3|d w t k cs HA IH d'|d w t k n cs d' HA IH HF E]; intros HI; try specialize (IH HI); try exact IH.
  - unfold db_init in E. pose proof (db_grow_DI (nv db_new) n db_new db_new_DI) as HG. rewrite Nat.max_0_r in HG.
    apply (HI n cs _ _ HG HF) in E; auto.
    + intros c. unfold clits, cobj_at. rewrite (proj1 (proj2 (db_grow_cls n db_new))). destruct c; cbn; lia.
    + intros _ c. rewrite (proj1 (db_grow_cls n db_new)). intros [].
  - destruct IH as [I1 I2]. split; [eapply created_LenOk; eauto|]. eapply create_NEmp; eauto.
    apply (SState_B _ _ _ _ (preach_SState _ _ _ _ (proj1 (areach_inv _ _ _ _ HA)))).
  - destruct (preach_propagate d w t (proj1 (areach_inv _ _ _ _ HA))) as (k1 & d1 & w1 & t1 & E1 & HR & _). rewrite E in E1. inversion E1; subst.
    destruct HR as (_ & _ & _ & A4 & A5 & _). destruct IH as [I1 I2]. rewrite A5. split.
    + intros c. rewrite ap_len by auto. auto.
    + intros He c Hc Hn. apply (I2 He c Hc). apply length_zero_iff_nil. rewrite <- (ap_len _ _ A4 c), Hn. auto.
  - destruct IH as [I1 I2]. pose proof (preach_SState _ _ _ _ (proj1 (areach_inv _ _ _ _ HA))) as HS. simpl in HS.
    pose proof (areach_inv _ _ _ _ HA) as [_ HV]. destruct (SConf_analysis d w t c HS (av_D _ _ HV) Hl) as (an' & B1 & _ & B2 & _).
    rewrite E1 in B1. inversion B1; subst an' d1. clear B1.
    destruct (reestimate_fields t (an_involved an) d) as (_ & _ & R3 & _ & R5 & _ & _ & _ & R9 & _).
    assert (HD1 : DI (nvt t) (reestimate t (an_involved an) d)).
    { apply reestimate_DI; [apply HS|]. intros x Hx. destruct (B2 x Hx) as [->|(q & Q1 & Q2)].
      - destruct (sc_use _ _ _ _ HS) as [U1 [U2|U2]]; auto.
      - destruct (sb_RD _ _ _ (sc_B _ _ _ _ HS) q x Q1 Q2) as [U1 [U2|U2]]; auto. }
    split.
    + eapply created_LenOk; eauto. intros x. change (clits (reestimate t (an_involved an) d) x) with (alits (arena (reestimate t (an_involved an) d)) x).
      rewrite R9. apply I1.
    + eapply create_NEmp; eauto. intros He x Hx. rewrite R5 in He. rewrite R3 in Hx.
      change (clits (reestimate t (an_involved an) d) x) with (alits (arena (reestimate t (an_involved an) d)) x). rewrite R9. apply I2; auto.
  - destruct IH as [I1 I2]. destruct (fold_remove cs d) as (F1 & F2 & F3). split.
    + intros c. unfold d'. change (clits (reorganize (fold_left (fun d c => removeClause c d) cs d)) c) with (clits (fold_left (fun d c => removeClause c d) cs d) c).
      rewrite F1. auto.
    + intros He c Hc. unfold d'. change (clits (reorganize (fold_left (fun d c => removeClause c d) cs d)) c) with (clits (fold_left (fun d c => removeClause c d) cs d) c).
      rewrite F1. change (empt (fold_left (fun d c => removeClause c d) cs d) = false) in He. rewrite F2 in He. apply (I2 He).
      apply reorganize_cls in Hc. destruct Hc as [Hc1 Hc2].
      assert (HD : DI (nvt t) (fold_left (fun d c => removeClause c d) cs d)).
      { assert (G : forall l x, DI (nvt t) x -> DI (nvt t) (fold_left (fun d c => removeClause c d) l x)).
        { clear. induction l as [|y l IH]; simpl; intros x Hx; auto. apply IH. apply removeClause_DI; auto. }
        apply G. apply (SState_B _ _ _ _ (preach_SState _ _ _ _ (proj1 (areach_inv _ _ _ _ HA)))). }
      rewrite <- F3. apply (di_live _ _ HD); auto.
  - destruct IH as [I1 I2]. unfold db_init in E.
    pose proof (sb_D _ _ _ (SState_B _ _ _ _ (preach_SState _ _ _ _ (proj1 (areach_inv _ _ _ _ HA))))) as HD.
    pose proof (db_grow_DI (nvt t) n d HD) as HG. apply (HI _ cs _ _ HG HF) in E; auto.
    + intros c. unfold clits, cobj_at. rewrite (proj1 (proj2 (db_grow_cls n d))). apply I1.
    + intros He c Hc. unfold clits, cobj_at. rewrite (proj1 (proj2 (db_grow_cls n d))). rewrite (proj1 (db_grow_cls n d)) in Hc.
      rewrite (proj2 (proj2 (db_grow_cls n d))) in He. apply (I2 He c Hc).
Qed.

Record RInv (d0 : db) (t0 : trail_t) (d : db) (w : watches) (t : trail_t) (s : sdb) : Prop := {
  r_SI : SI (nvt t0) d s;
  r_P : PInv d w t;
  r_n : nvt t = nvt t0;
  r_lim : lim t = [];
  r_SL : SL d s;
  r_WR : WR (fun _ => False) d s;
  r_WE : WE (fun a => sat a (live_formula d0)) d s;
  r_LE : LE (fun a => sat a (live_formula d0)) d w;
  r_TE : TE (fun a => sat a (live_formula d0)) t;
  r_C : Cover d0 d;
  r_nv : nv d = nv d0;
  r_empt : empt d = empt d0;
  r_tr : tr t = tr t0 }.

Lemma reduced_inv d0 w0 t0 d w t s : areach d0 w0 t0 None -> dlevel t0 = 0 -> no_deleted d0 -> empt d0 = false ->
  reduced d0 w0 t0 d w t s -> RInv d0 t0 d w t s.
Proof.
  intros HA Hdl Hn He. assert (Hl0 : lim t0 = []) by (apply length_zero_iff_nil; auto).
  induction 1 as [|ptr is d w t s d' s' cnt _ IH E|d w t s _ IH|active d w t s k d' w' t' s' _ IH E].
  - destruct (areach_size _ _ _ _ HA) as [HL HN]. destruct (areach_inv _ _ _ _ HA) as [HP HV].
    pose proof (SState_B _ _ _ _ (preach_SState _ _ _ _ HP)) as HB.
    destruct (sdb_init_spec _ d0 (sb_D _ _ _ HB) HL (HN He)) as (HS & Hw & HW & HSL). specialize (HSL Hn).
    assert (Hlv : forall a, sat a (live_formula d0) -> forall c, In c (cls d0) -> sat_clause a (clits d0 c)).
    { intros a Ha c Hc. rewrite sat_live in Ha. apply Ha. split; auto. }
    constructor; auto.
    + apply HB.
    + intros i c a Hi Ha. apply Hlv; auto. apply (s_cls _ _ _ HS i c Hi).
    + intros c a Hc Ha. apply Hlv; auto. apply (listed_usable d0 w0 (nvt t0) c); auto; apply HB.
    + intros l a Hl Ha. apply (level0_entailed a d0 w0 t0 HB HV (Hlv a Ha)); auto. apply In_nth_error in Hl. destruct Hl as (i & Hi). apply (dlevel0_level t0 i l); auto. apply (sb_P _ _ _ HB).
    + apply Cover_refl.
  - destruct (subsume_list_spec ptr _ is d s cnt0 (r_SI _ _ _ _ _ _ IH)) as (b & d1 & s1 & cnt1 & E1 & HP & _).
    rewrite E1 in E. inversion E; subst. destruct (sp_SL _ _ _ _ _ HP (r_SL _ _ _ _ _ _ IH)) as [S1 S2].
    destruct (sp_WE _ _ _ _ _ HP _ (r_WE _ _ _ _ _ _ IH)) as [W1 W2].
    constructor; auto; try apply IH; try apply HP.
    + apply (PInv_dstep d); [apply IH|rewrite (r_n _ _ _ _ _ _ IH); apply HP|apply HP].
    + apply IH.
    + apply IH.
    + apply (LE_dstep _ (nvt t0) d); auto; try apply IH; try apply HP.
    + eapply Cover_trans; [apply IH|auto].
    + rewrite (ds_nv _ _ (sp_step _ _ _ _ _ HP)). apply IH.
    + rewrite (ds_empt _ _ (sp_step _ _ _ _ _ HP)). apply IH.
  - constructor; try apply IH; [apply sdb_cleanup_SI, IH|]. destruct (r_SL _ _ _ _ _ _ IH). constructor; auto.
  - assert (HI : SI (nvt t) d s) by (rewrite (r_n _ _ _ _ _ _ IH); apply IH).
    destruct (asymm_reduce_spec active d w t s HI (r_P _ _ _ _ _ _ IH) (r_lim _ _ _ _ _ _ IH)) as (b & k1 & d1 & w1 & t1 & s1 & E1 & HP & _).
    rewrite E1 in E. inversion E; subst. destruct (ap_SL _ _ _ _ _ _ _ _ _ HP (r_SL _ _ _ _ _ _ IH)) as [S1 S2].
    destruct (ap_t _ _ _ _ _ _ _ _ _ HP) as (T1 & T2 & _).
    destruct (ap_E _ _ _ _ _ _ _ _ _ HP _ (r_WE _ _ _ _ _ _ IH) (r_LE _ _ _ _ _ _ IH) (r_TE _ _ _ _ _ _ IH)) as (W1 & W2 & W3).
    constructor; auto.
    + rewrite <- (r_n _ _ _ _ _ _ IH). apply HP.
    + apply HP.
    + rewrite T2. apply IH.
    + apply (ap_WR _ _ _ _ _ _ _ _ _ HP); apply IH.
    + intros l a Hl. apply (r_TE _ _ _ _ _ _ IH). rewrite <- (ap_tr _ _ _ _ _ _ _ _ _ HP). auto.
    + eapply Cover_trans; [apply IH|auto].
    + rewrite (ps_nv _ _ (ap_step _ _ _ _ _ _ _ _ _ HP)). apply IH.
    + rewrite (ps_empt _ _ (ap_step _ _ _ _ _ _ _ _ _ HP)). apply IH.
    + rewrite (ap_tr _ _ _ _ _ _ _ _ _ HP). apply IH.
Qed.

Section S.
Variables (d0 : db) (w0 : watches) (t0 : trail_t) (d : db) (w : watches) (t : trail_t) (s : sdb).
Hypothesis HA : areach d0 w0 t0 None.
Hypothesis Hdl : dlevel t0 = 0.
Hypothesis Hn : no_deleted d0.
Hypothesis He : empt d0 = false.
Hypothesis HR : reduced d0 w0 t0 d w t s.
Let HI := reduced_inv _ _ _ _ _ _ _ HA Hdl Hn He HR.

Lemma asymm_defined active : exists r, asymm_reduce active d w t s = Ok r.
Proof.
  assert (HS : SI (nvt t) d s) by (rewrite (r_n _ _ _ _ _ _ HI); apply HI).
  destruct (asymm_reduce_spec active d w t s HS (r_P _ _ _ _ _ _ HI) (r_lim _ _ _ _ _ _ HI)) as (b & k1 & d1 & w1 & t1 & s1 & E1 & _). eauto.
Qed.
Lemma asymm_models : equiv (live_formula d0) (live_formula d).
Proof.
  intros a. split; intros Ha.
  - rewrite sat_live. intros c Hc. destruct (r_WR _ _ _ _ _ _ HI c Hc) as [(i & Hi)|[]]. apply (r_WE _ _ _ _ _ _ HI i c a Hi Ha).
  - rewrite sat_live in *. intros c Hc. destruct (r_C _ _ _ _ _ _ HI c Hc) as (c' & C1 & C2 & _). eapply sat_clause_incl; eauto.
Qed.
Lemma asymm_kept c : In c (kept_formula d0) -> exists c', In c' (kept_formula d) /\ incl c' c.
Proof.
  intros Hc. apply in_kept in Hc. destruct Hc as (x & X1 & X2 & <-).
  destruct (r_C _ _ _ _ _ _ HI x (wt0_LV _ _ X1 X2)) as (y & Y1 & Y2 & Y3).
  exists (clits d y). split; auto. apply in_kept. exists y. split; [apply Y1|]. auto.
Qed.
Lemma asymm_new : nv d = nv d0 /\ empt d = false /\ tr t = tr t0 /\ forall c, In c (live_formula d) -> clause_ok (nv d0) c /\ c <> [].
Proof.
  split; [apply HI|]. split; [rewrite (r_empt _ _ _ _ _ _ HI); auto|]. split; [apply HI|].
  intros c Hc. unfold live_formula in Hc. apply in_map_iff in Hc.
  destruct Hc as (x & <- & Hx). apply filter_In in Hx. destruct Hx as [X1 X2]. apply negb_true_iff in X2.
  pose proof (di_nv _ _ (s_D _ _ _ (r_SI _ _ _ _ _ _ HI))) as En. rewrite (r_nv _ _ _ _ _ _ HI) in En. rewrite En.
  split; [apply (di_WFA _ _ (s_D _ _ _ (r_SI _ _ _ _ _ _ HI)) x)|].
  destruct (r_WR _ _ _ _ _ _ HI x (conj X1 X2)) as [(i & Hi)|[]]. apply (s_cls _ _ _ (r_SI _ _ _ _ _ _ HI) i x Hi).
Qed.
Lemma asymm_false active k d' w' t' s' : asymm_reduce active d w t s = Ok (false, k, d', w', t', s') -> unsat (live_formula d0).
Proof.
  intros E. assert (HS : SI (nvt t) d s) by (rewrite (r_n _ _ _ _ _ _ HI); apply HI).
  destruct (asymm_reduce_spec active d w t s HS (r_P _ _ _ _ _ _ HI) (r_lim _ _ _ _ _ _ HI)) as (b & k1 & d1 & w1 & t1 & s1 & E1 & _ & Hb).
  rewrite E1 in E. inversion E; subst. intros a Ha.
  exact (Hb eq_refl (fun a => sat a (live_formula d0)) a (r_WE _ _ _ _ _ _ HI) (r_LE _ _ _ _ _ _ HI) (r_TE _ _ _ _ _ _ HI) Ha).
Qed.
End S.
