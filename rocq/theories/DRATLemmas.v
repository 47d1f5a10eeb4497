(** Unit propagation on clauses that may contain a variable repeatedly (as lemmas of a proof may). *)
Require Import List Arith Bool NArith Lia Permutation.
From Coq Require Import ZifyBool ZifyNat ZifyN.
Require Import Verif.Base Verif.CNFModel Verif.CNFProofs Verif.Outcome Verif.TrailModel Verif.TrailProofs Verif.DbModel Verif.PropModel Verif.PropProofs.
Import ListNotations.

Definition eqn (a b : nat) : nat := if a =? b then 1 else 0.
Definition pos2 (a : list cobj) (c : cid) (p : lit) : nat :=
  match alits a c with x :: y :: _ => eqn x (lneg p) + eqn y (lneg p) | _ => 0 end.
Definition cnt (c : nat) (ws : list (cid * lit)) : nat := count_occ Nat.eq_dec (map fst ws) c.
Definition WS (a : list cobj) (w : watches) : Prop := forall p c, cnt c (wl w p) <= pos2 a c p.
Definition range (n : nat) (a : list cobj) : Prop := forall c l, In l (alits a c) -> lvar l < n.
Definition BS (a : list cobj) (b : watches) : Prop :=
  forall p c o, In (c, o) (wl b p) -> In o (alits a c) /\ forall m, In m (alits a c) -> m = lneg p \/ m = o.
Definition holds_all (x : assignment) (ls : list lit) : Prop := forall l, In l ls -> lit_holds x l.

Lemma cnt_app c l m : cnt c (l ++ m) = cnt c l + cnt c m.
Proof. unfold cnt. rewrite map_app. apply count_occ_app. Qed.
Lemma cnt_cons c c' b m : cnt c ((c', b) :: m) = eqn c' c + cnt c m.
Proof. unfold cnt, eqn. cbn [map fst count_occ]. destruct (Nat.eq_dec c' c), (Nat.eqb_spec c' c); try lia; contradiction. Qed.
Lemma cnt_in c ws : 0 < cnt c ws <-> In c (map fst ws).
Proof. unfold cnt. rewrite (count_occ_In Nat.eq_dec). lia. Qed.
Lemma eqn_refl a : eqn a a = 1. Proof. unfold eqn. rewrite Nat.eqb_refl. reflexivity. Qed.
Lemma eqn_neq a b : a <> b -> eqn a b = 0. Proof. intros H. unfold eqn. destruct (Nat.eqb_spec a b); congruence. Qed.

(** what one step of propagation does to the trail *)
Record pext (t t' : trail_t) : Prop := {
  px_TI : TI t';
  px_tr : exists new, tr t' = tr t ++ new;
  px_lim : lim t' = lim t;
  px_nvt : nvt t' = nvt t;
  px_qh : qh t' = qh t }.
Lemma pext_refl t : TI t -> pext t t.
Proof. intros H. constructor; auto. exists []. symmetry. apply app_nil_r. Qed.
Lemma pext_trans t u v : pext t u -> pext u v -> pext t v.
Proof.
  intros [A1 (n & A2) A3 A4 A5] [B1 (m & B2) B3 B4 B5]. constructor; auto; try congruence. exists (n ++ m). rewrite B2, A2, app_assoc. reflexivity.
Qed.
Lemma pext_in t t' l : pext t t' -> In l (tr t) -> In l (tr t').
Proof. intros [_ (n & E) _ _ _] H. rewrite E. apply in_or_app. auto. Qed.
Lemma push_step t l c : TI t -> value t l = None -> lvar l < nvt t ->
  tpropagate l c t = Ok (true, tpush l (Some c) t) /\ pext t (tpush l (Some c) t) /\ tr (tpush l (Some c) t) = tr t ++ [l].
Proof.
  intros HT Hv Hl. split; [apply tpropagate_push; [apply (TI_room t l); auto|congruence]|]. split; [|reflexivity].
  constructor; auto; [apply TI_push; auto|]. exists [l]. reflexivity.
Qed.
Lemma false_not_holds t x m : TI t -> holds_all x (tr t) -> value t m = Some false -> ~ lit_holds x m.
Proof. intros HT HX Hv Hm. apply ti_val_false in Hv; auto. apply (lit_holds_neg x m); auto. Qed.

Lemma binary_sound p a ws : forall t, TI t -> In p (tr t) -> range (nvt t) a ->
  (forall c o, In (c, o) ws -> In o (alits a c) /\ forall m, In m (alits a c) -> m = lneg p \/ m = o) ->
  exists k t', prop_binary ws t = Ok (k, t') /\ pext t t' /\
    forall x, (forall c, In c (map fst ws) -> sat_clause x (alits a c)) -> holds_all x (tr t) -> k = None /\ holds_all x (tr t').
Proof.
  induction ws as [|(c, o) ws IH]; intros t HT Hp HR HB; cbn [prop_binary].
  { exists None, t. split; auto. split; [apply pext_refl; auto|]. auto. }
  destruct (HB c o (or_introl eq_refl)) as (B1 & B2).
  assert (HB' : forall c o, In (c, o) ws -> In o (alits a c) /\ forall m, In m (alits a c) -> m = lneg p \/ m = o) by (intros; apply HB; cbn; auto).
  destruct (value t o) as [[|]|] eqn:Ev.
  - destruct (IH t HT Hp HR HB') as (k & t' & E & X & S). exists k, t'. split; auto. split; auto. intros x Hx. apply S. intros c' Hc'. apply Hx. cbn. auto.
  - exists (Some c), t. split; auto. split; [apply pext_refl; auto|]. intros x Hx Ht. exfalso. destruct (Hx c (or_introl eq_refl)) as (m & M1 & M2).
    destruct (B2 m M1) as [-> | ->].
    + apply (lit_holds_neg x p); auto.
    + apply (false_not_holds t x o); auto.
  - destruct (push_step t o c HT Ev (HR c o B1)) as (E1 & X1 & T1). rewrite E1. cbn [bind].
    destruct (IH (tpush o (Some c) t)) as (k & t' & E & X & S); auto.
    { apply X1. } { apply (pext_in t); auto. }
    exists k, t'. split; auto. split; [apply (pext_trans _ _ _ X1 X)|]. intros x Hx Ht. apply S; [intros c' Hc'; apply Hx; cbn; auto|].
    rewrite T1. intros l Hl. apply in_app_or in Hl. destruct Hl as [Hl|[<-|[]]]; auto.
    destruct (Hx c (or_introl eq_refl)) as (m & M1 & M2). destruct (B2 m M1) as [-> | ->]; auto. exfalso. apply (lit_holds_neg x p); auto.
Qed.

Lemma virt_wl p kept ws w q : p < length w -> wl (virt p kept ws w) q = if q =? p then kept ++ ws else wl w q.
Proof. intros Hp. destruct (Nat.eqb_spec q p) as [->|H]; [apply virt_same; auto|apply virt_other; auto]. Qed.
Lemma push_wl p x w q : p < length w -> wl (push_at p x w) q = if q =? p then wl w p ++ [x] else wl w q.
Proof. intros Hp. destruct (Nat.eqb_spec q p) as [->|H]; [apply wl_push_same; auto|apply wl_push_other; auto]. Qed.
Lemma pos2_other a c ls c' q : c' <> c -> pos2 (set_lits c ls a) c' q = pos2 a c' q.
Proof. intros H. unfold pos2. rewrite alits_set_other; auto. Qed.
Lemma pos2_same a c f s r q : c < length a -> pos2 (set_lits c (f :: s :: r) a) c q = eqn f (lneg q) + eqn s (lneg q).
Proof. intros H. unfold pos2. rewrite alits_set_same; auto. Qed.
Lemma range_perm n a a' : aperm a a' -> range n a -> range n a'.
Proof. intros HP HR c l Hl. apply (HR c l). apply (aperm_in a a' c l); auto. Qed.
Lemma sat_perm x a a' c : aperm a a' -> sat_clause x (alits a c) <-> sat_clause x (alits a' c).
Proof. intros HP. split; intros (l & L1 & L2); exists l; split; auto; apply (aperm_in a a' c l HP); auto. Qed.

Definition wsound (p : lit) (ws kept : list (cid * lit)) (a : list cobj) (w : watches) (t : trail_t) : Prop :=
  exists k ws' a' w' t', prop_watched p ws kept a w t = Ok (k, ws', a', w', t') /\ pext t t' /\ aperm a a' /\ length w' = length w /\
    WS a' (set_nth p ws' w') /\
    (forall c q, In c (map fst (wl (set_nth p ws' w') q)) -> exists q', In c (map fst (wl (virt p kept ws w) q'))) /\
    forall x, (forall c, In c (map fst ws) -> sat_clause x (alits a c)) -> holds_all x (tr t) -> k = None /\ holds_all x (tr t').

Lemma watched_sound p : forall ws kept a w t, TI t -> In p (tr t) -> p < length w -> range (nvt t) a ->
  (forall l, lvar l < nvt t -> l < length w) -> WS a (virt p kept ws w) -> wsound p ws kept a w t.
Proof.
  induction ws as [|(c, b) ws IH]; intros kept a w t HT Hp Hpw HR HL HW.
  { exists None, kept, a, w, t. split; [reflexivity|]. split; [apply pext_refl; auto|]. split; [apply aperm_refl|]. split; auto.
    unfold virt in *. rewrite app_nil_r in *. split; auto. split; [eauto|]. auto. }
  unfold wsound. cbn [prop_watched].
  (* the same clause is kept with another blocker *)
  assert (HK : forall f a1 t1, pext t t1 -> aperm a a1 -> (forall q c', pos2 a1 c' q = pos2 a c' q) ->
    (forall x, (forall c', In c' (map fst ((c, b) :: ws)) -> sat_clause x (alits a c')) -> holds_all x (tr t) -> holds_all x (tr t1)) ->
    exists k ws' a' w' t', prop_watched p ws (kept ++ [(c, f)]) a1 w t1 = Ok (k, ws', a', w', t') /\ pext t t' /\ aperm a a' /\ length w' = length w /\
    WS a' (set_nth p ws' w') /\
    (forall c1 q, In c1 (map fst (wl (set_nth p ws' w') q)) -> exists q', In c1 (map fst (wl (virt p kept ((c, b) :: ws) w) q'))) /\
    forall x, (forall c', In c' (map fst ((c, b) :: ws)) -> sat_clause x (alits a c')) -> holds_all x (tr t) -> k = None /\ holds_all x (tr t')).
  { intros f a1 t1 HX HA H2 HS. destruct (IH (kept ++ [(c, f)]) a1 w t1) as (k & ws' & a' & w' & t' & E & X & P & L & W & I & S).
    - apply HX. - apply (pext_in t); auto. - auto. - rewrite (px_nvt _ _ HX). apply (range_perm _ a); auto. - rewrite (px_nvt _ _ HX). auto.
    - intros q c'. rewrite H2. specialize (HW q c'). rewrite virt_wl in * by auto. destruct (q =? p); auto.
      rewrite cnt_app in HW. rewrite cnt_cons in HW. rewrite !cnt_app. rewrite cnt_cons. change (cnt c' []) with 0. lia.
    - exists k, ws', a', w', t'. split; auto. split; [apply (pext_trans _ _ _ HX X)|]. split; [apply (aperm_trans a a1 a'); auto|]. split; auto. split; auto. split.
      + intros c' q Hi. destruct (I c' q Hi) as (q' & Hq). rewrite virt_wl in Hq by auto.
        exists q'. rewrite virt_wl by auto. destruct (q' =? p); auto. rewrite !map_app in *. cbn [map fst] in *. rewrite <- app_assoc in Hq. exact Hq.
      + intros x Hx Ht. apply S; auto. intros c' Hc'. apply (sat_perm x a a1 c' HA). apply Hx. cbn. auto. }
  destruct (is_true (value t b)) eqn:Eb.
  { apply HK; auto; [apply pext_refl; auto|apply aperm_refl]. }
  assert (HC : 0 < pos2 a c p).
  { specialize (HW p c). rewrite virt_wl in HW by auto. rewrite Nat.eqb_refl, cnt_app, cnt_cons, eqn_refl in HW. lia. }
  change (lits (nth c a cnull)) with (alits a c).
  destruct (alits a c) as [|x0 [|y0 rest]] eqn:EA; [unfold pos2 in HC; rewrite EA in HC; lia|unfold pos2 in HC; rewrite EA in HC; lia|].
  assert (Hca : c < length a) by (apply (alits_lt a c x0); rewrite EA; cbn; auto).
  assert (HP2 : forall q, pos2 a c q = eqn x0 (lneg q) + eqn y0 (lneg q)) by (intros q; unfold pos2; rewrite EA; auto).
  destruct (if x0 =? lneg p then (y0, x0) else (x0, y0)) as (f, s) eqn:Efs.
  assert (Hs : s = lneg p /\ Permutation (x0 :: y0 :: rest) (f :: s :: rest) /\ forall q, pos2 a c q = eqn f (lneg q) + eqn s (lneg q)).
  { rewrite HP2 in HC. destruct (Nat.eqb_spec x0 (lneg p)) as [E0|E0]; injection Efs as <- <-.
    - split; auto. split; [apply perm_swap|]. intros q. rewrite HP2. lia.
    - split; [|split; auto]. rewrite (eqn_neq x0) in HC by auto. unfold eqn in HC. destruct (Nat.eqb_spec y0 (lneg p)); auto. lia. }
  destruct Hs as (Hs & HPm & HF2). clear Efs HP2.
  set (a1 := set_lits c (f :: s :: rest) a).
  assert (HA1 : aperm a a1) by (apply aperm_set; rewrite EA; auto).
  assert (HQ1 : forall q c', pos2 a1 c' q = pos2 a c' q).
  { intros q c'. destruct (Nat.eq_dec c' c) as [->|Hn]; [|apply pos2_other; auto]. unfold a1. rewrite pos2_same by auto. auto. }
  assert (Hpt : value t (lneg p) = Some false) by (apply value_neg_false; apply ti_val; auto).
  assert (HIn : forall m, In m (alits a c) <-> m = f \/ m = s \/ In m rest).
  { intros m. rewrite EA. split; intros H.
    - apply (Permutation_in _ HPm) in H. cbn in H. intuition.
    - apply (Permutation_in _ (Permutation_sym HPm)). cbn. intuition. }
  destruct (is_true (value t f)) eqn:Ef.
  { apply HK; auto; [apply pext_refl; auto]. }
  destruct (find_watch t rest) as [k|] eqn:EW.
  - destruct (find_watch_some _ _ _ EW) as (Hk & Hkv). set (l := nth k rest 0) in *.
    assert (Hlr : In l rest) by (apply nth_In; auto).
    assert (Hls : l <> lneg p) by congruence.
    assert (Hlp : lneg l <> p) by (intros H; apply Hls; rewrite <- H, lneg_invol; auto).
    destruct (Nat.eqb_spec (lneg l) p) as [|_]; [contradiction|].
    assert (Hlw : lneg l < length w) by (apply HL; rewrite lvar_neg; apply (HR c); apply HIn; auto).
    assert (HPm2 : Permutation (alits a1 c) (f :: l :: set_nth k s rest)).
    { unfold a1. rewrite alits_set_same by auto. apply perm_skip. apply (swap_perm k s 0 rest Hk). }
    assert (HA2 : aperm a (set_lits c (f :: l :: set_nth k s rest) a1)) by (apply (aperm_trans a a1); auto; apply aperm_set; auto).
    assert (Hla : length a1 = length a) by apply set_nth_length.
    destruct (IH kept (set_lits c (f :: l :: set_nth k s rest) a1) (push_at (lneg l) (c, f) w) t) as (k' & ws' & a' & w' & t' & E & X & P & L & W & I & S).
    + auto. + auto. + rewrite push_at_length. auto. + apply (range_perm _ a); auto. + rewrite push_at_length. auto.
    + intros q c'. specialize (HW q c'). rewrite virt_wl in * by (rewrite ?push_at_length; auto). rewrite push_wl by auto.
      destruct (Nat.eq_dec c' c) as [->|Hn].
      * rewrite pos2_same by lia. rewrite HF2 in HW. rewrite Hs in HW. destruct (Nat.eqb_spec q p) as [->|Hq].
        -- rewrite cnt_app, cnt_cons, !eqn_refl in HW. rewrite cnt_app. lia.
        -- assert (Hpq : eqn (lneg p) (lneg q) = 0) by (apply eqn_neq; intros H; apply Hq; apply lneg_inj in H; auto). destruct (Nat.eqb_spec q (lneg l)) as [->|Hq2].
           ++ rewrite lneg_invol in *. rewrite cnt_app, cnt_cons, !eqn_refl. change (cnt c []) with 0. lia.
           ++ lia.
      * rewrite pos2_other by auto. rewrite HQ1. destruct (Nat.eqb_spec q p) as [->|Hq].
        -- rewrite cnt_app, cnt_cons, eqn_neq in HW by auto. rewrite cnt_app. lia.
        -- destruct (Nat.eqb_spec q (lneg l)) as [->|Hq2]; auto. rewrite cnt_app, cnt_cons, eqn_neq by auto. change (cnt c' []) with 0. lia.
    + exists k', ws', a', w', t'. split; [exact E|]. split; auto. split; [apply (aperm_trans _ _ _ HA2 P)|]. split; [rewrite L; apply push_at_length|]. split; auto. split.
      * intros c' q Hi. destruct (I c' q Hi) as (q' & Hq). rewrite virt_wl in Hq by (rewrite push_at_length; auto). rewrite push_wl in Hq by auto.
        destruct (Nat.eqb_spec q' p) as [Eq1|Hq1].
        -- exists p. rewrite virt_wl, Nat.eqb_refl by auto. rewrite map_app in *. cbn [map]. apply in_or_app. apply in_app_or in Hq. cbn. intuition.
        -- destruct (Nat.eqb_spec q' (lneg l)) as [Eq2|Hq2].
           ++ rewrite map_app in Hq. apply in_app_or in Hq. destruct Hq as [Hq|[<-|[]]].
              ** exists (lneg l). rewrite virt_wl by auto. destruct (Nat.eqb_spec (lneg l) p); [contradiction|auto].
              ** exists p. rewrite virt_wl, Nat.eqb_refl by auto. rewrite map_app. apply in_or_app. cbn. auto.
           ++ exists q'. rewrite virt_wl by auto. destruct (Nat.eqb_spec q' p); [contradiction|auto].
      * intros x Hx Ht. apply S; auto. intros c' Hc'. apply (sat_perm x a _ c' HA2). apply Hx. cbn. auto.
  - assert (HNf := find_watch_none _ _ EW).
    assert (HU : forall x, (forall c', In c' (map fst ((c, b) :: ws)) -> sat_clause x (alits a c')) -> holds_all x (tr t) -> lit_holds x f).
    { intros x Hx Ht. destruct (Hx c (or_introl eq_refl)) as (m & M1 & M2). apply HIn in M1. destruct M1 as [->|[->|M1]]; auto.
      - exfalso. rewrite Hs in M2. apply (false_not_holds t x (lneg p)); auto.
      - exfalso. apply (false_not_holds t x m); auto. }
    destruct (is_false (value t f)) eqn:Eff.
    + exists (Some c), (kept ++ (c, f) :: ws), a1, w, t. split; [reflexivity|]. split; [apply pext_refl; auto|]. split; auto. split; auto.
      assert (EV : forall q, map fst (wl (set_nth p (kept ++ (c, f) :: ws) w) q) = map fst (wl (virt p kept ((c, b) :: ws) w) q)).
      { intros q. change (set_nth p (kept ++ (c, f) :: ws) w) with (virt p kept ((c, f) :: ws) w). rewrite !virt_wl by auto. destruct (q =? p); auto. rewrite !map_app. reflexivity. }
      split; [|split].
      * intros q c'. rewrite HQ1. specialize (HW q c'). unfold cnt in *. rewrite EV. exact HW.
      * intros c' q. rewrite EV. eauto.
      * intros x Hx Ht. exfalso. apply is_false_iff in Eff. apply (false_not_holds t x f); auto.
    + assert (Hv : value t f = None) by (destruct (value t f) as [[|]|]; cbn in *; congruence).
      assert (Hfr : lvar f < nvt t) by (apply (HR c); apply HIn; auto).
      destruct (push_step t f c HT Hv Hfr) as (E1 & X1 & T1). rewrite E1. cbn [bind]. apply HK; auto.
      intros x Hx Ht. rewrite T1. intros l Hl. apply in_app_or in Hl. destruct Hl as [Hl|[<-|[]]]; auto.
Qed.

(** ** The loop *)
Record pout (d : db) (w : watches) (t : trail_t) (k : option cid) (d' : db) (w' : watches) (t' : trail_t) : Prop := {
  po_TI : TI t';
  po_tr : exists new, tr t' = tr t ++ new;
  po_lim : lim t' = lim t;
  po_nvt : nvt t' = nvt t;
  po_ar : aperm (arena d) (arena d');
  po_d : d' = with_arena d (arena d');
  po_len : length w' = length w;
  po_WS : WS (arena d') w';
  po_ids : forall c q, In c (map fst (wl w' q)) -> exists q', In c (map fst (wl w q'));
  po_sound : forall x, (forall c, listed d w c -> sat_clause x (clits d c)) -> holds_all x (tr t) -> k = None /\ holds_all x (tr t') }.
Record pin (d : db) (w : watches) (t : trail_t) : Prop := {
  pn_TI : TI t;
  pn_rng : range (nvt t) (arena d);
  pn_len : forall l, lvar l < nvt t -> l < length w;
  pn_WS : WS (arena d) w;
  pn_BS : BS (arena d) (bw d) }.
Lemma BS_perm a a' b : aperm a a' -> BS a b -> BS a' b.
Proof.
  intros HP HB p c o Hi. destruct (HB p c o Hi) as (B1 & B2). split; [apply (aperm_in a a' c o HP); auto|]. intros m Hm. apply B2. apply (aperm_in a a' c m HP). auto.
Qed.
Lemma loop_sound fuel : forall d w t, pin d w t -> nvt t - qh t < fuel ->
  exists k d' w' t', prop_loop fuel d w t = Ok (k, d', w', t') /\ pout d w t k d' w' t'.
Proof.
  induction fuel as [|fuel IH]; intros d w t [H1 H2 H3 H4 H5] Hf; [lia|]. cbn [prop_loop].
  pose proof (TI_length t H1) as Hlen.
  destruct (Nat.ltb_spec (qh t) (length (tr t))) as [Hq|Hq].
  2:{ exists None, d, w, t. split; [reflexivity|]. constructor; auto; [exists []; rewrite app_nil_r; auto|apply aperm_refl|destruct d; reflexivity|eauto]. }
  set (p := nth (qh t) (tr t) 0). assert (Hp : In p (tr t)) by (apply nth_In; auto).
  set (t0 := with_qh (S (qh t)) t). assert (HT0 : TI t0) by (apply TI_with_qh; auto).
  destruct (binary_sound p (arena d) (wl (bw d) p) t0 HT0 Hp H2 (H5 p)) as (k & t1 & E1 & X1 & S1). unfold wl in E1. rewrite E1. cbn [bind].
  destruct k as [c|].
  { exists (Some c), d, w, t1. split; [reflexivity|]. destruct X1 as [X1 X2 X3 X4 X5]. constructor; auto; [apply aperm_refl|destruct d; reflexivity|eauto|].
    intros x Hx Ht. apply S1; auto. intros c' Hc'. apply Hx. exists p. auto. }
  assert (Hpw : p < length w) by (apply H3; apply (ti_range t H1); auto).
  assert (EV : virt p [] (wl w p) w = w) by (unfold virt; simpl; apply set_nth_self).
  destruct (watched_sound p (wl w p) [] (arena d) w t1) as (k & ws' & a' & w' & t2 & E & X2 & P2 & L2 & W2 & I2 & S2).
  { apply X1. } { apply (pext_in t0); auto. } { auto. } { rewrite (px_nvt _ _ X1). exact H2. } { rewrite (px_nvt _ _ X1). exact H3. } { rewrite EV. auto. }
  rewrite EV in I2. unfold wl in E. rewrite E. cbn [bind].
  assert (X3 := pext_trans _ _ _ X1 X2).
  assert (HS : forall x, (forall c, listed d w c -> sat_clause x (clits d c)) -> holds_all x (tr t) -> k = None /\ holds_all x (tr t2)).
  { intros x Hx Ht. apply S2; [intros c Hc; apply Hx; exists p; auto|]. apply S1; auto. intros c Hc. apply Hx. exists p. auto. }
  destruct k as [c|].
  { exists (Some c), (with_arena d a'), (set_nth p ws' w'), t2. split; [reflexivity|]. destruct X3 as [Y1 Y2 Y3 Y4 Y5].
    constructor; auto; try (cbn [with_arena arena]; auto). rewrite set_nth_length. auto. }
  assert (HP3 : pin (with_arena d a') (set_nth p ws' w') t2).
  { constructor; cbn [with_arena arena bw]; auto.
    - apply X3.
    - rewrite (px_nvt _ _ X3). apply (range_perm _ (arena d)); auto.
    - rewrite (px_nvt _ _ X3), set_nth_length, L2. exact H3.
    - apply (BS_perm (arena d)); auto. }
  destruct (IH _ _ _ HP3) as (k & d3 & w3 & t3 & E3 & O3).
  { rewrite (px_nvt _ _ X3), (px_qh _ _ X3). cbn [t0 with_qh nvt qh]. lia. }
  exists k, d3, w3, t3. split; [exact E3|]. destruct O3 as [O1 (n1 & O2) O3 O4 O5 O6 O7 O8 O9 O10]. destruct X3 as [Y1 (n2 & Y2) Y3 Y4 Y5].
  constructor; auto.
  - exists (n2 ++ n1). rewrite O2, Y2. cbn [t0 with_qh tr]. rewrite app_assoc. reflexivity.
  - rewrite O3, Y3. reflexivity.
  - rewrite O4, Y4. reflexivity.
  - apply (aperm_trans _ _ _ P2 O5).
  - rewrite O7, set_nth_length. auto.
  - intros c q Hi. destruct (O9 c q Hi) as (q' & Hq'). apply (I2 c q' Hq').
  - intros x Hx Ht. destruct (HS x Hx Ht) as (_ & HS2). apply O10; auto. intros c (q & Hc). apply (sat_perm x (arena d) a' c P2). apply Hx. destruct Hc as [Hc|Hc].
    + destruct (I2 c q Hc) as (q' & Hq'). exists q'. auto.
    + exists q. auto.
Qed.
Lemma propagate_sound d w t : pin d w t -> exists k d' w' t', propagate d w t = Ok (k, d', w', t') /\ pout d w t k d' w' t'.
Proof. intros H. apply loop_sound; auto. lia. Qed.
