(** The DRAT checker accepts valid proofs by unit propagation: propagation from several fresh decisions is complete. *)
Require Import List Arith Bool NArith Lia Permutation.
Require Import Verif.Base Verif.CNFModel Verif.CNFProofs Verif.HeapProofs Verif.Outcome Verif.TrailModel Verif.TrailProofs Verif.TrailLemmas
  Verif.DbModel Verif.PropModel Verif.PropProofs Verif.DbProofs Verif.PropLemmas Verif.DRATModel Verif.DRATSpec Verif.DRATProofs Verif.CertSpec.
Import ListNotations.

(** ** Propagation reaches a state in which every clause is satisfied or has two open literals *)
Definition WSat (d : db) (w : watches) (t : trail_t) (q : lit) : Prop :=
  (forall c b, In (c, b) (wl w q) -> exists m, In m (alits (arena d) c) /\ value t m = Some true) /\
  (forall c o, In (c, o) (wl (bw d) q) -> value t o = Some true).
Definition Fin (d : db) (w : watches) (t : trail_t) (n : nat) : Prop :=
  forall i q, i < n -> nth_error (tr t) i = Some q -> WSat d w t q.

(** the lists of true literals are not extended *)
Lemma pw_keep p q : forall ws kept a w t k ws' a' w' t', TI t -> WFA (nvt t) a -> value t q = Some true ->
  prop_watched p ws kept a w t = Ok (k, ws', a', w', t') -> wl w' q = wl w q.
Proof.
  induction ws as [|[c b] r IH]; intros kept a w t k ws' a' w' t' HT HA Hq H; cbn [prop_watched] in H.
  - inversion H; subst. reflexivity.
  - destruct (is_true (value t b)); [eapply IH; eauto|].
    destruct (lits (nth c a cnull)) as [|x [|y rest]] eqn:EL; try discriminate.
    assert (EL' : alits a c = x :: y :: rest) by exact EL.
    assert (HP : forall f s, (f, s) = (if x =? lneg p then (y, x) else (x, y)) -> Permutation (alits a c) (f :: s :: rest)).
    { intros f s E. rewrite EL'. destruct (x =? lneg p); inversion E; subst; [apply perm_swap|apply Permutation_refl]. }
    destruct (if x =? lneg p then (y, x) else (x, y)) as [f s]. specialize (HP f s eq_refl).
    assert (HA1 : WFA (nvt t) (set_lits c (f :: s :: rest) a)) by (eapply WFA_perm; [apply aperm_set; exact HP|auto]).
    destruct (is_true (value t f)) eqn:Ef; [eapply IH; [exact HT|exact HA1|exact Hq|exact H]|].
    destruct (find_watch t rest) as [j|] eqn:EF.
    + destruct (lneg (nth j rest 0) =? p); [discriminate|].
      destruct (find_watch_some _ _ _ EF) as [Hj Hv].
      assert (Hlt : c < length a) by (apply (alits_lt a c x); rewrite EL'; simpl; auto).
      apply IH in H; auto.
      * rewrite H. apply wl_push_other. intros ->. apply value_neg_true in Hq. contradiction.
      * eapply WFA_perm; [apply aperm_set|exact HA1]. rewrite alits_set_same by auto.
        apply perm_skip. apply swap_perm. auto.
    + destruct (is_false (value t f)) eqn:Eff; [inversion H; subst; reflexivity|].
      apply bind_ok in H. destruct H as ([b1 t1] & H1 & H2).
      assert (Hn : value t f = None) by (destruct (value t f) as [[|]|]; try discriminate; auto).
      assert (Hfv : lvar f < nvt t).
      { apply (HA c). apply (Permutation_in _ (Permutation_sym HP)). simpl; auto. }
      rewrite tpropagate_push in H1; [|eapply TI_room; eauto|congruence]. inversion H1; subst b1 t1.
      apply (IH _ _ _ _ _ _ _ _ _ (TI_push f (Some c) t HT Hn Hfv) HA1) in H2; auto.
      apply value_push_other; auto. rewrite (ti_asg t HT). auto.
Qed.

Lemma fin_loop fuel : forall d w t k d' w' t', PInv d w t -> prop_loop fuel d w t = Ok (k, d', w', t') -> k = None ->
  Fin d w t (qh t) -> Fin d' w' t' (length (tr t')).
Proof.
  induction fuel as [|fuel IH]; intros d w t k d' w' t' HI H Hk HF; cbn [prop_loop] in H; [discriminate|].
  pose proof (pi_TI _ _ _ HI) as HT.
  destruct (Nat.ltb_spec (qh t) (length (tr t))) as [Hq|Hq].
  2:{ inversion H; subst. pose proof (ti_qh t' HT). replace (length (tr t')) with (qh t') by lia. exact HF. }
  set (p := nth (qh t) (tr t) 0) in *.
  assert (Hpn : nth_error (tr t) (qh t) = Some p) by (apply nth_error_nth'; auto).
  assert (Hp : In p (tr t)) by (eapply nth_error_In; eauto).
  set (t0 := with_qh (S (qh t)) t) in *.
  assert (HT0 : TI t0) by (apply TI_with_qh; auto).
  assert (HR0 : TRe (arena d) t0) by exact (pi_TRe _ _ _ HI).
  assert (HA0 : WFA (nvt t0) (arena d)) by exact (pi_WFA _ _ _ HI).
  assert (Hp0 : In p (tr t0)) by exact Hp.
  assert (HB : BWl (arena d) p (wl (bw d) p)) by exact (pi_BW _ _ _ HI p).
  destruct (prop_binary_spec (arena d) p (wl (bw d) p) t0 HT0 HR0 HA0 Hp0 HB) as (k1 & t1 & E1 & T1 & R1 & X1 & C1 & N1).
  unfold wl in E1. rewrite E1 in H. cbn [bind] in H. destruct k1 as [c|]; [inversion H; subst; discriminate|].
  assert (HA2 : WFA (nvt t1) (arena d)) by (rewrite (tx_nvt _ _ X1); exact (pi_WFA _ _ _ HI)).
  assert (Hp1 : In p (tr t1)) by (eapply text_in; eauto).
  assert (Hpw : p < length w) by (apply (pi_len _ _ _ HI); apply (ti_range t HT); auto).
  assert (Hw1 : forall l, lvar l < nvt t1 -> l < length w) by (rewrite (tx_nvt _ _ X1); exact (pi_len _ _ _ HI)).
  assert (EV : virt p [] (wl w p) w = w) by (unfold virt; simpl; apply set_nth_self).
  destruct (prop_watched_spec p (wl w p) [] (arena d) w t1 T1 R1 HA2 Hp1 Hpw Hw1) as
    (k2 & ws' & a' & w1 & t2 & E & A1 & A2 & A3 & A4 & A5 & A6 & A7 & A8 & A9 & A10 & A11 & A12).
  { rewrite EV. exact (pi_W1 _ _ _ HI). } { rewrite EV. exact (pi_W2 _ _ _ HI). }
  rewrite EV in *. unfold wl in E. rewrite E in H. cbn [bind] in H.
  destruct k2 as [c|]; [inversion H; subst; discriminate|].
  assert (X2 : text t0 t2) by (eapply text_trans; eauto).
  assert (Hqh2 : qh t2 = S (qh t)) by (rewrite (tx_qh _ _ X2); reflexivity).
  assert (Hlw2 : length (set_nth p ws' w1) = length w) by (rewrite set_nth_length; auto).
  apply (IH _ _ _ _ _ _ _) in H; auto.
  - constructor; auto.
    + rewrite (tx_nvt _ _ X2). eapply WFA_perm; [exact A4|]. exact (pi_WFA _ _ _ HI).
    + eapply BW_perm; [exact A4|]. exact (pi_BW _ _ _ HI).
    + rewrite (tx_nvt _ _ X2), Hlw2. exact (pi_len _ _ _ HI).
  - rewrite Hqh2. intros i q Hi Hnq.
    assert (Hnq0 : nth_error (tr t) i = Some q).
    { rewrite <- Hnq. symmetry. apply (text_nth t0 t2 i q X2). change (tr t0) with (tr t). lia. }
    destruct (Nat.eq_dec i (qh t)) as [->|Hn].
    + assert (q = p) by congruence. subst q. split.
      * intros c b Hcb. rewrite wl_set_same in Hcb by congruence. cbn [with_arena arena].
        destruct (A11 eq_refl) with (c := c) (b := b) as (m & Hm & Hv); auto; [intros ? ? []|]. eauto.
      * intros c o Hco. apply (text_true t1 t2); auto. eapply N1; eauto.
    + destruct (HF i q ltac:(lia) Hnq0) as [D1 D2].
      assert (Hqp : q <> p) by (intros ->; pose proof (tr_nth_inj t _ _ _ _ HT Hnq0 Hpn eq_refl); lia).
      assert (Hq1 : value t1 q = Some true).
      { apply (text_true t0 t1); auto. apply (ti_val t HT). eapply nth_error_In; eauto. }
      split.
      * intros c b Hcb. rewrite wl_set_other in Hcb by auto. rewrite (pw_keep p q _ _ _ _ _ _ _ _ _ _ T1 HA2 Hq1 E) in Hcb.
        destruct (D1 c b Hcb) as (m & M1 & M2). exists m. cbn [with_arena arena]. split; [apply (aperm_in _ _ c m A4); auto|].
        apply (text_true t0 t2); auto.
      * intros c o Hco. apply (text_true t0 t2); auto. exact (D2 c o Hco).
Qed.

Lemma propagate_fin d w t d' w' t' : PInv d w t -> qh t = 0 -> propagate d w t = Ok (None, d', w', t') ->
  Fin d' w' t' (length (tr t')).
Proof. intros H Hq E. apply (fin_loop _ _ _ _ _ _ _ _ H E); auto. rewrite Hq. intros i q Hi. lia. Qed.

Lemma Fin_clause n d w t k : PInv d w t -> DI n d -> Fin d w t (length (tr t)) -> In k (cls d) -> cwt d k = 0%N ->
  2 <= length (clits d k) -> (3 <= length (clits d k) -> watched2 (arena d) w k) ->
  (exists m, In m (clits d k) /\ value t m = Some true) \/
  (exists m1 m2, In m1 (clits d k) /\ In m2 (clits d k) /\ m1 <> m2 /\ value t m1 = None /\ value t m2 = None).
Proof.
  intros HP HD HDn Hc Hw Hl HC. pose proof (pi_TI _ _ _ HP) as HT.
  pose proof (proj1 (di_WFA _ _ HD k)) as Hnd. change (alits (arena d) k) with (clits d k) in Hnd.
  assert (Hpos : forall m, value t m = Some false -> exists i, i < length (tr t) /\ nth_error (tr t) i = Some (lneg m)).
  { intros m Hm. apply (ti_val_false t m HT) in Hm. apply In_nth_error in Hm. destruct Hm as (i & Hi). exists i. split; auto.
    apply nth_error_Some. congruence. }
  destruct (Nat.eq_dec (length (clits d k)) 2) as [E2|E2].
  - assert (Hx : forall x, In x (clits d k) -> value t x = Some false -> exists m, In m (clits d k) /\ value t m = Some true).
    { intros x Hin Hv. destruct (Hpos x Hv) as (i & Hi & Ei). destruct (HDn i _ Hi Ei) as [_ D2].
      destruct (di_cov2 _ _ HD k x Hc Hw E2 Hin) as (o & Ho). pose proof (D2 k o Ho) as V. exists o. split; auto.
      apply (di_BW _ _ HD (lneg x) k o Ho o). auto. }
    destruct (clits d k) as [|x [|y [|]]]; try discriminate.
    destruct (value t x) as [[|]|] eqn:Vx; [left; exists x; simpl; auto|left; apply (Hx x); simpl; auto|].
    destruct (value t y) as [[|]|] eqn:Vy; [left; exists y; simpl; auto|left; apply (Hx y); simpl; auto|].
    right. exists x, y. simpl. split; auto. split; auto. split; auto. intros ->. simpl in Hnd. inversion Hnd as [|? ? Hn _]. apply Hn. simpl; auto.
  - destruct HC as (x & y & z & r & E & Wx & Wy); [lia|]. change (alits (arena d) k) with (clits d k) in E.
    assert (Hx : forall x, In k (map fst (wl w (lneg x))) -> value t x = Some false -> exists m, In m (clits d k) /\ value t m = Some true).
    { intros u Hin Hv. destruct (Hpos u Hv) as (i & Hi & Ei). destruct (HDn i _ Hi Ei) as [D1 _]. apply in_map_iff in Hin.
      destruct Hin as ([c' b] & Ec & Hin). simpl in Ec. subst c'. destruct (D1 k b Hin) as (m & M1 & M2). exists m. auto. }
    destruct (value t x) as [[|]|] eqn:Vx; [left; exists x; rewrite E; simpl; auto|left; apply (Hx x); auto|].
    destruct (value t y) as [[|]|] eqn:Vy; [left; exists y; rewrite E; simpl; auto|left; apply (Hx y); auto|].
    right. exists x, y. rewrite E. simpl. split; auto. split; auto. split; auto. intros ->. rewrite E in Hnd. simpl in Hnd. inversion Hnd as [|? ? Hn _]. apply Hn. simpl; auto.
Qed.

(** ** The invariant of the checker between two lines *)
Definition holds_clause (d : db) (c : clause) (k : cid) : Prop := In k (cls d) /\ cwt d k = 0%N /\ same_lits c (clits d k).
Definition long (c : clause) : bool := 2 <=? length c.
Definition Match (P : formula) (d : db) : Prop := exists M, NoDup M /\ Forall2 (holds_clause d) (filter long P) M.

Record CI (n : nat) (s : chk) : Prop := {
  ci_D : DI n (k_d s);
  ci_P : PInv (k_d s) (k_w s) (k_t s);
  ci_n : nvt (k_t s) = n;
  ci_lim : lim (k_t s) = [];
  ci_qh : qh (k_t s) = 0;
  ci_C3 : forall k, In k (cls (k_d s)) -> cwt (k_d s) k = 0%N -> 3 <= length (clits (k_d s) k) -> watched2 (arena (k_d s)) (k_w s) k;
  ci_W : forall k q, In k (map fst (wl (k_w s) q)) -> k < length (arena (k_d s));
  ci_O : forall x k, In k (nth x (k_occ s) []) -> In x (clits (k_d s) k) }.

(** [P]: the clauses present in the derivation; [A]: all clauses that were ever present *)
Record CS (n : nat) (P A : formula) (s : chk) : Prop := {
  cs_C : CI n s;
  cs_e : empt (k_d s) = false;
  cs_M : Match P (k_d s);
  cs_u : forall l, In [l] P -> In l (tr (k_t s));
  cs_0 : ~ In [] P;
  cs_t : forall l, In l (tr (k_t s)) -> In [l] A;
  cs_A : incl P A;
  cs_w : forall c, In c P -> wfc n c }.

(** ** Unit propagation as a relation *)
Lemma up_mono P P' A A' l : incl P P' -> incl A A' -> up P A l -> up P' A' l.
Proof. intros HP HA H. induction H as [l Hl|c l Hc Hl _ IH]; [apply up_assumed; auto|apply (up_unit _ _ c l); auto]. Qed.
Lemma up_cut P A B l : (forall m, In m B -> up P A m) -> up P B l -> up P A l.
Proof. intros HB H. induction H as [l Hl|c l Hc Hl _ IH]; [auto|apply (up_unit _ _ c l); auto]. Qed.
Lemma up_fact P A l : In [l] P -> up P A l.
Proof. intros H. apply (up_unit _ _ [l] l); simpl; auto. intros m [<-|[]] Hn. contradiction. Qed.

(** a lemma whose literals are all false by facts is refuted without assumptions *)
Lemma rup_facts P A c : incl P A -> (forall l, In l c -> In [lneg l] A) -> rup P c -> rup A [].
Proof.
  intros HP HF (e & He & Hm). exists e. split; auto. intros m Hin. apply (up_cut _ _ (map lneg c)).
  - intros x Hx. apply in_map_iff in Hx. destruct Hx as (l & <- & Hl). apply up_fact. auto.
  - apply (up_mono P _ (map lneg c) _); auto; intros ? ?; auto.
Qed.

(** ** Deciding the negated literals *)
Lemma PInv_newlevel d w t : PInv d w t -> PInv d w (newDecisionLevel t).
Proof. intros H. constructor; try solve [apply H]. apply TI_newlevel. apply H. Qed.
Lemma PInv_backtrack d w t n : PInv d w t -> PInv d w (backtrack n t).
Proof.
  intros HP. destruct (Nat.ltb_spec n (dlevel t)) as [Hn|Hn].
  2:{ unfold backtrack. destruct (Nat.ltb_spec n (dlevel t)); [lia|auto]. }
  pose proof (pi_TI _ _ _ HP) as HT.
  destruct (backtrack_fields n t Hn) as (E1 & E2 & E3 & E4 & E5 & E6 & E7).
  constructor; try solve [apply HP]; try (rewrite E3; apply HP).
  - apply TI_backtrack; auto.
  - intros i l c Hi Hr. rewrite E1 in *. apply nth_error_firstn_iff in Hi. destruct Hi as [Hk Hi].
    unfold reason in Hr. rewrite E4 in Hr. destruct (pi_TRe _ _ _ HP i l c Hi Hr) as [H1 H2]. split; auto.
    intros m Hm Hne. destruct (H2 m Hm Hne) as (j & Hj & Ej). exists j. split; auto. apply nth_error_firstn_iff. split; auto. lia.
Qed.

Definition dext_t (t t' : trail_t) : Prop :=
  t' = t \/ exists r new, lim t' = lim t ++ length (tr t) :: r /\ tr t' = tr t ++ new.

Lemma decide_all d w ls : forall t b t', PInv d w t -> (forall l, In l ls -> lvar l < nvt t) ->
  asymm_decide None ls t = Ok (b, t') ->
  PInv d w t' /\ nvt t' = nvt t /\ qh t' = qh t /\ dext_t t t' /\ (forall m, In m (tr t) -> In m (tr t')) /\
  (b = false -> forall l, In l ls -> In (lneg l) (tr t')).
Proof.
  induction ls as [|l r IH]; intros t b t' HP HV H; cbn [asymm_decide is_pivot] in H.
  - inversion H; subst. split; auto. split; auto. split; auto. split; [left; auto|]. split; auto. intros _ l [].
  - pose proof (pi_TI _ _ _ HP) as HT.
    destruct (is_false (value t (lneg l))) eqn:E1.
    { inversion H; subst. split; auto. split; auto. split; auto. split; [left; auto|]. split; auto. discriminate. }
    destruct (is_true (value t (lneg l))) eqn:E2.
    { apply is_true_iff in E2. destruct (IH t b t' HP (fun m Hm => HV m (or_intror Hm)) H) as (A1 & A2 & A3 & A4 & A5 & A6).
      split; auto. split; auto. split; auto. split; auto. split; auto. intros Hb m [<-|Hm]; [|auto]. apply A5. apply (ti_val t HT). auto. }
    assert (Hn : value t (lneg l) = None) by (destruct (value t (lneg l)) as [[|]|]; try discriminate; auto).
    assert (Hlv : lvar (lneg l) < nvt t) by (rewrite lvar_neg; apply HV; simpl; auto).
    rewrite decide_push in H by (apply (TI_room t (lneg l)); auto). cbn [bind] in H.
    set (t0 := newDecisionLevel t) in *. assert (HP0 : PInv d w t0) by (apply PInv_newlevel; auto).
    assert (HP1 : PInv d w (tpush (lneg l) None t0)) by (apply PInv_push_none; auto).
    destruct (IH _ b t' HP1 (fun m Hm => HV m (or_intror Hm)) H) as (A1 & A2 & A3 & A4 & A5 & A6).
    split; auto. split; [exact A2|]. split; [exact A3|]. split.
    + right. destruct A4 as [->|(r1 & new & B1 & B2)].
      * exists [], [lneg l]. cbn [tpush tr lim t0 newDecisionLevel]. auto.
      * cbn [tpush tr lim t0 newDecisionLevel] in B1, B2. rewrite <- app_assoc in B1, B2. simpl in B1, B2. eauto.
    + split; [intros m Hm; apply A5; cbn [tpush tr t0 newDecisionLevel]; apply in_or_app; auto|].
      intros Hb m [<-|Hm]; [|auto]. apply A5. cbn [tpush tr]. apply in_or_app. simpl; auto.
Qed.

(** ** The check of a lemma in a state between two lines *)
Lemma Match_aperm P d a : aperm (arena d) a -> Match P d -> Match P (with_arena d a).
Proof.
  intros HA (M & H1 & H2). exists M. split; auto. clear H1. induction H2 as [|c k Q M (B1 & B2 & B3) _ IH]; constructor; auto.
  split; [exact B1|]. split; [rewrite <- B2; apply (proj2 (proj2 HA k))|]. intros l. rewrite (B3 l). apply (aperm_in (arena d) a k l HA).
Qed.

Lemma back_same t t' : lim t = [] -> (exists r new, lim t' = lim t ++ length (tr t) :: r /\ tr t' = tr t ++ new) ->
  forall t2, lim t2 = lim t' -> (exists new, tr t2 = tr t' ++ new) ->
  tr (backtrack 0 t2) = tr t /\ lim (backtrack 0 t2) = [] /\ qh (backtrack 0 t2) = 0 /\ nvt (backtrack 0 t2) = nvt t2.
Proof.
  intros E (r & new & B1 & B2) t2 EL (nw & B3).
  rewrite E in B1. simpl in B1. assert (Hd : 0 < dlevel t2) by (unfold dlevel; rewrite EL, B1; simpl; lia).
  destruct (backtrack_fields 0 t2 Hd) as (F1 & F2 & F3 & F4 & F5 & F6 & F7). rewrite F1, F2, F3, F7. rewrite EL, B1, B3, B2. simpl nth.
  split; [|auto]. rewrite <- app_assoc. rewrite firstn_app, Nat.sub_diag, firstn_all. simpl. apply app_nil_r.
Qed.

Lemma wfc_nodup n c : wfc n c -> NoDup c.
Proof. intros [H _]. eapply NoDup_map_inv; eauto. Qed.
Lemma same_len n m c c' : wfc n c -> wfc m c' -> same_lits c c' -> length c = length c'.
Proof.
  intros H H' HS. apply Nat.le_antisymm; apply NoDup_incl_length; try (eapply wfc_nodup; eauto); intros l Hl; apply HS; auto.
Qed.
Lemma Forall2_in {X Y} (R : X -> Y -> Prop) l m x : Forall2 R l m -> In x l -> exists y, In y m /\ R x y.
Proof. intros H. induction H as [|a b l m Hab _ IH]; [intros []|]. intros [<-|Hi]; [exists b; simpl; auto|]. destruct (IH Hi) as (y & Hy & Hr). exists y. simpl; auto. Qed.

Lemma no_rup n P d w t c : PInv d w t -> DI n d -> Fin d w t (length (tr t)) -> Match P d ->
  (forall k, In k (cls d) -> cwt d k = 0%N -> 3 <= length (clits d k) -> watched2 (arena d) w k) ->
  (forall l, In [l] P -> In l (tr t)) -> ~ In [] P -> (forall c, In c P -> wfc n c) ->
  (forall l, In l c -> In (lneg l) (tr t)) -> ~ rup P c.
Proof.
  intros HP HD HF (M & _ & HM) HC HU H0 HW HN (e & He & Hm). pose proof (pi_TI _ _ _ HP) as HT.
  assert (HL : forall e, In e P -> 2 <= length e ->
    (exists m, In m e /\ In m (tr t)) \/ (exists m1 m2, In m1 e /\ In m2 e /\ m1 <> m2 /\ value t m1 = None /\ value t m2 = None)).
  { intros e1 He1 Hl. destruct (Forall2_in _ _ _ e1 HM) as (k & _ & K1 & K2 & K3).
    { apply filter_In. split; auto. apply Nat.leb_le. auto. }
    rewrite (same_len n n e1 (clits d k)) in Hl; auto; [|apply wfc_alits; apply HD].
    destruct (Fin_clause n d w t k HP HD HF K1 K2 Hl (HC k K1 K2)) as [(m & M1 & M2)|(m1 & m2 & M1 & M2 & M3)].
    - left. exists m. split; [apply K3; auto|apply (ti_val t HT); auto].
    - right. exists m1, m2. split; [apply K3; auto|]. split; [apply K3; auto|auto]. }
  assert (Hfal : forall m, In (lneg m) (tr t) -> value t m = Some false) by (intros m; apply (ti_val_false t m HT)).
  assert (Hup : forall l, up P (map lneg c) l -> In l (tr t)).
  { intros l H. induction H as [l Hl|e1 l He1 Hl _ IH].
    - apply in_map_iff in Hl. destruct Hl as (x & <- & Hx). auto.
    - destruct (Nat.lt_ge_cases (length e1) 2) as [Hlen|Hlen].
      + destruct e1 as [|x [|]]; simpl in Hlen; try lia; [destruct Hl|]. destruct Hl as [->|[]]. auto.
      + destruct (HL e1 He1 Hlen) as [(m & M1 & M2)|(m1 & m2 & M1 & M2 & M3 & M4 & M5)].
        * destruct (Nat.eq_dec m l) as [->|Hne]; auto. specialize (Hfal m (IH m M1 Hne)). apply (ti_val t HT) in M2. congruence.
        * exfalso. destruct (Nat.eq_dec m1 l) as [->|Hne].
          -- rewrite (Hfal m2 (IH m2 M2 (fun E => M3 (eq_sym E)))) in M5. discriminate.
          -- rewrite (Hfal m1 (IH m1 M1 Hne)) in M4. discriminate. }
  destruct (Nat.lt_ge_cases (length e) 2) as [Hlen|Hlen].
  - destruct e as [|x [|]]; simpl in Hlen; try lia; [auto|]. specialize (Hfal x (Hup _ (Hm x (or_introl eq_refl)))).
    apply HU in He. apply (ti_val t HT) in He. congruence.
  - destruct (HL e He Hlen) as [(m & M1 & M2)|(m1 & m2 & M1 & _ & _ & M4 & _)].
    + specialize (Hfal m (Hup _ (Hm m M1))). apply (ti_val t HT) in M2. congruence.
    + rewrite (Hfal m1 (Hup _ (Hm m1 M1))) in M4. discriminate.
Qed.

Lemma CS_change n P A s d' w' t' : CS n P A s -> aperm (arena (k_d s)) (arena d') -> d' = with_arena (k_d s) (arena d') ->
  PInv d' w' t' -> (forall c, watched2 (arena (k_d s)) (k_w s) c -> watched2 (arena d') w' c) ->
  (forall c q, In c (map fst (wl w' q)) -> exists q', In c (map fst (wl (k_w s) q'))) ->
  tr t' = tr (k_t s) -> lim t' = [] -> qh t' = 0 -> nvt t' = nvt (k_t s) ->
  CS n P A (mkChk d' t' w' (k_occ s) (k_del s)).
Proof.
  intros H HA HD HP H2 HI E1 E2 E3 E4. pose proof (cs_C _ _ _ _ H) as HC.
  assert (El : forall k, length (clits d' k) = length (clits (k_d s) k)) by (intros k; symmetry; apply (aperm_len _ _ k HA)).
  assert (Ec : cls d' = cls (k_d s)) by (rewrite HD; reflexivity).
  assert (Ew : forall k, cwt d' k = cwt (k_d s) k) by (intros k; apply (proj2 (proj2 HA k))).
  constructor; cbn [k_d k_t k_w k_occ]; try rewrite E1; try solve [apply H].
  - constructor; cbn [k_d k_t k_w k_occ]; auto.
    + rewrite HD. apply aperm_DI; auto. apply HC.
    + rewrite E4. apply HC.
    + intros k. rewrite Ec, Ew, El. intros K1 K2 K3. apply H2. apply (ci_C3 _ _ HC); auto.
    + intros k q Hk. destruct (HI k q Hk) as (q' & Hq'). rewrite (proj1 HA). apply (ci_W _ _ HC k q'); auto.
    + intros x k Hk. apply (aperm_in _ _ k x HA). apply (ci_O _ _ HC); auto.
  - rewrite HD. apply H.
  - rewrite HD. apply Match_aperm; auto. apply H.
Qed.

Lemma check_step n P A s ls b s1 : CS n P A s -> wfc n ls -> rup P ls -> check_asymm ls None s = Ok (b, s1) ->
  b = true /\ ((exists l, In l ls /\ ~ In (lneg l) (tr (k_t s))) -> CS n P A (chk_backtrack 0 s1)).
Proof.
  intros HS HW HR H. unfold check_asymm in H. rewrite (cs_e _ _ _ _ HS) in H. apply bind_ok in H. destruct H as ([b0 t'] & H1 & H).
  pose proof (cs_C _ _ _ _ HS) as HC. destruct s as [d t w occ del]. cbn [k_d k_t k_w k_occ k_del] in *.
  assert (HV : forall l, In l ls -> lvar l < nvt t) by (intros l Hl; pose proof (ci_n _ _ HC) as En; cbn [k_t] in En; rewrite En; apply HW; auto).
  destruct (decide_all d w ls t b0 t' (ci_P _ _ HC) HV H1) as (A1 & A2 & A3 & A4 & A5 & A6).
  pose proof (ci_lim _ _ HC) as HL. cbn [k_t] in HL.
  destruct b0.
  - inversion H; subst b s1. split; auto. intros _. destruct A4 as [->|Hx].
    + unfold chk_backtrack, backtrack, dlevel. cbn [k_d k_t k_w k_occ k_del]. rewrite HL. exact HS.
    + destruct (back_same t t' HL Hx t' eq_refl) as (B1 & B2 & B3 & B4); [exists []; symmetry; apply app_nil_r|].
      apply (CS_change n P A _ d w (backtrack 0 t') HS); auto.
      * apply aperm_refl.
      * destruct d; reflexivity.
      * apply PInv_backtrack; auto.
      * eauto.
      * rewrite B4. exact A2.
  - apply bind_ok in H. destruct H as ([[[k d'] w'] t2] & H2 & H). inversion H; subst b s1. clear H.
    destruct (propagate_spec d w t' A1) as (k1 & d1 & w1 & t1 & E & HPR). rewrite H2 in E. inversion E; subst k1 d1 w1 t1. clear E.
    destruct HPR as (R1 & R2 & R3 & R4 & R5 & R6 & R7 & R8 & _ & _ & R11).
    destruct k as [c|].
    + split; auto. intros HNR. destruct A4 as [->|Hx].
      * exfalso. destruct HNR as (l & Hl & Hn). apply Hn. apply A6; auto.
      * destruct (tx_tr _ _ R2) as (nw & N1 & _). pose proof (tx_lim _ _ R2) as N2. cbn [with_qh tr lim] in N1, N2.
        destruct (back_same t t' HL Hx t2 N2 (ex_intro _ nw N1)) as (B1 & B2 & B3 & B4).
        apply (CS_change n P A _ d' w' (backtrack 0 t2) HS); auto.
        -- apply PInv_backtrack; auto.
        -- rewrite B4. pose proof (tx_nvt _ _ R2) as N3. cbn [with_qh nvt] in N3. rewrite N3. exact A2.
    + exfalso. destruct (tx_tr _ _ R2) as (nw & N1 & _). cbn [with_qh tr] in N1.
      assert (Hq : qh t' = 0) by (rewrite A3; apply (ci_qh _ _ HC)).
      assert (HIn : forall m, In m (tr t') -> In m (tr t2)) by (intros m Hm; rewrite N1; apply in_or_app; auto).
      pose proof (propagate_fin d w t' d' w' t2 A1 Hq H2) as HF.
      assert (El : forall k, length (clits d' k) = length (clits d k)) by (intros k; symmetry; apply (aperm_len _ _ k R4)).
      assert (Ew : forall k, cwt d' k = cwt d k) by (intros k; apply (proj2 (proj2 R4 k))).
      assert (HDI : DI n d') by (rewrite R5; apply aperm_DI; auto; apply HC).
      apply (no_rup n P d' w' t2 ls R1 HDI HF); auto; try apply HS.
      * rewrite R5. apply Match_aperm; auto. apply HS.
      * intros k. rewrite R5. cbn [with_arena cls]. rewrite <- R5, Ew, El. intros K1 K2 K3. apply R7. apply (ci_C3 _ _ HC); auto.
      * intros l Hl. apply HIn, A5. apply (cs_u _ _ _ _ HS); auto.
Qed.

(** a lemma of one literal that is false already *)
Lemma false_unit n P A s l b s1 : CS n P A s -> In (lneg l) (tr (k_t s)) -> check_asymm [l] None s = Ok (b, s1) ->
  value (k_t (chk_backtrack 0 s1)) l = Some false.
Proof.
  intros HS Hl H. unfold check_asymm in H. rewrite (cs_e _ _ _ _ HS) in H. pose proof (cs_C _ _ _ _ HS) as HC.
  destruct s as [d t w occ del]. cbn [k_d k_t k_w k_occ k_del] in *. pose proof (ci_P _ _ HC) as HP. cbn [k_d k_t k_w] in HP.
  assert (Hv : value t (lneg l) = Some true) by (apply (ti_val t (pi_TI _ _ _ HP)); auto).
  cbn [asymm_decide is_pivot] in H. rewrite Hv in H. cbn [is_false is_true bind] in H.
  destruct (propagate_spec d w t HP) as (k1 & d1 & w1 & t1 & E & HPR). rewrite E in H. cbn [bind] in H. inversion H; subst b s1. clear H.
  destruct HPR as (R1 & R2 & _). destruct (tx_tr _ _ R2) as (nw & N1 & _). pose proof (tx_lim _ _ R2) as N2. cbn [with_qh tr lim] in N1, N2.
  assert (HL : lim t = []) by apply (ci_lim _ _ HC). unfold chk_backtrack, backtrack, dlevel. cbn [k_t]. rewrite N2, HL. cbn [length Nat.ltb Nat.leb].
  apply (ti_val_false t1 l (pi_TI _ _ _ R1)). rewrite N1. apply in_or_app. auto.
Qed.

(** ** Adding the lemma to the database *)
Lemma push_nth_in {A} i (x : A) o j y : In y (nth j (push_at i x o) []) -> In y (nth j o []) \/ (j = i /\ y = x).
Proof.
  unfold push_at. rewrite nth_set_nth. destruct ((j =? i) && (i <? length o)) eqn:E; [|auto].
  apply andb_true_iff in E. destruct E as [E _]. apply Nat.eqb_eq in E. subst j. intros H. apply in_app_or in H.
  destruct H as [H|[<-|[]]]; auto.
Qed.
Lemma occ_add_in d o c x k : In k (nth x (occ_add d o c) []) -> In k (nth x o []) \/ (k = c /\ In x (clits d c)).
Proof.
  unfold occ_add. generalize (clits d c) as ls. intros ls. revert o. induction ls as [|l r IH]; intros o H; [auto|].
  cbn [fold_left] in H. apply IH in H. destruct H as [H|[-> H]]; [|simpl; auto]. apply push_nth_in in H. destruct H as [H|[-> ->]]; simpl; auto.
Qed.
Lemma occ_all_in d x k : In k (nth x (occ_all d) []) -> In x (clits d k).
Proof.
  unfold occ_all. assert (H : forall cs o, In k (nth x (fold_left (occ_add d) cs o) []) -> In k (nth x o []) \/ In x (clits d k)).
  { induction cs as [|c r IH]; intros o H; [auto|]. cbn [fold_left] in H. apply IH in H. destruct H as [H|H]; auto.
    apply occ_add_in in H. destruct H as [H|[-> H]]; auto. }
  intros H1. apply H in H1. destruct H1 as [H1|H1]; auto. exfalso. clear H. revert H1. generalize (2 * nv d) as n. intros n. revert x.
  induction n as [|n IH]; intros [|x]; simpl; auto. apply IH.
Qed.

Lemma CI_create n s ls c d' : CI n s -> wfc n ls -> createClause ls 0 false (k_d s) = Ok (c, d') ->
  CI n (mkChk d' (k_t s) (if 2 <? length (clits d' c) then attachClause d' c (k_w s) else k_w s) (occ_add d' (k_occ s) c) (k_del s)) /\
  clits d' c = ls /\ In c (cls d') /\ cwt d' c = 0%N /\ c = length (arena (k_d s)) /\
  (forall k, In k (cls (k_d s)) -> In k (cls d') /\ clits d' k = clits (k_d s) k /\ cwt d' k = cwt (k_d s) k /\ k <> c).
Proof.
  intros HC Hwf Hcr. destruct s as [d t w occ del]. cbn [k_d k_t k_w k_occ k_del] in *.
  destruct HC as [HD HP Hn HL Hq H3 HW HO]. cbn [k_d k_t k_w k_occ k_del] in *.
  pose proof (createClause_DI _ _ _ _ _ _ _ HD Hwf Hcr) as HD'.
  pose proof (createClause_bw _ _ _ _ _ _ Hcr) as Hbw. pose proof (createClause_wt _ _ _ _ _ _ Hcr) as Hwt.
  destruct (createClause_created _ _ _ _ _ _ Hcr) as (C1 & C2 & C3 & _ & C5).
  assert (E0 : (if length ls <? 3 then 0%N else (0 mod 65536)%N) = 0%N) by (destruct (length ls <? 3); reflexivity).
  rewrite E0 in Hwt. set (a := arena d) in *.
  assert (Hold : forall i, i < length a -> alits (arena d') i = alits a i) by (intros i Hi; rewrite Hwt; apply alits_app; auto).
  assert (Hnew : clits d' c = ls) by (rewrite clits_alits, Hwt, C1; apply alits_new).
  assert (HTRe : TRe (arena d') t).
  { intros i l c' Hi Hrs. destruct (pi_TRe _ _ _ HP i l c' Hi Hrs) as [H1 H2]. rewrite Hold by (eapply alits_lt; eauto). auto. }
  assert (HW1 : W1 (arena d') w).
  { intros p c' b Hin. destruct (pi_W1 _ _ _ HP p c' b Hin) as [H1 H2]. rewrite Hold by (eapply alits_lt; eauto). auto. }
  assert (Hlt : forall q, In q (cls d) -> q < length a) by (intros q Hq'; apply (di_rng _ _ HD), (di_cls _ _ HD); auto).
  assert (Hnotw : forall q, ~ In c (map fst (wl w q))) by (intros q Hq'; apply HW in Hq'; lia).
  assert (HlenN : forall l, In l (clits d' c) -> lneg l < length w).
  { intros l Hl. apply (pi_len _ _ _ HP). rewrite lvar_neg, Hn. apply Hwf. rewrite Hnew in Hl. auto. }
  set (w' := if 2 <? length (clits d' c) then attachClause d' c w else w).
  assert (Hw' : W1 (arena d') w' /\ W2 w' /\ length w' = length w /\ (forall q y, In y (wl w q) -> In y (wl w' q)) /\
    (3 <= length (clits d' c) -> watched2 (arena d') w' c) /\
    (forall q c', In c' (map fst (wl w' q)) -> In c' (map fst (wl w q)) \/ c' = c)).
  { unfold w'. destruct (Nat.ltb_spec 2 (length (clits d' c))) as [Hl|Hl].
    - split; [apply attach_W1; auto|]. split; [apply attach_W2; auto; [apply HP|rewrite Hnew; apply Hwf]|].
      split; [apply attach_len|]. split; [intros; apply attach_old; auto|]. split; [intros _; apply attach_watched2; auto|].
      intros q c' Hin. apply in_map_iff in Hin. destruct Hin as ([k b] & Ek & Hin). simpl in Ek. subst k. apply attach_in in Hin.
      destruct Hin as [Hin|(-> & _)]; auto. left. apply in_map_iff. exists (c', b). auto.
    - split; auto. split; [apply HP|]. split; auto. split; auto. split; [lia|]. auto. }
  destruct Hw' as (A1 & A2 & A3 & A4 & A5 & A6).
  assert (HK : forall k, In k (cls d) -> In k (cls d') /\ clits d' k = clits d k /\ cwt d' k = cwt d k /\ k <> c).
  { intros k Hk. pose proof (Hlt k Hk) as Hk2. split; [rewrite C3; apply in_or_app; auto|]. split; [apply Hold; auto|].
    split; [rewrite !cwt_awt, Hwt; apply awt_app; auto|lia]. }
  split.
  - constructor; cbn [k_d k_t k_w k_occ k_del]; auto.
    + constructor; auto; try apply HP.
      * rewrite Hn. apply HD'.
      * apply HD'.
      * rewrite A3. apply HP.
    + intros k Hk Hk0 Hk3. rewrite C3 in Hk. apply in_app_or in Hk. destruct Hk as [Hk|[<-|[]]]; auto.
      destruct (HK k Hk) as (K1 & K2 & K3 & K4). rewrite K2 in Hk3. rewrite K3 in Hk0.
      destruct (H3 k Hk Hk0 Hk3) as (x & y & z & r & E & Wx & Wy). exists x, y, z, r. split; [rewrite Hold by auto; exact E|].
      split; [apply in_map_iff in Wx; destruct Wx as (e & Ee & Wx)|apply in_map_iff in Wy; destruct Wy as (e & Ee & Wy)]; apply in_map_iff; exists e; auto.
    + intros k q Hk. rewrite Hwt, app_length. simpl. destruct (A6 q k Hk) as [Hk1| ->]; [apply HW in Hk1; fold a in Hk1; lia|lia].
    + intros x k Hk. apply occ_add_in in Hk. destruct Hk as [Hk|[-> Hk]]; auto. apply HO in Hk.
      rewrite clits_alits, Hold; auto. eapply alits_lt; eauto.
  - split; auto. split; [rewrite C3; apply in_or_app; simpl; auto|]. split; [rewrite cwt_awt, Hwt, C1; apply awt_new|]. split; auto.
Qed.

Lemma Match_ext P d d' : (forall k, In k (cls d) -> In k (cls d') /\ clits d' k = clits d k /\ cwt d' k = cwt d k) ->
  forall M, Forall2 (holds_clause d) P M -> Forall2 (holds_clause d') P M.
Proof.
  intros HK M H. induction H as [|c k Q M (B1 & B2 & B3) _ IH]; constructor; auto.
  destruct (HK k B1) as (K1 & K2 & K3). split; auto. split; [congruence|]. rewrite K2. auto.
Qed.

Lemma Match_create P d ls c d' : clits d' c = ls -> In c (cls d') -> cwt d' c = 0%N ->
  c = length (arena d) ->
  (forall k, In k (cls d) -> In k (cls d') /\ clits d' k = clits d k /\ cwt d' k = cwt d k /\ k <> c) -> Match P d -> Match (ls :: P) d'.
Proof.
  intros E1 E2 E3 E4 HK (M & N1 & N2). pose proof (Match_ext (filter long P) d d' (fun k Hk => let (a, b) := HK k Hk in
    conj a (let (b1, b2) := b in conj b1 (let (b3, _) := b2 in b3))) M N2) as N3.
  unfold Match. cbn [filter]. destruct (long ls).
  - exists (c :: M). split.
    + constructor; auto. intros Hc. clear N1 N3. induction N2 as [|x k Q M (B1 & _) _ IH]; [destruct Hc|]. destruct Hc as [->|Hc]; auto.
      destruct (HK c B1) as (_ & _ & _ & Hne). contradiction.
    + constructor; auto. split; auto. split; auto. rewrite E1. intros l. tauto.
  - exists M. auto.
Qed.

Lemma add_tail n P A s3 ls c d b s' : CS n P A s3 -> wfc n ls -> createClause ls 0 false (k_d s3) = Ok (c, d) ->
  (let w := if 2 <? length (clits d c) then attachClause d c (k_w s3) else k_w s3 in
   let occ := occ_add d (k_occ s3) c in
   match clits d c with
   | [l] => '(ok, t) <- fact l (k_t s3) ;; Ok (true, mkChk (if ok then d else emptyClause d) t w occ (k_del s3))
   | _ => Ok (true, mkChk d (k_t s3) w occ (k_del s3))
   end) = Ok (b, s') -> b = true /\ (empt (k_d s') = true \/ CS n (ls :: P) (ls :: A) s').
Proof.
  intros HS3 HW H2 H. cbv zeta in H.
  destruct (createClause_created _ _ _ _ _ _ H2) as (C1 & C2 & C3 & (w0 & C4) & C5).
  assert (Hnew : clits d c = ls) by (rewrite clits_alits, C4, C1; apply alits_new).
  rewrite Hnew in H.
  destruct ls as [|l r].
  { inversion H; subst. split; auto. }
  pose proof (cs_C _ _ _ _ HS3) as HC.
  destruct (CI_create n s3 (l :: r) c d HC HW H2) as (D1 & D2 & D3 & D4 & D5 & D6). rewrite Hnew in D1.
  assert (HM : Match ((l :: r) :: P) d).
  { apply (Match_create P (k_d s3) (l :: r) c d); auto. apply HS3. }
  assert (He : empt d = false) by (rewrite C5; simpl; apply HS3).
  set (w := if 2 <? length (l :: r) then attachClause d c (k_w s3) else k_w s3) in *.
  destruct r as [|y r].
  - apply bind_ok in H. destruct H as ([ok t] & H3 & H). inversion H; subst b s'. split; auto. destruct ok; [|left; reflexivity]. right.
    destruct (PInv_fact d w (k_t s3) l (ci_P _ _ D1)) as (b' & t' & F1 & F2 & F3 & F4 & F5 & F6 & F7 & F8 & F9 & _).
    { unfold dlevel. rewrite (ci_lim _ _ HC). reflexivity. }
    { rewrite (ci_n _ _ HC). apply HW. simpl; auto. }
    rewrite H3 in F1. inversion F1; subst b' t'.
    assert (Hlt : In l (tr t)) by (apply (ti_val t (pi_TI _ _ _ F2)); auto).
    assert (Hold : forall m, In m (tr (k_t s3)) -> In m (tr t)) by (intros m Hm; destruct F8 as [->|[-> _]]; auto; apply in_or_app; auto).
    constructor; cbn [k_d k_t k_w k_occ k_del]; auto.
    + destruct D1. constructor; cbn [k_d k_t k_w k_occ k_del] in *; auto; congruence.
    + intros m [Hm|Hm]; [inversion Hm; subst; auto|]. apply Hold. apply (cs_u _ _ _ _ HS3); auto.
    + intros [Hm|Hm]; [discriminate|]. apply (cs_0 _ _ _ _ HS3); auto.
    + intros m Hm. destruct F8 as [E|[E _]]; rewrite E in Hm; [right; apply (cs_t _ _ _ _ HS3); auto|].
      apply in_app_or in Hm. destruct Hm as [Hm|[<-|[]]]; [right; apply (cs_t _ _ _ _ HS3); auto|left; auto].
    + intros x [<-|Hx]; [left; auto|right; apply (cs_A _ _ _ _ HS3); auto].
    + intros x [<-|Hx]; auto. apply (cs_w _ _ _ _ HS3); auto.
  - inversion H; subst b s'. split; auto. right. constructor; cbn [k_d k_t k_w k_occ k_del]; auto.
    + intros m [Hm|Hm]; [discriminate|]. apply (cs_u _ _ _ _ HS3); auto.
    + intros [Hm|Hm]; [discriminate|]. apply (cs_0 _ _ _ _ HS3); auto.
    + intros m Hm. right. apply (cs_t _ _ _ _ HS3); auto.
    + intros x [<-|Hx]; [left; auto|right; apply (cs_A _ _ _ _ HS3); auto].
    + intros x [<-|Hx]; auto. apply (cs_w _ _ _ _ HS3); auto.
Qed.

Lemma add_step n P A s ls b s' : CS n P A s -> wfc n ls -> rup P ls -> (length ls < 2 \/ exists l, In l ls /\ ~ In [lneg l] A) ->
  check_clause_add ls s = Ok (b, s') -> b = true /\ (empt (k_d s') = true \/ CS n (ls :: P) (ls :: A) s').
Proof.
  intros HS HW HR Hor H. unfold check_clause_add in H. destruct (forallb _ ls); [|discriminate].
  apply bind_ok in H. destruct H as ([b1 s1] & H1 & H). destruct (check_step n P A s ls b1 s1 HS HW HR H1) as [-> HS3].
  assert (ER : rat_pivots (dlevel (k_t s1)) ls true s1 = Ok (true, s1)) by (destruct ls; reflexivity).
  rewrite ER in H. cbn [bind] in H. set (s3 := chk_backtrack 0 s1) in *.
  apply bind_ok in H. destruct H as ([c d] & H2 & H).
  destruct (createClause_created _ _ _ _ _ _ H2) as (C1 & C2 & C3 & (w0 & C4) & C5).
  assert (Hnew : clits d c = ls) by (rewrite clits_alits, C4, C1; apply alits_new).
  rewrite Hnew in H.
  destruct ls as [|l r].
  { inversion H; subst. split; auto. }
  destruct (in_dec Nat.eq_dec (lneg l) (tr (k_t s))) as [Hi|Hi].
  { assert (HN : r = [] \/ exists m, In m (l :: r) /\ ~ In [lneg m] A) by (destruct Hor as [Hor|Hor]; [destruct r; [auto|cbn in Hor; lia]|auto]).
    destruct r as [|y r].
    - assert (Hv : value (k_t s3) l = Some false) by exact (false_unit n P A s l true s1 HS Hi H1).
      rewrite (fact_false l _ Hv) in H. cbn [bind] in H. inversion H; subst b s'. split; auto.
    - destruct HN as [HN|(m & M1 & M2)]; [discriminate|]. revert H.
      assert (HS4 : CS n P A s3) by (apply HS3; exists m; split; [auto|]; intros Hm; apply M2; apply (cs_t _ _ _ _ HS); auto).
      intros H. apply (add_tail n P A s3 (l :: y :: r) c d b s' HS4 HW H2). rewrite Hnew. exact H. }
  assert (HN : exists m, In m (l :: r) /\ ~ In (lneg m) (tr (k_t s))) by (exists l; split; [left; auto|auto]).
  apply (add_tail n P A s3 (l :: r) c d b s' (HS3 HN) HW H2). rewrite Hnew. exact H.
Qed.

(** ** Deleting a clause *)
Lemma del_match {X} (R : X -> cid -> Prop) (c : X) (k : cid) Q1 Q2 M : Forall2 R (Q1 ++ c :: Q2) M -> NoDup M ->
  (forall x, R x k -> forall k', R c k' -> R x k') ->
  exists M', NoDup M' /\ Forall2 R (Q1 ++ Q2) M' /\ ~ In k M'.
Proof.
  intros H HN HS. apply Forall2_app_inv_l in H. destruct H as (M1 & M2' & F1 & F2 & ->).
  inversion F2 as [|? k' ? M2 Hc F3]; subst. pose proof (NoDup_remove _ _ _ HN) as [HN1 HN2].
  destruct (in_dec Nat.eq_dec k (M1 ++ M2)) as [Hk|Hk].
  2:{ exists (M1 ++ M2). split; auto. split; auto. apply Forall2_app; auto. }
  apply in_app_or in Hk. destruct Hk as [Hk|Hk]; apply in_split in Hk; destruct Hk as (N1 & N2 & ->).
  - exists (N1 ++ k' :: N2 ++ M2). apply Forall2_app_inv_r in F1. destruct F1 as (P1 & P2' & G1 & G2 & ->).
    inversion G2 as [|x ? P2 ? Hx G3]; subst.
    assert (HP : Permutation ((N1 ++ k :: N2) ++ k' :: M2) (k :: N1 ++ k' :: N2 ++ M2)).
    { rewrite <- app_assoc. simpl. etransitivity; [symmetry; apply Permutation_middle|]. apply perm_skip.
      apply Permutation_app_head. symmetry. apply Permutation_middle. }
    apply (Permutation_NoDup HP) in HN. inversion HN as [|? ? HN3 HN4]; subst. split; auto. split; auto.
    rewrite <- app_assoc. apply Forall2_app; auto. simpl. constructor; [eapply HS; eauto|]. apply Forall2_app; auto.
  - exists (M1 ++ N1 ++ k' :: N2). apply Forall2_app_inv_r in F3. destruct F3 as (P1 & P2' & G1 & G2 & ->).
    inversion G2 as [|x ? P2 ? Hx G3]; subst.
    assert (HP : Permutation (M1 ++ k' :: N1 ++ k :: N2) (k :: M1 ++ N1 ++ k' :: N2)).
    { replace (M1 ++ k' :: N1 ++ k :: N2) with ((M1 ++ k' :: N1) ++ k :: N2) by (rewrite <- app_assoc; reflexivity).
      etransitivity; [symmetry; apply Permutation_middle|]. apply perm_skip. rewrite <- app_assoc. apply Permutation_app_head.
      simpl. apply Permutation_middle. }
    apply (Permutation_NoDup HP) in HN. inversion HN as [|? ? HN3 HN4]; subst. split; auto. split; auto.
    apply Forall2_app; [exact F1|]. apply Forall2_app; [exact G1|]. constructor; [eapply HS; eauto|exact G3].
Qed.

Lemma NoDup_fst_filter (f : cid * lit -> bool) l : NoDup (map fst l) -> NoDup (map fst (filter f l)).
Proof.
  induction l as [|x l IH]; simpl; intros H; auto. inversion H as [|? ? H1 H2]; subst. destruct (f x); simpl; auto. constructor; auto.
  intros Hi. apply H1. apply in_map_iff in Hi. destruct Hi as (y & E & Hy). apply filter_In in Hy. apply in_map_iff. exists y. tauto.
Qed.
Lemma W2_filter i f w : W2 w -> W2 (filter_at i f w).
Proof.
  intros H p. unfold wl, filter_at. rewrite nth_set_nth. destruct ((p =? i) && (i <? length w)); [apply NoDup_fst_filter|]; apply H.
Qed.
Lemma detach_len d c w : length (detachClause d c w) = length w.
Proof. unfold detachClause. destruct (clits d c) as [|x [|y r]]; auto. unfold filter_at. rewrite !set_nth_length. auto. Qed.
Lemma detach_W2 d c w : W2 w -> W2 (detachClause d c w).
Proof. intros H. unfold detachClause. destruct (clits d c) as [|x [|y r]]; auto. apply W2_filter, W2_filter; auto. Qed.
Lemma detach_sub d c w q e : In e (wl (detachClause d c w) q) -> In e (wl w q).
Proof.
  unfold detachClause. destruct (clits d c) as [|x [|y r]]; auto. intros H. apply wl_filter_in in H. destruct H as [H _].
  apply wl_filter_in in H. tauto.
Qed.
Lemma detach_other d c w q e : fst e <> c -> In e (wl w q) -> In e (wl (detachClause d c w) q).
Proof.
  unfold detachClause. destruct (clits d c) as [|x [|y r]]; auto. intros Hn H.
  assert (E : not_clause c e = true) by (unfold not_clause; apply Nat.eqb_neq in Hn; rewrite Hn; reflexivity).
  apply wl_filter_old; auto. apply wl_filter_old; auto.
Qed.

Lemma CI_remove n s k : CI n s -> k < length (arena (k_d s)) ->
  let d := removeClause k (k_d s) in
  CI n (mkChk d (k_t s) (if 2 <? length (clits d k) then detachClause d k (k_w s) else k_w s) (k_occ s) (S (k_del s))).
Proof.
  intros HC Hk d. destruct s as [d0 t w occ del]. cbn [k_d k_t k_w k_occ k_del] in *.
  destruct HC as [HD HP Hn HL Hq H3 HW HO]. cbn [k_d k_t k_w k_occ k_del] in *.
  assert (HD' : DI n d) by (apply removeClause_DI; auto).
  destruct (remove_fields k d0) as (E1 & E2 & E3 & E4 & E5 & E6). fold d in E1, E2, E3, E4, E5, E6.
  assert (Ea : forall c, alits (arena d) c = alits (arena d0) c) by (intros c; rewrite E6; apply alits_set_wt).
  set (w' := if 2 <? length (clits d k) then detachClause d k w else w).
  assert (Hw : W2 w' /\ length w' = length w /\ (forall q e, In e (wl w' q) -> In e (wl w q)) /\
    (forall q e, fst e <> k -> In e (wl w q) -> In e (wl w' q))).
  { unfold w'. destruct (2 <? length (clits d k)).
    - split; [apply detach_W2; apply HP|]. split; [apply detach_len|]. split; [intros q e; apply detach_sub|intros q e; apply detach_other].
    - split; [apply HP|auto]. }
  destruct Hw as (A1 & A2 & A3 & A4).
  constructor; cbn [k_d k_t k_w k_occ k_del]; auto.
  - constructor; auto; try apply HP.
    + apply (alits_ext_TRe (arena d0)); auto. apply HP.
    + rewrite Hn. apply HD'.
    + intros p c b Hin. rewrite Ea. apply (pi_W1 _ _ _ HP). auto.
    + apply HD'.
    + rewrite A2. apply HP.
  - intros c Hc H0 Hl. rewrite E3 in Hc. rewrite cwt_awt, E6, awt_set_wt in H0. apply Nat.ltb_lt in Hk. rewrite Hk in H0.
    destruct (Nat.eqb_spec c k) as [->|Hne]; [discriminate|]. cbn [andb] in H0.
    rewrite clits_alits, Ea in Hl. destruct (H3 c Hc H0 Hl) as (x & y & z & r & E & Wx & Wy). exists x, y, z, r. rewrite Ea. split; auto.
    split; [apply in_map_iff in Wx; destruct Wx as (e & Ee & Wx)|apply in_map_iff in Wy; destruct Wy as (e & Ee & Wy)]; apply in_map_iff; exists e; (split; [exact Ee|]); (apply A4; [exact (fun E9 => Hne (eq_trans (eq_sym Ee) E9))|auto]).
  - intros c q Hc. rewrite E6. unfold set_wt. rewrite set_nth_length. apply in_map_iff in Hc. destruct Hc as (e & <- & He).
    apply (HW (fst e) q). apply in_map. auto.
  - intros x c Hc. rewrite clits_alits, Ea. apply HO; auto.
Qed.

Lemma CI_cleanup n s : CI n s -> CI n (cleanup_deleted s).
Proof.
  intros HC. unfold cleanup_deleted. destruct s as [d t w occ del]. cbn [k_d k_t k_w k_occ k_del] in *.
  destruct HC as [HD HP Hn HL Hq H3 HW HO]. cbn [k_d k_t k_w k_occ k_del] in *.
  pose proof (reorganize_DI _ _ HD) as HD'. destruct (reorganize_fields d) as (E1 & E2 & E3 & E4).
  destruct (prop_reset_spec n (reorganize d) HD') as (A1 & A2 & A3 & A4 & A5).
  constructor; cbn [k_d k_t k_w k_occ k_del]; auto.
  - constructor; auto; try apply HP; try (rewrite Hn; auto); try apply HD'.
  - intros k q Hk. apply A4 in Hk. apply (di_rng _ _ HD'), (di_cls _ _ HD'); auto.
  - intros x k. apply occ_all_in.
Qed.

Lemma Match_drop P1 c P2 d : Match (P1 ++ c :: P2) d -> Match (P1 ++ P2) d.
Proof.
  intros (M & N1 & N2). rewrite filter_app in N2. cbn [filter] in N2. unfold Match. rewrite filter_app. destruct (long c); [|eauto].
  apply Forall2_app_inv_l in N2. destruct N2 as (M1 & M2' & F1 & F2 & ->). inversion F2 as [|? k' ? M2 Hc F3]; subst.
  exists (M1 ++ M2). split; [apply NoDup_remove in N1; tauto|apply Forall2_app; auto].
Qed.
Lemma Match_remove d k Q M : Forall2 (holds_clause d) Q M -> ~ In k M -> Forall2 (holds_clause (removeClause k d)) Q M.
Proof.
  intros H. destruct (remove_fields k d) as (E1 & E2 & E3 & E4 & E5 & E6).
  induction H as [|c j Q M (B1 & B2 & B3) _ IH]; intros Hn; constructor; [|apply IH; simpl in Hn; tauto].
  split; [rewrite E3; auto|]. split.
  - rewrite cwt_awt, E6, awt_set_wt. destruct (Nat.eqb_spec j k) as [->|]; [simpl in Hn; tauto|exact B2].
  - intros l. rewrite (B3 l), !clits_alits, E6, alits_set_wt. tauto.
Qed.
Lemma Match_reorganize n P d : DI n d -> Match P d -> Match P (reorganize d).
Proof.
  intros HD (M & N1 & N2). exists M. split; auto. clear N1. induction N2 as [|c k Q M (B1 & B2 & B3) _ IH]; constructor; auto.
  destruct (reorganize_fields d) as (E1 & _). split; [|split].
  - apply reorganize_cls. split; [apply (di_cls _ _ HD); auto|]. unfold isDeleted. rewrite B2. reflexivity.
  - exact B2.
  - exact B3.
Qed.

Lemma remove_step n P1 c' P2 A s ls s' : CS n (P1 ++ c' :: P2) A s -> wfc n ls -> same_lits ls c' ->
  check_clause_remove ls s = Ok s' -> CS n (P1 ++ P2) A s'.
Proof.
  intros HS HW HSm H. pose proof (cs_C _ _ _ _ HS) as HC.
  assert (Hin : forall c, In c (P1 ++ P2) -> In c (P1 ++ c' :: P2)).
  { intros c Hc. apply in_app_or in Hc. apply in_or_app. simpl. tauto. }
  assert (Hwc' : wfc n c') by (apply (cs_w _ _ _ _ HS); apply in_or_app; simpl; auto).
  (* states with the same trail whose database still holds the remaining clauses *)
  assert (HG : forall s2, CI n s2 -> empt (k_d s2) = empt (k_d s) -> k_t s2 = k_t s -> Match (P1 ++ P2) (k_d s2) -> CS n (P1 ++ P2) A s2).
  { intros s2 C2 E2 T2 M2. constructor; auto.
    - rewrite E2. apply HS.
    - rewrite T2. intros l Hl. apply (cs_u _ _ _ _ HS); auto.
    - intros Hl. apply (cs_0 _ _ _ _ HS); auto.
    - rewrite T2. apply HS.
    - intros c Hc. apply (cs_A _ _ _ _ HS); auto.
    - intros c Hc. apply (cs_w _ _ _ _ HS); auto. }
  assert (HM0 : Match (P1 ++ P2) (k_d s)) by (apply (Match_drop P1 c'); apply HS).
  unfold check_clause_remove in H. destruct ls as [|x [|y r]]; [inversion H; subst; apply HG; auto|inversion H; subst; apply HG; auto|].
  set (ls := x :: y :: r) in *. destruct (x <? length (k_occ s)); [|discriminate].
  destruct (find (is_match (k_d s) ls) (nth x (k_occ s) [])) as [k|] eqn:EF; [|inversion H; subst; apply HG; auto].
  apply find_some in EF. destruct EF as [Hk HMa]. apply (ci_O _ _ HC) in Hk. unfold is_match in HMa. apply andb_true_iff in HMa.
  destruct HMa as [HM1 HM2]. apply Nat.eqb_eq in HM1.
  assert (Hka : k < length (arena (k_d s))) by (eapply alits_lt; exact Hk).
  assert (Hwk : wfc n (clits (k_d s) k)) by (apply wfc_alits; apply HC).
  assert (Hinc : incl ls (clits (k_d s) k)).
  { intros l [<-|Hl]; auto. rewrite forallb_forall in HM2. specialize (HM2 l Hl). apply existsb_exists in HM2.
    destruct HM2 as (m & Hm & E). apply Nat.eqb_eq in E. subst. auto. }
  assert (Hsk : same_lits ls (clits (k_d s) k)).
  { intros l. split; [apply Hinc|]. apply (NoDup_length_incl (wfc_nodup _ _ HW)); auto. lia. }
  pose proof (CI_remove n s k HC Hka) as HC1. cbn zeta in HC1. set (d := removeClause k (k_d s)) in *.
  set (s1 := mkChk d (k_t s) (if 2 <? length (clits d k) then detachClause d k (k_w s) else k_w s) (k_occ s) (S (k_del s))) in *.
  assert (HM : Match (P1 ++ P2) d).
  { destruct (cs_M _ _ _ _ HS) as (M & N1 & N2). rewrite filter_app in N2. cbn [filter] in N2. unfold Match. rewrite filter_app.
    assert (El : long c' = true) by (unfold long; rewrite <- (same_len n n ls c' HW Hwc' HSm); reflexivity).
    rewrite El in N2. destruct (del_match _ c' k _ _ _ N2 N1) as (M' & F1 & F2 & F3).
    { intros e (K1 & K2 & K3) k' (K4 & K5 & K6). split; auto. split; auto. intros l. rewrite (K3 l), <- (Hsk l), (HSm l). apply K6. }
    exists M'. split; auto. apply (Match_remove (k_d s)); auto. }
  assert (HS1 : CS n (P1 ++ P2) A s1) by (apply HG; auto).
  assert (HB : forall b : bool, CS n (P1 ++ P2) A (if b then cleanup_deleted s1 else s1)).
  2:{ injection H as H. rewrite <- H. apply HB. }
  intros [|]; auto. apply HG; [apply CI_cleanup; auto|..].
  - cbn [cleanup_deleted k_d]. destruct (reorganize_fields d) as (_ & _ & _ & E). exact E.
  - reflexivity.
  - cbn [cleanup_deleted k_d]. apply (Match_reorganize n); auto. apply (ci_D _ _ HC1).
Qed.

(** ** The whole proof *)
Lemma empt_lines ls : forall s b, empt (k_d s) = true -> check_lines ls s = Ok b -> b = true.
Proof.
  induction ls as [|[c|c] r IH]; intros s b He H; cbn [check_lines] in H.
  - inversion H; subst. auto.
  - apply bind_ok in H. destruct H as ([b1 s1] & H1 & H). unfold check_clause_add in H1. destruct (forallb _ c); [|discriminate].
    unfold check_asymm in H1. rewrite He in H1. cbn [bind] in H1.
    assert (ER : rat_pivots (dlevel (k_t s)) c true s = Ok (true, s)) by (destruct c; reflexivity).
    rewrite ER in H1. cbn [bind] in H1. apply bind_ok in H1. destruct H1 as ([k d] & H1 & H2).
    destruct (createClause_created _ _ _ _ _ _ H1) as (_ & _ & _ & _ & C5). cbn [chk_backtrack k_d] in C5. rewrite He in C5.
    assert (Ed : empt d = true) by (rewrite C5; destruct (length c =? 0); reflexivity).
    assert (HX : b1 = true /\ empt (k_d s1) = true).
    { destruct (clits d k) as [|x [|y q]]; [inversion H2; subst; auto| |inversion H2; subst; auto].
      apply bind_ok in H2. destruct H2 as ([ok t] & H2 & H3). inversion H3; subst. destruct ok; auto. }
    destruct HX as [-> HX]. apply (IH s1 b HX H).
  - apply bind_ok in H. destruct H as (s1 & H1 & H). apply (IH s1 b); auto. unfold check_clause_remove in H1.
    destruct c as [|x [|y q]]; [inversion H1; subst; auto|inversion H1; subst; auto|]. destruct (x <? length (k_occ s)); [|discriminate].
    destruct (find _ _) as [k|]; [|inversion H1; subst; auto]. injection H1 as H1. rewrite <- H1.
    destruct (remove_fields k (k_d s)) as (_ & _ & _ & _ & E & _). destruct (_ <? _); cbn [cleanup_deleted k_d]; [|congruence].
    destruct (reorganize_fields (removeClause k (k_d s))) as (_ & _ & _ & E'). congruence.
Qed.

Lemma lines_complete n ls : forall P A Q s b, CS n P A s -> derivation P ls Q -> In [] (lemmas ls) ->
  (forall c, In (CAdd c) ls \/ In (CDel c) ls -> wfc n c) ->
  (forall l1 c l2, ls = l1 ++ CAdd c :: l2 -> 2 <= length c -> ~ In [] (lemmas l1) -> exists l, In l c /\ ~ In [lneg l] (lemmas l1 ++ A)) ->
  check_lines ls s = Ok b -> b = true.
Proof.
  induction ls as [|[c|c] r IH]; intros P A Q s b HS HD HE HW HN H; cbn [check_lines] in H.
  - destruct HE.
  - apply bind_ok in H. destruct H as ([b1 s1] & H1 & H). inversion HD as [|? ? ? ? HR HD'|]; subst.
    assert (Hwc : wfc n c) by (apply HW; simpl; auto).
    assert (Hor : length c < 2 \/ exists l, In l c /\ ~ In [lneg l] A).
    { destruct (Nat.ltb_spec (length c) 2); [auto|]. right. apply (HN [] c r); simpl; auto. }
    destruct (add_step n P A s c b1 s1 HS Hwc HR Hor H1) as [-> [He|HS1]]; [apply (empt_lines r s1 b He H)|].
    destruct c as [|l c0]; [exfalso; apply (cs_0 _ _ _ _ HS1); simpl; auto|].
    apply (IH _ _ Q s1 b HS1 HD'); auto.
    + destruct HE as [HE|HE]; [discriminate|auto].
    + intros e He. apply HW. simpl. destruct He; auto.
    + intros l1 e l2 E He Hl. destruct (HN (CAdd (l :: c0) :: l1) e l2) as (m & M1 & M2); [rewrite E; reflexivity|auto|simpl; intros [E1|E1]; [discriminate|auto]|].
      exists m. split; [auto|]. intros Hm. apply M2. cbn [lemmas]. rewrite in_app_iff in *. cbn [In] in *. tauto.
  - apply bind_ok in H. destruct H as (s1 & H1 & H). inversion HD as [| |P1 c' P2 ? ? ? HSm HD']; subst.
    assert (Hwc : wfc n c) by (apply HW; simpl; auto).
    apply (IH _ _ Q s1 b (remove_step n P1 c' P2 A s c s1 HS Hwc HSm H1) HD'); auto.
    + intros e He. apply HW. simpl. destruct He; auto.
    + intros l1 x l2 E Hx Hl. apply (HN (CDel c :: l1) x l2); [rewrite E; reflexivity|auto|auto].
Qed.

(** ** The state in which the checker starts *)
Lemma Match_perm P P' d : Permutation P P' -> Match P d -> Match P' d.
Proof.
  intros HP (M & N1 & N2).
  assert (HF : Permutation (filter long P) (filter long P')).
  { clear N2. induction HP; simpl; auto.
    - destruct (long x); auto.
    - destruct (long x), (long y); auto. apply perm_swap.
    - etransitivity; eauto. }
  destruct (Permutation_Forall2 HF N2) as (M' & F1 & F2). exists M'. split; auto. eapply Permutation_NoDup; eauto.
Qed.

Lemma create_facts n ls lem d c d' : DI n d -> createClause ls 0 lem d = Ok (c, d') ->
  clits d' c = ls /\ In c (cls d') /\ cwt d' c = 0%N /\ c = length (arena d) /\
  (forall k, In k (cls d) -> In k (cls d') /\ clits d' k = clits d k /\ cwt d' k = cwt d k /\ k <> c).
Proof.
  intros HD Hcr. pose proof (createClause_wt _ _ _ _ _ _ Hcr) as Hwt.
  destruct (createClause_created _ _ _ _ _ _ Hcr) as (C1 & C2 & C3 & _ & C5).
  assert (E0 : (if length ls <? 3 then 0%N else (0 mod 65536)%N) = 0%N) by (destruct (length ls <? 3); reflexivity). rewrite E0 in Hwt.
  split; [rewrite clits_alits, Hwt, C1; apply alits_new|]. split; [rewrite C3; apply in_or_app; simpl; auto|].
  split; [rewrite cwt_awt, Hwt, C1; apply awt_new|]. split; auto. intros k Hk.
  assert (Hk2 : k < length (arena d)) by (apply (di_rng _ _ HD), (di_cls _ _ HD); auto).
  split; [rewrite C3; apply in_or_app; auto|]. split; [rewrite !clits_alits, Hwt; apply alits_app; auto|].
  split; [rewrite !cwt_awt, Hwt; apply awt_app; auto|lia].
Qed.

Lemma create_all_match n cs : forall P d d', DI n d -> Forall (wfc n) cs -> Match P d -> create_all cs true d = Ok d' ->
  Match (P ++ cs) d' /\ DI n d' /\ (empt d' = false -> empt d = false /\ ~ In [] cs).
Proof.
  induction cs as [|c r IH]; intros P d d' HD HW HM H; cbn [create_all] in H.
  - inversion H; subst. rewrite app_nil_r. split; auto.
  - apply bind_ok in H. destruct H as ([k d1] & H1 & H). inversion HW as [|? ? W1 W2]; subst.
    destruct (create_facts n c true d k d1 HD H1) as (E1 & E2 & E3 & E4 & E5).
    assert (HM1 : Match (c :: P) d1) by (apply (Match_create P d c k d1); auto).
    assert (HD1 : DI n d1) by (eapply createClause_DI; eauto).
    destruct (IH (c :: P) d1 d' HD1 W2 HM1 H) as (B1 & B2 & B3). split; [|split; auto].
    + apply (Match_perm ((c :: P) ++ r)); auto. simpl. apply Permutation_middle.
    + intros He. destruct (B3 He) as [B4 B5]. destruct (createClause_created _ _ _ _ _ _ H1) as (_ & _ & _ & _ & C5). rewrite C5 in B4.
      destruct c as [|l c]; simpl in B4; [discriminate|]. split; auto. intros [Hc|Hc]; [discriminate|auto].
Qed.

Lemma facts_spec F d w cs : (forall l, In [l] F -> ~ In [lneg l] F) -> (forall c l, In c cs -> clits d c = [l] -> In [l] F) ->
  forall t t', PInv d w t -> lim t = [] -> (forall l, In l (tr t) -> In [l] F) -> chk_facts d cs t = Ok t' ->
  PInv d w t' /\ lim t' = [] /\ qh t' = qh t /\ nvt t' = nvt t /\ (forall l, In l (tr t') -> In [l] F) /\ (forall l, In l (tr t) -> In l (tr t')) /\
  forall c l, In c cs -> clits d c = [l] -> In l (tr t').
Proof.
  intros HN. induction cs as [|c r IH]; intros HC t t' HP HL HT H; cbn [chk_facts] in H.
  - inversion H; subst. split; auto. split; auto. split; auto. split; auto. split; auto. split; auto. intros c l [].
  - assert (HC' : forall c l, In c r -> clits d c = [l] -> In [l] F) by (intros c0 l Hc0; apply HC; simpl; auto).
    assert (HS : (forall l, clits d c <> [l]) -> chk_facts d r t = Ok t' -> PInv d w t' /\ lim t' = [] /\ qh t' = qh t /\ nvt t' = nvt t /\
      (forall l, In l (tr t') -> In [l] F) /\ (forall l, In l (tr t) -> In l (tr t')) /\ forall c0 l, In c0 (c :: r) -> clits d c0 = [l] -> In l (tr t')).
    { intros Hne H1. destruct (IH HC' t t' HP HL HT H1) as (A1 & A2 & A3 & A4 & A5 & A6 & A7).
      split; auto. split; auto. split; auto. split; auto. split; auto. split; auto. intros c0 l [<-|Hc0] E; [destruct (Hne l E)|eauto]. }
    destruct (clits d c) as [|l [|y q]] eqn:EC; [apply HS; auto; discriminate| |apply HS; auto; discriminate]. clear HS.
    apply bind_ok in H. destruct H as ([b t1] & H1 & H).
    assert (HlF : In [l] F) by (apply (HC c l); simpl; auto).
    assert (Hlv : lvar l < nvt t).
    { apply (pi_WFA _ _ _ HP c). change (alits (arena d) c) with (clits d c). rewrite EC. simpl; auto. }
    destruct (PInv_fact d w t l HP) as (b' & t2 & F1 & F2 & F3 & F4 & F5 & F6 & F7 & F8 & F9 & _); auto.
    { unfold dlevel. rewrite HL. reflexivity. }
    rewrite H1 in F1. inversion F1; subst b' t2. clear F1.
    assert (Hold : forall m, In m (tr t) -> In m (tr t1)) by (intros m Hm; destruct F8 as [->|[-> _]]; auto; apply in_or_app; auto).
    destruct b.
    2:{ exfalso. destruct (F7 eq_refl) as [Hv _]. apply (ti_val_false t l (pi_TI _ _ _ HP)) in Hv. apply HT in Hv. apply (HN l); auto. }
    assert (HT1 : forall m, In m (tr t1) -> In [m] F).
    { intros m Hm. destruct F8 as [E|[E _]]; rewrite E in Hm; auto. apply in_app_or in Hm. destruct Hm as [Hm|[<-|[]]]; auto. }
    destruct (IH HC' t1 t' F2 ltac:(congruence) HT1 H) as (A1 & A2 & A3 & A4 & A5 & A6 & A7).
    split; auto. split; auto. split; [congruence|]. split; [congruence|]. split; auto. split; auto.
    intros c0 m [<-|Hc0] E; [|eauto]. rewrite EC in E. inversion E; subst m. apply A6. apply (ti_val t1 (pi_TI _ _ _ F2)). auto.
Qed.

Lemma new_complete n F s : Forall (wfc n) F -> (forall l, In [l] F -> ~ In [lneg l] F) -> chk_new n F = Ok s ->
  empt (k_d s) = true \/ CS n F F s.
Proof.
  intros HW HN H. unfold chk_new in H. apply bind_ok in H. destruct H as (d & H1 & H). apply bind_ok in H. destruct H as (t & H2 & H).
  inversion H; subst s. clear H. cbn [k_d]. destruct (empt d) eqn:He; auto. right.
  pose proof H1 as H1'. unfold db_init in H1'.
  assert (HDG : DI n (db_grow n db_new)).
  { pose proof (db_grow_DI 0 n db_new db_new_DI) as X. rewrite Nat.max_0_r in X. exact X. }
  assert (HMG : Match [] (db_grow n db_new)) by (exists []; split; constructor).
  destruct (create_all_match n F [] _ d HDG HW HMG H1') as (B1 & B2 & B3). simpl in B1. destruct (B3 He) as [_ B4].
  destruct (create_all_spec n F true _ d HDG HW H1') as (_ & _ & S1 & S2 & _).
  pose proof (di_nv _ _ B2) as Env. rewrite Env in H2.
  destruct (prop_reset_spec n d B2) as (A1 & A2 & A3 & A4 & A5).
  set (t0 := trail_init n trail_new) in *.
  assert (T0 : TI t0) by (apply TI_init; apply (TI_reset trail_new); reflexivity).
  destruct (init_fields n trail_new) as (I1 & I2 & I3 & I4). fold t0 in I1, I2, I3.
  assert (En : nvt t0 = n) by (unfold t0, trail_init; cbn [nvt trail_new]; destruct (Nat.ltb_spec 0 n); simpl; lia).
  assert (P0 : PInv d (prop_reset d) t0).
  { constructor; auto; try rewrite En; auto; try apply B2. intros i l c Hi. rewrite I1 in Hi. destruct i; discriminate. }
  assert (HG : forall k, ~ In k (cls (db_grow n db_new))) by (intros k; unfold db_grow; destruct (_ <? _); intros []).
  destruct (facts_spec F d (prop_reset d) (cls d) HN) with (t := t0) (t' := t) as (C1 & C2 & C3 & C4 & C5 & C6 & C7); auto.
  { intros c l Hc E. destruct (S2 c Hc) as [Hx|Hx]; [destruct (HG c Hx)|rewrite E in Hx; auto]. }
  { rewrite I1. intros l Hl. destruct Hl. }
  constructor; cbn [k_d k_t k_w k_occ k_del]; auto.
  - constructor; cbn [k_d k_t k_w k_occ k_del]; auto.
    + congruence.
    + rewrite C3. exact I3.
    + intros k q Hk. apply A4 in Hk. apply (di_rng _ _ B2), (di_cls _ _ B2); auto.
    + intros x k. apply occ_all_in.
  - intros l Hl. rewrite Forall_forall in S1. destruct (S1 [l] Hl) as (k & K1 & K2 & _). apply (C7 k l); auto.
  - intros c Hc; auto.
  - rewrite Forall_forall in HW. auto.
Qed.

Lemma checker_complete n F ls Q : Forall (wfc n) F -> (forall l, In [l] F -> ~ In [lneg l] F) -> derivation F ls Q -> In [] (lemmas ls) ->
  (forall c, In (CAdd c) ls \/ In (CDel c) ls -> wfc n c) ->
  (forall l1 c l2, ls = l1 ++ CAdd c :: l2 -> 2 <= length c -> ~ In [] (lemmas l1) -> exists l, In l c /\ ~ In [lneg l] (lemmas l1 ++ F)) ->
  forall b, check_proof n F ls = Ok b -> b = true.
Proof.
  intros HW HN HD HE HL HR b H. unfold check_proof in H. apply bind_ok in H. destruct H as (s & H1 & H).
  destruct (new_complete n F s HW HN H1) as [He|HS].
  - rewrite He in H. inversion H; auto.
  - rewrite (cs_e _ _ _ _ HS) in H. apply (lines_complete n ls F F Q s b HS HD HE HL HR H).
Qed.

Lemma checker_accepts n F ls Q : (forall c, In c F -> proper n c) ->
  (forall c, In (CAdd c) ls \/ In (CDel c) ls -> proper n c) ->
  (forall l, In [l] F -> ~ In [lneg l] F) ->
  derivation F ls Q -> In (CAdd []) ls ->
  (forall l1 c l2, ls = l1 ++ CAdd c :: l2 -> 2 <= length c -> ~ In (CAdd []) l1 -> exists l, In l c /\ ~ In [lneg l] (F ++ lemmas l1)) ->
  check_proof n F ls = Ok true.
Proof.
  intros HF HL HN HD HE HR.
  assert (HLE : forall l c, In c (lemmas l) <-> In (CAdd c) l).
  { induction l as [|[c|c] r IH]; intros e; simpl; [tauto| |]; rewrite IH; (split; [intros [H|H]; [|right; auto]|intros [H|H]; [|right; auto]]) || idtac.
    - left. f_equal. auto.
    - left. inversion H. auto.
    - split; [intros H; right; auto|intros [H|H]; [discriminate H|auto]]. }
  destruct (check_defined n F ls) as (b & Hb).
  - intros c l Hc. apply (HF c Hc).
  - intros [c|c] l Hc Hl; simpl in Hl; apply (HL c); auto.
  - intros c [Hc|Hc]; [apply (HF c Hc)|apply (HL c); auto].
  - rewrite Hb. f_equal. apply (checker_complete n F ls Q); auto.
    + apply Forall_forall. intros c Hc. destruct (HF c Hc) as (H1 & H2 & _). split; auto.
    + apply HLE. auto.
    + intros c Hc. destruct (HL c Hc) as (H1 & H2 & _). split; auto.
    + intros l1 c l2 E Hc Hn. destruct (HR l1 c l2 E Hc) as (m & M1 & M2); [intros H; apply Hn; apply HLE; auto|].
      exists m. split; [auto|]. rewrite in_app_iff in *. tauto.
Qed.
