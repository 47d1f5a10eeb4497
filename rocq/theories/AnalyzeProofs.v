(** Conflict analysis: structure of the learnt clause and its derivation (used by AnalyzeProps and
    the solver proofs). *)
Require Import List Arith Bool NArith Lia Permutation.
Require Import Verif.Base Verif.CNFModel Verif.CNFProofs Verif.HeapProofs Verif.Outcome Verif.TrailModel
  Verif.TrailProofs Verif.TrailLemmas Verif.DbModel Verif.PropModel Verif.PropProofs Verif.DbProofs Verif.PropSpec Verif.PropLemmas
  Verif.AnalyzeModel.
Import ListNotations.

(** literals without a reason are at level 0 or open a level *)
Definition DecI (t : trail_t) : Prop := forall i l, nth_error (tr t) i = Some l ->
  reason t (lvar l) = None -> level t (lvar l) = 0 \/ exists k, nth_error (lim t) k = Some i.

(** [H] is closed under unit propagation with the clauses of [d] *)
Definition UPclosed (d : db) (H : lit -> Prop) : Prop :=
  forall c q, In c (cls d) -> In q (clits d c) ->
    (forall m, In m (clits d c) -> m <> q -> H (lneg m)) -> H q.

Lemma vadd_true v s x : vadd v s x = true <-> x = v \/ s x = true.
Proof. unfold vadd. destruct (Nat.eqb_spec x v); intuition; try discriminate. Qed.
Lemma vdel_true v s x : vdel v s x = true <-> x <> v /\ s x = true.
Proof. unfold vdel. destruct (Nat.eqb_spec x v); intuition; try discriminate. Qed.

Lemma lev_at_mono ls i j : i <= j -> lev_at ls i <= lev_at ls j.
Proof.
  intros H. unfold lev_at. induction ls as [|x r IH]; simpl; auto.
  destruct (Nat.leb_spec x i); destruct (Nat.leb_spec x j); simpl; lia.
Qed.
Lemma lev_at_strict ls i j : i < j -> In j ls -> lev_at ls i < lev_at ls j.
Proof.
  intros H. unfold lev_at. induction ls as [|x r IH]; simpl; [tauto|]. intros [->|Hi].
  - rewrite Nat.leb_refl. destruct (Nat.leb_spec j i); [lia|]. simpl. pose proof (lev_at_mono r i j ltac:(lia)) as Hm. unfold lev_at in Hm. lia.
  - specialize (IH Hi). destruct (Nat.leb_spec x i); destruct (Nat.leb_spec x j); simpl; lia.
Qed.

Lemma level_mono t i j p q : TI t -> nth_error (tr t) i = Some p -> nth_error (tr t) j = Some q -> i <= j ->
  level t (lvar p) <= level t (lvar q).
Proof. intros HT Hi Hj Hij. rewrite (ti_lev t HT i p Hi), (ti_lev t HT j q Hj). apply lev_at_mono; auto. Qed.

(** a literal preceded by another one of its level has a reason *)
Lemma has_reason t i j p q : TI t -> DecI t -> nth_error (tr t) i = Some p -> nth_error (tr t) j = Some q -> i < j ->
  level t (lvar p) = level t (lvar q) -> 0 < level t (lvar q) -> reason t (lvar q) <> None.
Proof.
  intros HT HDI Hi Hj Hij El H0 Hr. destruct (HDI j q Hj Hr) as [E|(k & Hk)]; [lia|].
  rewrite (ti_lev t HT i p Hi), (ti_lev t HT j q Hj) in El. pose proof (lev_at_strict (lim t) i j Hij (nth_error_In _ _ Hk)). lia.
Qed.

Section Analyze.
Variables (d : db) (t : trail_t).
Hypothesis HT : TI t.
Hypothesis HTRe : TRe (arena d) t.
Hypothesis HWFA : WFA (nvt t) (arena d).
Hypothesis HDI : DecI t.
Hypothesis HRD : RD d t.
Hypothesis HBW : BW (arena d) (bw d).
Hypothesis Hbwc : forall p c o, In (c, o) (wl (bw d) p) -> In c (cls d).
Hypothesis Hdl : 0 < dlevel t.

Definition L := dlevel t.

(** number of stamped literals of the current level *)
Definition curb (st : vset) (q : lit) : bool := st (lvar q) && (level t (lvar q) =? L).
Definition cnt (st : vset) : nat := length (filter (curb st) (tr t)).

Lemma curb_true st q : curb st q = true <-> st (lvar q) = true /\ level t (lvar q) = L.
Proof. unfold curb. rewrite andb_true_iff, Nat.eqb_eq. tauto. Qed.

Lemma cnt_vadd st q : In q (tr t) -> st (lvar q) = false ->
  cnt (vadd (lvar q) st) = cnt st + (if level t (lvar q) =? L then 1 else 0).
Proof.
  unfold cnt. intros Hq Hs. pose proof (ti_nodup t HT) as Hnd. revert Hnd Hq. generalize (tr t) as l.
  induction l as [|x r IH]; [simpl; tauto|]. intros Hnd Hq. simpl in Hnd. inversion Hnd as [|? ? Hnx Hnr]; subst.
  destruct (Nat.eq_dec (lvar x) (lvar q)) as [E|E].
  - assert (Er : filter (curb (vadd (lvar q) st)) r = filter (curb st) r).
    { apply filter_ext_in. intros y Hy. unfold curb, vadd. destruct (Nat.eqb_spec (lvar y) (lvar q)) as [Ey|]; auto.
      exfalso. apply Hnx. rewrite E, <- Ey. apply in_map; auto. }
    assert (E1 : curb (vadd (lvar q) st) x = (level t (lvar q) =? L)) by (unfold curb, vadd; rewrite E, Nat.eqb_refl; auto).
    assert (E2 : curb st x = false) by (unfold curb; rewrite E, Hs; auto).
    cbn [filter]. rewrite Er, E1, E2. destruct (level t (lvar q) =? L); simpl; lia.
  - assert (Hqr : In q r) by (destruct Hq as [->|]; auto; contradiction). specialize (IH Hnr Hqr). cbn [filter].
    assert (Ex : curb (vadd (lvar q) st) x = curb st x) by (unfold curb, vadd; apply Nat.eqb_neq in E; rewrite E; auto).
    rewrite Ex. destruct (curb st x); simpl; lia.
Qed.

Lemma cnt_vdel st q : In q (tr t) -> st (lvar q) = true -> level t (lvar q) = L -> cnt st = S (cnt (vdel (lvar q) st)).
Proof.
  intros Hq Hs Hl. assert (E : cnt (vadd (lvar q) (vdel (lvar q) st)) = cnt st).
  { unfold cnt. f_equal. apply filter_ext. intros x. unfold curb, vadd, vdel. destruct (Nat.eqb_spec (lvar x) (lvar q)) as [->|]; auto. rewrite Hs. auto. }
  rewrite <- E, cnt_vadd; auto.
  - rewrite Hl, Nat.eqb_refl. lia.
  - unfold vdel. rewrite Nat.eqb_refl. auto.
Qed.

Lemma cnt_pos st : 0 < cnt st -> exists q, In q (tr t) /\ st (lvar q) = true /\ level t (lvar q) = L.
Proof.
  unfold cnt. destruct (filter (curb st) (tr t)) as [|q r] eqn:E; simpl; [lia|]. intros _.
  assert (Hq : In q (filter (curb st) (tr t))) by (rewrite E; simpl; auto). apply filter_In in Hq. destruct Hq as [H1 H2].
  apply curb_true in H2. exists q. tauto.
Qed.
Lemma cnt_zero st : cnt st = 0 -> forall q, In q (tr t) -> st (lvar q) = true -> level t (lvar q) = L -> False.
Proof.
  unfold cnt. intros E q Hq Hs Hl. apply length_zero_iff_nil in E.
  assert (Hin : In q (filter (curb st) (tr t))) by (apply filter_In; split; auto; apply curb_true; auto). rewrite E in Hin. destruct Hin.
Qed.

(** ** The literals of one clause *)
(** [R]: stamped variables are assigned, below level L only those of learnt literals or of level 0 *)
Record AI (learnt : list lit) (st : vset) : Prop := {
  ai_as : forall v, st v = true -> exists q, In q (tr t) /\ lvar q = v;
  ai_low : forall q, In q (tr t) -> st (lvar q) = true -> 0 < level t (lvar q) < L -> In (lneg q) learnt;
  ai_learnt : forall l, In l learnt -> value t l = Some false /\ 0 < level t (lvar l) < L /\ st (lvar l) = true;
  ai_nodup : NoDup (map lvar learnt) }.

Lemma false_on_trail l : value t l = Some false -> In (lneg l) (tr t).
Proof. apply ti_val_false; auto. Qed.

Lemma lev_le_L l : In l (tr t) -> level t (lvar l) <= L.
Proof. apply level_le_dlevel; auto. Qed.

Lemma an_lits_spec asserted ls : forall learnt st p,
  AI learnt st -> p = cnt st ->
  (forall l, In l ls -> Some l <> asserted -> value t l = Some false) ->
  let '(learnt', st', p') := an_lits t asserted ls learnt st p in
  AI learnt' st' /\ p' = cnt st' /\ p <= p' /\ incl learnt learnt' /\
  (forall v, st' v = true <-> st v = true \/ exists l, In l ls /\ Some l <> asserted /\ lvar l = v) /\
  (forall l, In l learnt' -> In l learnt \/ In l ls).
Proof.
  induction ls as [|l r IH]; intros learnt st p HA Hp Hf; cbn [an_lits].
  - split; auto. split; auto. split; auto. split; [apply incl_refl|]. split; auto. intros v. split; auto. intros [H|(l & [] & _)]; auto.
  - assert (Hskip : forall (B : Some l = asserted \/ st (lvar l) = true),
      let '(learnt', st', p') := an_lits t asserted r learnt st p in
      AI learnt' st' /\ p' = cnt st' /\ p <= p' /\ incl learnt learnt' /\
      (forall v, st' v = true <-> st v = true \/ exists l0, In l0 (l :: r) /\ Some l0 <> asserted /\ lvar l0 = v) /\
      (forall l0, In l0 learnt' -> In l0 learnt \/ In l0 (l :: r))).
    { intros B. specialize (IH learnt st p HA Hp (fun l0 H0 => Hf l0 (or_intror H0))).
      destruct (an_lits t asserted r learnt st p) as [[learnt' st'] p']. destruct IH as (A1 & A2 & A3 & A4 & A5 & A6).
      split; auto. split; auto. split; auto. split; auto. split.
      - intros v. rewrite A5. split; intros [H|(l0 & H1 & H2 & H3)]; auto.
        + right. exists l0. simpl; auto.
        + destruct H1 as [<-|H1]; [|right; eauto]. destruct B as [B|B]; [congruence|]. subst v. auto.
      - intros l0 H0. destruct (A6 l0 H0); simpl; auto. }
    destruct (match asserted with Some a => a =? l | None => false end) eqn:Ea.
    { apply Hskip. left. destruct asserted as [a|]; [|discriminate]. apply Nat.eqb_eq in Ea. congruence. }
    assert (Hna : Some l <> asserted).
    { destruct asserted as [a|]; [|discriminate]. apply Nat.eqb_neq in Ea. congruence. }
    destruct (st (lvar l)) eqn:Es; [apply Hskip; auto|]. clear Hskip.
    pose proof (Hf l (or_introl eq_refl) Hna) as Hlf. pose proof (false_on_trail l Hlf) as Hlt.
    pose proof (lev_le_L _ Hlt) as HlL. rewrite lvar_neg in HlL.
    assert (Hc : cnt (vadd (lvar l) st) = cnt st + (if level t (lvar l) =? L then 1 else 0)).
    { rewrite <- (lvar_neg l). apply cnt_vadd; auto. rewrite lvar_neg. auto. }
    assert (Hcomb : forall learnt1 p1, AI learnt1 (vadd (lvar l) st) -> p1 = cnt (vadd (lvar l) st) -> incl learnt learnt1 ->
      (forall x, In x learnt1 -> In x learnt \/ x = l) -> p <= p1 ->
      let '(learnt', st', p') := an_lits t asserted r learnt1 (vadd (lvar l) st) p1 in
      AI learnt' st' /\ p' = cnt st' /\ p <= p' /\ incl learnt learnt' /\
      (forall v, st' v = true <-> st v = true \/ exists l0, In l0 (l :: r) /\ Some l0 <> asserted /\ lvar l0 = v) /\
      (forall l0, In l0 learnt' -> In l0 learnt \/ In l0 (l :: r))).
    { intros learnt1 p1 H1 H2 H3 H4 H5. specialize (IH learnt1 (vadd (lvar l) st) p1 H1 H2 (fun l0 H0 => Hf l0 (or_intror H0))).
      destruct (an_lits t asserted r learnt1 (vadd (lvar l) st) p1) as [[learnt' st'] p']. destruct IH as (A1 & A2 & A3 & A4 & A5 & A6).
      split; auto. split; auto. split; [lia|]. split; [eapply incl_tran; eauto|]. split.
      - intros v. rewrite A5, vadd_true. split.
        + intros [[->|H]|(l0 & B1 & B2 & B3)]; auto; right; [exists l|exists l0]; simpl; auto.
        + intros [H|(l0 & [<-|B1] & B2 & B3)]; auto. right. eauto.
      - intros l0 H0. destruct (A6 l0 H0) as [H6|H6]; [|simpl; auto]. destruct (H4 l0 H6) as [|E]; auto. subst. simpl; auto. }
    assert (Has : forall v, vadd (lvar l) st v = true -> exists q, In q (tr t) /\ lvar q = v).
    { intros v Hv. apply vadd_true in Hv. destruct Hv as [->|Hv]; [exists (lneg l); rewrite lvar_neg; auto|apply (ai_as _ _ HA); auto]. }
    assert (Hle : forall x, In x learnt -> value t x = Some false /\ 0 < level t (lvar x) < L /\ vadd (lvar l) st (lvar x) = true).
    { intros x Hx. destruct (ai_learnt _ _ HA x Hx) as (B1 & B2 & B3). split; auto. split; auto. apply vadd_true. auto. }
    assert (Hqv : forall q, In q (tr t) -> lvar q = lvar l -> q = lneg l).
    { intros q Hq Ev. destruct (same_var q (lneg l)) as [E|E]; auto; [rewrite lvar_neg; auto|].
      subst q. rewrite lneg_invol in Hq. apply (ti_val t HT) in Hq. congruence. }
    fold L. destruct (Nat.leb_spec L (level t (lvar l))) as [HL|HL].
    + assert (E : level t (lvar l) = L) by lia. apply Hcomb.
      * constructor; auto; [|apply HA]. intros q Hq Hs Hlv. apply vadd_true in Hs. destruct Hs as [Ev|Hs]; [rewrite Ev in Hlv; lia|].
        apply (ai_low _ _ HA); auto.
      * rewrite Hc, E, Nat.eqb_refl. lia.
      * apply incl_refl.
      * auto.
      * lia.
    + assert (En : level t (lvar l) =? L = false) by (apply Nat.eqb_neq; lia).
      destruct (Nat.ltb_spec 0 (level t (lvar l))) as [H0|H0].
      * apply Hcomb.
        -- constructor; auto.
           ++ intros q Hq Hs Hlv. apply vadd_true in Hs. apply in_or_app. destruct Hs as [Ev|Hs]; [|left; apply (ai_low _ _ HA); auto].
              right. left. rewrite (Hqv q Hq Ev), lneg_invol. auto.
           ++ intros x Hx. apply in_app_or in Hx. destruct Hx as [Hx|[<-|[]]]; auto. split; auto. split; [lia|]. apply vadd_true. auto.
           ++ rewrite map_app. simpl. apply (Permutation_NoDup (l := lvar l :: map lvar learnt)); [apply Permutation_cons_append|].
              constructor; [|apply HA]. intros Hi. apply in_map_iff in Hi. destruct Hi as (x & Ex & Hx). destruct (ai_learnt _ _ HA x Hx) as (_ & _ & B3).
              rewrite Ex in B3. congruence.
        -- rewrite Hc, En. lia.
        -- intros x Hx. apply in_or_app; auto.
        -- intros x Hx. apply in_app_or in Hx. destruct Hx as [|[|[]]]; auto.
        -- lia.
      * apply Hcomb.
        -- constructor; auto; [|apply HA]. intros q Hq Hs Hlv. apply vadd_true in Hs. destruct Hs as [Ev|Hs]; [rewrite Ev in Hlv; lia|].
           apply (ai_low _ _ HA); auto.
        -- rewrite Hc, En. lia.
        -- apply incl_refl.
        -- auto.
        -- lia.
Qed.

Lemma scan_spec st : forall i, (exists j q, j < i /\ nth_error (tr t) j = Some q /\ st (lvar q) = true) -> i <= length (tr t) ->
  exists i' a, scan t st i = Ok i' /\ 0 < i' <= i /\ nth_error (tr t) (pred i') = Some a /\ nth (pred i') (tr t) 0 = a /\
    st (lvar a) = true /\ forall j q, i' <= j < i -> nth_error (tr t) j = Some q -> st (lvar q) = false.
Proof.
  induction i as [|i IH]; intros (j & q & Hj & Hq & Hs) Hi; [lia|]. cbn [scan].
  destruct (st (lvar (nth i (tr t) 0))) eqn:E.
  - exists (S i), (nth i (tr t) 0). split; auto. split; [lia|]. simpl. split; [apply nth_error_nth'; lia|]. split; auto. split; auto.
    intros; lia.
  - destruct IH as (i' & a & A1 & A2 & A3 & A4 & A5 & A6); [|lia|].
    + exists j, q. split; auto. destruct (Nat.eq_dec j i) as [->|]; [|lia]. pose proof (nth_error_nth (tr t) i 0 Hq) as Eq. rewrite Eq in E. congruence.
    + exists i', a. split; auto. split; [lia|]. split; auto. split; auto. split; auto. intros j' q' Hj' Hq'.
      destruct (Nat.eq_dec j' i) as [->|]; [pose proof (nth_error_nth (tr t) i 0 Hq') as Eq; rewrite Eq in E; auto|]. apply (A6 j'); auto. lia.
Qed.

(** ** The resolution loop *)
Definition cl_ok (asserted : option lit) (c : cid) (b : nat) : Prop :=
  In c (cls d) /\
  (forall l, In l (clits d c) -> Some l <> asserted -> exists j, j < b /\ nth_error (tr t) j = Some (lneg l)) /\
  (forall a, asserted = Some a -> In a (clits d c)).

Lemma an_loop_spec fuel : forall c asserted learnt st p i b inv,
  cl_ok asserted c b -> AI learnt st -> p = cnt st -> b <= i -> i <= length (tr t) -> b < fuel ->
  (forall q j, nth_error (tr t) j = Some q -> st (lvar q) = true -> level t (lvar q) = L -> j < b) ->
  (0 < p \/ exists l, In l (clits d c) /\ Some l <> asserted /\ level t (lvar l) = L) ->
  (forall j q, b <= j < i -> nth_error (tr t) j = Some q -> st (lvar q) = false) ->
  exists a learnt' st' inv', an_loop fuel d t (Some c) asserted learnt st p i inv = Ok (lneg a :: learnt', st', inv ++ inv') /\
    AI learnt' st' /\ cnt st' = 0 /\ In a (tr t) /\ level t (lvar a) = L /\
    (forall x, In x inv' -> x = c \/ exists q, In q (tr t) /\ reason t (lvar q) = Some x) /\ incl learnt learnt' /\
    (forall H, UPclosed d H -> (forall q, In q (tr t) -> level t (lvar q) = 0 -> H q) ->
       (forall l, In l (lneg a :: learnt') -> H (lneg l)) ->
       (forall m, In m (clits d c) -> Some m <> asserted -> H (lneg m)) /\
       (forall q, In q (tr t) -> st (lvar q) = true -> level t (lvar q) = L -> H q)).
Proof.
  induction fuel as [|fuel IH]; intros c asserted learnt st p i b inv (Hc & Hcl & Has) HA Hp Hbi Hi Hfuel Hpos Hex Hgap; [lia|].
  cbn [an_loop].
  assert (Hf : forall l, In l (clits d c) -> Some l <> asserted -> value t l = Some false).
  { intros l Hl Hn. apply (ti_val_false t l HT). destruct (Hcl l Hl Hn) as (j & _ & Ej). eapply nth_error_In; eauto. }
  pose proof (an_lits_spec asserted (clits d c) learnt st p HA Hp Hf) as HS.
  destruct (an_lits t asserted (clits d c) learnt st p) as [[learnt1 st1] p1].
  destruct HS as (S1 & S2 & S3 & S4 & S5 & S6).
  (* positions of stamped literals of the current level *)
  assert (Hpos1 : forall q j, nth_error (tr t) j = Some q -> st1 (lvar q) = true -> level t (lvar q) = L -> j < b).
  { intros q j Hj Hs Hl. apply S5 in Hs. destruct Hs as [Hs|(l & L1 & L2 & L3)]; [eapply Hpos; eauto|].
    destruct (Hcl l L1 L2) as (j' & Hj' & Ej'). replace j with j'; auto. eapply (tr_nth_inj t); eauto. rewrite lvar_neg. auto. }
  assert (Hp1 : 0 < p1).
  { destruct Hex as [Hx|(l & L1 & L2 & L3)]; [lia|]. rewrite S2.
    assert (Hin : In (lneg l) (filter (curb st1) (tr t))).
    { apply filter_In. split; [apply false_on_trail; auto|]. apply curb_true. rewrite lvar_neg. split; auto. apply S5. right. eauto. }
    unfold cnt. destruct (filter (curb st1) (tr t)); [destruct Hin|simpl; lia]. }
  assert (Hq1 : exists j q, j < i /\ nth_error (tr t) j = Some q /\ st1 (lvar q) = true).
  { rewrite S2 in Hp1. destruct (cnt_pos _ Hp1) as (q & Q1 & Q2 & Q3). apply In_nth_error in Q1. destruct Q1 as (j & Ej).
    exists j, q. split; auto. specialize (Hpos1 q j Ej Q2 Q3). lia. }
  destruct (scan_spec st1 i Hq1 Hi) as (i' & a & A1 & A2 & A3 & A4 & A5 & A6). rewrite A1. cbn [bind]. rewrite A4.
  assert (Hain : In a (tr t)) by (eapply nth_error_In; eauto).
  (* the found literal is of the current level *)
  assert (HaL : level t (lvar a) = L).
  { rewrite S2 in Hp1. destruct (cnt_pos _ Hp1) as (q & Q1 & Q2 & Q3). apply In_nth_error in Q1. destruct Q1 as (j & Ej).
    pose proof (lev_le_L a Hain) as Hle. destruct (Nat.lt_ge_cases j i') as [Hji|Hji].
    - pose proof (level_mono t j (pred i') q a HT Ej A3 ltac:(lia)). lia.
    - pose proof (Hpos1 q j Ej Q2 Q3). rewrite (A6 j q ltac:(lia) Ej) in Q2. discriminate. }
  assert (Hib : pred i' < b) by (apply (Hpos1 a); auto).
  set (st2 := vdel (lvar a) st1).
  assert (Hcnt : cnt st1 = S (cnt st2)) by (apply cnt_vdel; auto).
  assert (HA2 : AI learnt1 st2).
  { constructor.
    - intros v Hv. apply vdel_true in Hv. apply (ai_as _ _ S1). tauto.
    - intros q Hq Hs. apply vdel_true in Hs. apply (ai_low _ _ S1); tauto.
    - intros l Hl. destruct (ai_learnt _ _ S1 l Hl) as (B1 & B2 & B3). split; auto. split; auto. apply vdel_true. split; auto.
      intros E. rewrite E in B2. lia.
    - apply S1. }
  (* how H follows for the clause *)
  assert (Hback : forall H : lit -> Prop, (forall q, In q (tr t) -> level t (lvar q) = 0 -> H q) -> H a ->
     (forall l, In l learnt1 -> H (lneg l)) -> (forall q, In q (tr t) -> st2 (lvar q) = true -> level t (lvar q) = L -> H q) ->
     (forall m, In m (clits d c) -> Some m <> asserted -> H (lneg m)) /\
     (forall q, In q (tr t) -> st (lvar q) = true -> level t (lvar q) = L -> H q)).
  { intros H H0 Ha Hl Hcur.
    assert (Hcur1 : forall q, In q (tr t) -> st1 (lvar q) = true -> level t (lvar q) = L -> H q).
    { intros q Hq Hs Hlq. destruct (Nat.eq_dec (lvar q) (lvar a)) as [E|E].
      - apply In_nth_error in Hq. destruct Hq as (j & Ej). pose proof (tr_nth_inj t _ _ _ _ HT Ej A3 E). subst j. rewrite A3 in Ej. inversion Ej; subst; auto.
      - apply Hcur; auto. apply vdel_true. auto. }
    split.
    - intros m Hm Hn. pose proof (false_on_trail m (Hf m Hm Hn)) as Hmt. pose proof (lev_le_L _ Hmt) as HmL. rewrite lvar_neg in HmL.
      assert (Hsm : st1 (lvar m) = true) by (apply S5; right; eauto).
      destruct (Nat.eq_dec (level t (lvar m)) L) as [E|E]; [apply Hcur1; rewrite ?lvar_neg; auto|].
      destruct (Nat.eq_dec (level t (lvar m)) 0) as [E0|E0]; [apply H0; rewrite ?lvar_neg; auto|].
      apply Hl. rewrite <- (lneg_invol m). apply (ai_low _ _ S1); rewrite ?lvar_neg; auto. lia.
    - intros q Hq Hs Hlq. apply Hcur1; auto. apply S5; auto. }
  destruct (Nat.ltb_spec 1 p1) as [Hp2|Hp2].
  - (* continue with the reason of a *)
    assert (Hc2 : 0 < cnt st2) by lia.
    destruct (cnt_pos _ Hc2) as (q & Q1 & Q2 & Q3). apply In_nth_error in Q1. destruct Q1 as (j & Ej).
    assert (Q2' := Q2). apply vdel_true in Q2'. destruct Q2' as [Qn Qs].
    assert (Hj : j < pred i').
    { pose proof (Hpos1 q j Ej Qs Q3). destruct (Nat.lt_trichotomy j (pred i')) as [|[E|E]]; auto; exfalso.
      - subst j. rewrite A3 in Ej. inversion Ej; subst. contradiction.
      - rewrite (A6 j q ltac:(lia) Ej) in Qs. discriminate. }
    destruct (reason t (lvar a)) as [c'|] eqn:Er.
    2:{ exfalso. apply (has_reason t j (pred i') q a HT HDI Ej A3 Hj); [congruence| |auto]. rewrite HaL. exact Hdl. }
    destruct (HTRe (pred i') a c' A3 Er) as [R1 R2].
    destruct (IH c' (Some a) learnt1 st2 (pred p1) i' (pred i') (inv ++ [c])) as (a' & learnt' & st' & inv' & B1 & B2 & B3 & B4 & B5 & B6 & B7 & B8).
    + split; [apply (HRD a c' Hain Er)|]. split.
      * intros l Hl Hn. apply R2; [auto|congruence].
      * intros a0 [= <-]. exact R1.
    + exact HA2.
    + lia.
    + lia.
    + lia.
    + lia.
    + intros q' j' Ej' Hs' Hl'. apply vdel_true in Hs'. destruct Hs' as [Hn' Hs']. pose proof (Hpos1 q' j' Ej' Hs' Hl').
      destruct (Nat.lt_trichotomy j' (pred i')) as [|[E|E]]; auto; exfalso.
      * subst j'. rewrite A3 in Ej'. inversion Ej'; subst. contradiction.
      * rewrite (A6 j' q' ltac:(lia) Ej') in Hs'. discriminate.
    + left. lia.
    + intros j' q' Hj' Ej'. assert (j' = pred i') by lia. subst j'. rewrite A3 in Ej'. inversion Ej'; subst.
      unfold st2, vdel. rewrite Nat.eqb_refl. auto.
    + exists a', learnt', st', (c :: inv'). rewrite B1, <- app_assoc. split; [reflexivity|]. split; auto. split; auto. split; auto. split; auto.
      split; [intros x [<-|Hx]; auto; destruct (B6 x Hx) as [->|]; eauto|]. split; [eapply incl_tran; eauto|].
      intros H HU H0 Hall. destruct (B8 H HU H0 Hall) as [C1 C2]. apply Hback; auto.
      * apply (HU c' a); auto; [apply (HRD a c' Hain Er)|]. intros m Hm Hn. apply C1; auto. congruence.
      * intros l Hl. apply Hall. simpl. right. apply B7. auto.
  - exists a, learnt1, st2, [c]. split; [reflexivity|]. split; auto. split; [lia|]. split; auto. split; auto.
    split; [intros x [<-|[]]; auto|]. split; auto. intros H HU H0 Hall. apply Hback; auto.
    + rewrite <- (lneg_invol a). apply Hall. simpl; auto.
    + intros l Hl. apply Hall. simpl; auto.
    + intros q Hq Hs Hlq. exfalso. apply (cnt_zero st2) with (q := q); auto. lia.
Qed.

(** ** Recursive minimisation *)
(** stamped literals are of level 0, kept, on the stack, or follow from stamped ones *)
Definition CL (st : vset) (K : list lit) (stack : list var) : Prop :=
  forall q, In q (tr t) -> st (lvar q) = true ->
    level t (lvar q) = 0 \/ In (lneg q) K \/ In (lvar q) stack \/
    exists c, reason t (lvar q) = Some c /\ forall m, In m (clits d c) -> st (lvar m) = true \/ level t (lvar m) = 0.

Definition unst (st : vset) : nat := length (filter (fun v => negb (st v)) (seq 0 (nvt t))).
Lemma unst_vadd st v : v < nvt t -> st v = false -> S (unst (vadd v st)) = unst st.
Proof.
  unfold unst. intros Hv Hs. assert (Hin : In v (seq 0 (nvt t))) by (apply in_seq; lia).
  pose proof (seq_NoDup (nvt t) 0) as Hnd. revert Hnd Hin. generalize (seq 0 (nvt t)) as l.
  induction l as [|x r IH]; [simpl; tauto|]. intros Hnd Hin. inversion Hnd as [|? ? Hnx Hnr]; subst. cbn [filter].
  destruct (Nat.eq_dec x v) as [->|E].
  - unfold vadd at 1. rewrite Nat.eqb_refl, Hs. simpl. f_equal. f_equal. apply filter_ext_in. intros y Hy. unfold vadd.
    destruct (Nat.eqb_spec y v) as [->|]; auto. contradiction.
  - unfold vadd at 1. assert (E' := E). apply Nat.eqb_neq in E'. rewrite E'. destruct Hin as [|Hin]; [contradiction|].
    specialize (IH Hnr Hin). destruct (negb (st x)); simpl; lia.
Qed.
Lemma unst_le st : unst st <= nvt t.
Proof. unfold unst. eapply Nat.le_trans; [apply filter_length_le'|]. rewrite seq_length. auto. Qed.

Definition stack_ok (stack : list var) : Prop := forall v, In v stack -> v < nvt t /\ exists c, reason t v = Some c.

Lemma stack_ok_cons v stack c : v < nvt t -> reason t v = Some c -> stack_ok stack -> stack_ok (v :: stack).
Proof. intros Hv Hr H x [<-|Hx]; eauto. Qed.

Lemma lr_lits_spec absl ls : forall st stack clear st' stack' clear',
  (forall l, In l ls -> lvar l < nvt t) -> stack_ok stack ->
  lr_lits t absl ls st stack clear = Some (st', stack', clear') ->
  stack_ok stack' /\ length stack' + unst st' = length stack + unst st /\
  (forall v, st v = true -> st' v = true) /\ (forall v, In v stack -> In v stack') /\
  (forall v, st' v = true -> st v = true \/ In v stack') /\
  (forall l, In l ls -> st' (lvar l) = true \/ level t (lvar l) = 0).
Proof.
  induction ls as [|l r IH]; intros st stack clear st' stack' clear' Hv Hs H; cbn [lr_lits] in H.
  - inversion H; subst. do 5 (split; [solve [auto]|]). intros l [].
  - destruct (negb (st (lvar l)) && (0 <? level t (lvar l))) eqn:E.
    + apply andb_true_iff in E. destruct E as [E1 E2]. apply negb_true_iff in E1.
      destruct (reason t (lvar l)) as [c|] eqn:Er; [|discriminate].
      destruct (N.land (abstractLevel t (lvar l)) absl =? 0)%N; [discriminate|].
      assert (Hl : lvar l < nvt t) by (apply Hv; simpl; auto).
      destruct (IH _ _ _ _ _ _ (fun x Hx => Hv x (or_intror Hx)) (stack_ok_cons _ _ c Hl Er Hs) H) as (A1 & A2 & A3 & A4 & A5 & A6).
      split; auto. split; [rewrite A2; simpl; pose proof (unst_vadd st (lvar l) Hl E1); lia|].
      split; [intros v Hx; apply A3, vadd_true; auto|]. split; [intros v Hx; apply A4; simpl; auto|]. split.
      * intros v Hx. destruct (A5 v Hx) as [Hx'|]; auto. apply vadd_true in Hx'. destruct Hx' as [->|]; auto. right. apply A4. simpl; auto.
      * intros x [<-|Hx]; auto. left. apply A3, vadd_true. auto.
    + destruct (IH _ _ _ _ _ _ (fun x Hx => Hv x (or_intror Hx)) Hs H) as (A1 & A2 & A3 & A4 & A5 & A6).
      split; auto. split; auto. split; auto. split; auto. split; auto. intros x [<-|Hx]; auto.
      apply andb_false_iff in E. destruct E as [E|E]; [left; apply A3; apply negb_false_iff in E; auto|right; apply Nat.ltb_ge in E; lia].
Qed.

Lemma CL_step st stack st' stack' v c : CL st [] (v :: stack) \/ True -> reason t v = Some c ->
  (forall x, st x = true -> st' x = true) -> (forall x, In x stack -> In x stack') ->
  (forall x, st' x = true -> st x = true \/ In x stack') ->
  (forall l, In l (clits d c) -> st' (lvar l) = true \/ level t (lvar l) = 0) ->
  forall K, CL st K (v :: stack) -> CL st' K stack'.
Proof.
  intros _ Hr H1 H2 H3 H4 K H q Hq Hs. destruct (H3 _ Hs) as [Hs'|]; [|auto].
  destruct (H q Hq Hs') as [|[|[[E|]|(c' & E1 & E2)]]]; auto.
  - right. right. right. exists c. split; [congruence|auto].
  - right. right. right. exists c'. split; auto. intros m Hm. destruct (E2 m Hm); auto.
Qed.

Lemma lr_loop_spec absl fuel : forall st stack clear, stack_ok stack -> length stack + unst st < fuel ->
  exists o, lr_loop fuel d t absl st stack clear = Ok o /\
    forall st', o = Some st' -> (forall x, st x = true -> st' x = true) /\ forall K, CL st K stack -> CL st' K [].
Proof.
  induction fuel as [|fuel IH]; intros st stack clear Hs Hf; [lia|]. cbn [lr_loop]. destruct stack as [|v rest].
  - exists (Some st). split; auto. intros st' [= <-]. auto.
  - destruct (Hs v (or_introl eq_refl)) as (Hv & c & Hc). rewrite Hc.
    destruct (lr_lits t absl (clits d c) st rest clear) as [[[st1 stack1] clear1]|] eqn:E; [|exists None; split; auto; discriminate].
    destruct (lr_lits_spec absl (clits d c) st rest clear st1 stack1 clear1) as (A1 & A2 & A3 & A4 & A5 & A6); auto.
    { intros l Hl. apply (HWFA c). auto. }
    { intros x Hx. apply Hs. simpl; auto. }
    destruct (IH st1 stack1 clear1 A1) as (o & B1 & B2); [simpl in Hf; lia|]. exists o. split; auto. intros st' Ho.
    destruct (B2 st' Ho) as [C1 C2]. split; auto. intros K HK. apply C2. eapply CL_step; eauto.
Qed.

Lemma CL_weaken st K K' : (forall x, In x K -> In x K') -> CL st K [] -> CL st K' [].
Proof. intros HK H q Hq Hs. destruct (H q Hq Hs) as [|[|[|]]]; auto. Qed.

(** the loop over the literals: [K] is what is kept *)
Lemma min_loop_spec absl ls : forall st acc,
  (forall l, In l ls -> lvar l < nvt t /\ st (lvar l) = true /\ value t l = Some false) ->
  NoDup (map lvar (acc ++ ls)) ->
  CL st (acc ++ ls) [] ->
  exists res st', min_loop d t absl ls st acc = Ok res /\ (forall x, st x = true -> st' x = true) /\ CL st' res [] /\
    (exists r', res = acc ++ r' /\ incl r' ls /\ NoDup (map lvar (acc ++ r'))).
Proof.
  induction ls as [|l r IH]; intros st acc Hl Hnd HC; cbn [min_loop].
  - exists acc, st. split; auto. split; auto. rewrite app_nil_r in *. split; auto. exists []. rewrite app_nil_r. split; auto. split; [apply incl_refl|auto].
  - destruct (Hl l (or_introl eq_refl)) as (Hv & Hst & Hfl).
    assert (Hkeep : exists res st', min_loop d t absl r st (acc ++ [l]) = Ok res /\ (forall x, st x = true -> st' x = true) /\ CL st' res [] /\
      (exists r', res = acc ++ r' /\ incl r' (l :: r) /\ NoDup (map lvar (acc ++ r')))).
    { destruct (IH st (acc ++ [l])) as (res & st' & A1 & A2 & A3 & r' & A4 & A5 & A6).
      - intros x Hx. apply Hl. simpl; auto.
      - rewrite <- app_assoc. exact Hnd.
      - rewrite <- app_assoc. exact HC.
      - exists res, st'. split; auto. split; auto. split; auto. exists (l :: r'). rewrite <- app_assoc in A4, A6. split; auto. split; auto.
        intros x [<-|Hx]; simpl; auto. }
    destruct (reason t (lvar l)) as [c|] eqn:Er; [|exact Hkeep].
    unfold litRedundant. destruct (lr_loop_spec absl (S (S (nvt t))) st [lvar l] []) as (o & B1 & B2).
    { intros v [<-|[]]. eauto. }
    { simpl. pose proof (unst_le st). lia. }
    rewrite B1. cbn [bind]. destruct o as [st1|]; [|exact Hkeep]. destruct (B2 st1 eq_refl) as [C1 C2].
    destruct (IH st1 acc) as (res & st' & A1 & A2 & A3 & r' & A4 & A5 & A6).
    + intros x Hx. destruct (Hl x (or_intror Hx)) as (D1 & D2 & D3). auto.
    + rewrite map_app in *. simpl in Hnd. apply NoDup_remove_1 in Hnd. auto.
    + apply C2. intros q Hq Hs. destruct (HC q Hq Hs) as [|[Hin|[[]|]]]; auto.
      apply in_app_or in Hin. destruct Hin as [Hin|[E|Hin]].
      * right. left. apply in_or_app; auto.
      * right. right. left. left. rewrite E. apply lvar_neg.
      * right. left. apply in_or_app; auto.
    + exists res, st'. split; auto. split; auto. split; auto. exists r'. split; auto. split; auto. intros x Hx. simpl. right. auto.
Qed.

Lemma CL_closed st K H : UPclosed d H -> (forall q, In q (tr t) -> level t (lvar q) = 0 -> H q) ->
  CL st K [] -> (forall l, In l K -> H (lneg l)) -> forall q, In q (tr t) -> st (lvar q) = true -> H q.
Proof.
  intros HU H0 HC HK q Hq. apply In_nth_error in Hq. destruct Hq as (i & Hi). revert q Hi.
  induction i as [i IH] using lt_wf_ind. intros q Hi Hs. pose proof (nth_error_In _ _ Hi) as Hq.
  destruct (HC q Hq Hs) as [E|[Hin|[[]|(c & Hr & Hm)]]]; auto.
  - rewrite <- (lneg_invol q). auto.
  - destruct (HTRe i q c Hi Hr) as [R1 R2]. apply (HU c q); auto; [apply (HRD q c Hq Hr)|]. intros m Hin Hn.
    destruct (R2 m Hin Hn) as (j & Hj & Ej). destruct (Hm m Hin) as [Hs'|E0].
    + apply (IH j Hj); auto. rewrite lvar_neg. auto.
    + apply H0; [eapply nth_error_In; eauto|]. rewrite lvar_neg. auto.
Qed.

(** ** Binary minimisation *)
Lemma bin_stamp_spec l0 v : 
  fold_left (fun s (x : cid * lit) => if is_true (value t (snd x)) then vadd (lvar (snd x)) s else s) (nth (lneg l0) (bw d) []) vempty v = true ->
  exists c o, In c (cls d) /\ lvar o = v /\ value t o = Some true /\ forall m, In m (clits d c) <-> m = l0 \/ m = o.
Proof.
  assert (HI : forall ws s, (forall x, In x ws -> In x (wl (bw d) (lneg l0))) ->
    (forall u, s u = true -> exists c o, In c (cls d) /\ lvar o = u /\ value t o = Some true /\ forall m, In m (clits d c) <-> m = l0 \/ m = o) ->
    forall u, fold_left (fun s (x : cid * lit) => if is_true (value t (snd x)) then vadd (lvar (snd x)) s else s) ws s u = true ->
    exists c o, In c (cls d) /\ lvar o = u /\ value t o = Some true /\ forall m, In m (clits d c) <-> m = l0 \/ m = o).
  { induction ws as [|[c o] ws IH]; intros s Hw Hs u Hu; simpl in Hu; auto. apply (IH _ (fun x Hx => Hw x (or_intror Hx))) in Hu; auto.
    intros u' Hu'. destruct (is_true (value t o)) eqn:E; auto. apply vadd_true in Hu'. destruct Hu' as [->|]; auto.
    apply is_true_iff in E. pose proof (Hw (c, o) (or_introl eq_refl)) as Hin. exists c, o. split; [eapply Hbwc; eauto|]. split; auto. split; auto.
    intros m. pose proof (HBW (lneg l0) c o Hin m) as HB. rewrite lneg_invol in HB. exact HB. }
  intros Hv. eapply HI; eauto. discriminate.
Qed.

Lemma minBinary_spec l0 r : (forall l, In l r -> value t l = Some false) ->
  exists r', minimizationBinary d t (l0 :: r) = l0 :: r' /\ r' = filter (fun l => existsb (Nat.eqb l) r') r /\ incl r' r /\
    (NoDup (map lvar r) -> NoDup (map lvar r')) /\
    (forall H, UPclosed d H -> (forall l, In l (l0 :: r') -> H (lneg l)) -> forall l, In l (l0 :: r) -> H (lneg l)).
Proof.
  intros Hf. cbn [minimizationBinary]. set (st := fold_left _ _ _). exists (filter (fun l => negb (st (lvar l))) r).
  split; auto. split.
  { apply filter_ext_in. intros x Hx. symmetry. destruct (negb (st (lvar x))) eqn:E.
    - apply existsb_exists. exists x. split; [apply filter_In; auto|apply Nat.eqb_refl].
    - destruct (existsb (Nat.eqb x) (filter (fun l => negb (st (lvar l))) r)) eqn:E2; auto. apply existsb_exists in E2.
      destruct E2 as (y & Hy & Ey). apply Nat.eqb_eq in Ey. subst y. apply filter_In in Hy. destruct Hy. congruence. }
  split; [intros x Hx; apply filter_In in Hx; tauto|]. split.
  { clearbody st. clear. induction r as [|x r IH]; simpl; auto. intros Hn. inversion Hn as [|? ? Hx Hr]; subst.
    destruct (negb (st (lvar x))); auto. simpl. constructor; auto.
    intros Hi. apply Hx. apply in_map_iff in Hi. destruct Hi as (y & Ey & Hy). apply filter_In in Hy. rewrite <- Ey. apply in_map. tauto. }
  intros H HU Hall l [<-|Hl]; [apply Hall; simpl; auto|].
  destruct (negb (st (lvar l))) eqn:E; [apply Hall; right; apply filter_In; auto|]. apply negb_false_iff in E.
  destruct (bin_stamp_spec l0 (lvar l) E) as (c & o & C1 & C2 & C3 & C4).
  assert (Eo : o = lneg l).
  { destruct (same_var o l C2) as [->|]; auto. rewrite (Hf l Hl) in C3. discriminate. }
  rewrite <- Eo. apply (HU c o); auto; [apply C4; auto|]. intros m Hm Hn. apply C4 in Hm. destruct Hm as [->|]; [|contradiction].
  apply Hall. simpl; auto.
Qed.

(** ** Backtrack level *)
Lemma bt_swap_spec : forall rest m, let '(m', r') := bt_swap t m rest in
  Permutation (m :: rest) (m' :: r') /\ forall x, In x (m :: rest) -> level t (lvar x) <= level t (lvar m').
Proof.
  induction rest as [|x r IH]; intros m; cbn [bt_swap].
  - split; auto. intros x [<-|[]]; auto.
  - destruct (Nat.ltb_spec (level t (lvar m)) (level t (lvar x))) as [Hlt|Hge].
    + specialize (IH x). destruct (bt_swap t x r) as [m' r']. destruct IH as [P Hm]. split.
      * eapply perm_trans; [apply perm_skip; exact P|]. apply perm_swap.
      * intros y [<-|Hy]; auto. pose proof (Hm x (or_introl eq_refl)). lia.
    + specialize (IH m). destruct (bt_swap t m r) as [m' r']. destruct IH as [P Hm]. split.
      * eapply perm_trans; [apply perm_swap|]. eapply perm_trans; [|apply perm_swap]. apply perm_skip. exact P.
      * intros y [<-|[<-|Hy]]; [apply Hm; simpl; auto| |apply Hm; simpl; auto]. pose proof (Hm m (or_introl eq_refl)). lia.
Qed.

Lemma computeLBD_perm ls ls' : Permutation ls ls' -> computeLBD t ls = computeLBD t ls'.
Proof.
  intros P. rewrite !computeLBD_spec. apply Permutation_length. apply NoDup_Permutation; try apply NoDup_nodup.
  intros x. rewrite !nodup_In. split; apply Permutation_in, Permutation_map; auto. apply Permutation_sym; auto.
Qed.

(** ** The whole analysis *)
Definition learnt_ok (ls : list lit) : Prop := exists x r, ls = x :: r /\ wfc (nvt t) ls /\
  (forall m, In m ls -> value t m = Some false) /\ level t (lvar x) = dlevel t /\
  (forall m, In m r -> 0 < level t (lvar m) < dlevel t).

Lemma analyze_spec c : In c (cls d) -> (forall m, In m (clits d c) -> value t m = Some false) ->
  (exists m, In m (clits d c) /\ level t (lvar m) = dlevel t) ->
  exists ls inv, analyze d t c = Ok (ls, inv) /\ learnt_ok ls /\
    (forall x, In x inv -> x = c \/ exists q, In q (tr t) /\ reason t (lvar q) = Some x) /\
    (forall H, UPclosed d H -> (forall q, In q (tr t) -> level t (lvar q) = 0 -> H q) ->
       (forall l, In l ls -> H (lneg l)) -> forall m, In m (clits d c) -> H (lneg m)).
Proof.
  intros Hc Hf Hex. unfold analyze.
  destruct (an_loop_spec (S (length (tr t))) c None [] vempty 0 (length (tr t)) (length (tr t)) []) as
    (a & learnt & st & inv & A1 & A2 & A3 & A4 & A5 & A6 & _ & A8).
  - split; auto. split; [|discriminate]. intros l Hl _. pose proof (false_on_trail l (Hf l Hl)) as Hin. apply In_nth_error in Hin.
    destruct Hin as (j & Ej). exists j. split; auto. eapply nth_error_lt; eauto.
  - constructor; try discriminate; [intros l []|constructor].
  - symmetry. unfold cnt, curb. clear. induction (tr t) as [|x r IH]; auto.
  - auto.
  - auto.
  - lia.
  - discriminate.
  - right. destruct Hex as (m & M1 & M2). exists m. split; auto. split; [discriminate|auto].
  - intros; lia.
  - cbn [app] in A1. rewrite A1. cbn [bind].
    assert (Hlv : forall l, In l learnt -> lvar l < nvt t /\ st (lvar l) = true /\ value t l = Some false).
    { intros l Hl. destruct (ai_learnt _ _ A2 l Hl) as (B1 & B2 & B3). split; auto. rewrite <- lvar_neg. apply (ti_range t HT). apply false_on_trail; auto. }
    assert (Hna : ~ In (lvar a) (map lvar learnt)).
    { intros Hi. apply in_map_iff in Hi. destruct Hi as (x & Ex & Hx). destruct (ai_learnt _ _ A2 x Hx) as (_ & B2 & _). rewrite Ex in B2. lia. }
    unfold minimization. set (absl := fold_left _ _ _).
    destruct (min_loop_spec absl learnt st [lneg a]) as (res & st' & B1 & B2 & B3 & r' & B4 & B5 & B6); auto.
    { simpl. rewrite lvar_neg. constructor; auto. apply A2. }
    { intros q Hq Hs. destruct (Nat.eq_dec (level t (lvar q)) 0) as [|H0]; auto. right. left.
      pose proof (lev_le_L q Hq) as HL. destruct (Nat.eq_dec (level t (lvar q)) L) as [E|E].
      - exfalso. eapply (cnt_zero st); eauto.
      - right. apply (ai_low _ _ A2); auto. lia. }
    rewrite B1. cbn [bind]. rewrite B4. cbn [app].
    destruct (minBinary_spec (lneg a) r') as (r2 & C1 & _ & C2 & C3 & C4).
    { intros l Hl. apply Hlv. auto. }
    rewrite C1. exists (lneg a :: r2), inv. split; auto.
    assert (Hav : lvar a < nvt t) by (apply (ti_range t HT); auto).
    assert (Hr2 : forall x, In x r2 -> In x learnt) by auto.
    rewrite map_app in B6. simpl in B6. rewrite lvar_neg in B6. inversion B6 as [|? ? Hn1 Hn2]; subst.
    split; [|split].
    + exists (lneg a), r2. split; auto. split; [split|].
      * simpl. rewrite lvar_neg. constructor; auto. intros Hi. apply Hn1. apply in_map_iff in Hi. destruct Hi as (x & Ex & Hx). rewrite <- Ex. apply in_map. auto.
      * intros x [<-|Hx]; [rewrite lvar_neg; auto|]. apply Hlv. auto.
      * split; [|split].
        -- intros m [<-|Hm]; [apply value_neg_false, (ti_val t HT); auto|]. apply Hlv; auto.
        -- rewrite lvar_neg. exact A5.
        -- intros m Hm. apply (ai_learnt _ _ A2); auto.
    + exact A6.
    + intros H HU H0 Hall. specialize (C4 H HU Hall).
      assert (Hst : forall q, In q (tr t) -> st' (lvar q) = true -> H q).
      { apply (CL_closed st' ([lneg a] ++ r') H HU H0 B3). intros l Hl. apply C4. exact Hl. }
      destruct (A8 H HU H0) as [D1 _].
      * intros l [<-|Hl]; [apply C4; simpl; auto|]. apply Hst; [apply false_on_trail; apply Hlv; auto|]. rewrite lvar_neg. apply B2. apply Hlv; auto.
      * intros m Hm. apply D1; auto. discriminate.
Qed.

Lemma handle_conflict_spec c : In c (cls d) -> (forall m, In m (clits d c) -> value t m = Some false) ->
  (exists m, In m (clits d c) /\ level t (lvar m) = dlevel t) ->
  exists an, handle_conflict d t c = Ok (an, reestimate t (an_involved an) d) /\ learnt_ok (an_learnt an) /\
    (forall x, In x (an_involved an) -> x = c \/ exists q, In q (tr t) /\ reason t (lvar q) = Some x) /\
    an_level an < dlevel t /\
    (forall m, In m (tl (an_learnt an)) -> level t (lvar m) <= an_level an) /\
    (tl (an_learnt an) = [] -> an_level an = 0) /\
    (forall y r, tl (an_learnt an) = y :: r -> level t (lvar y) = an_level an) /\
    an_lbd an = computeLBD t (an_learnt an) /\
    (forall H, UPclosed d H -> (forall q, In q (tr t) -> level t (lvar q) = 0 -> H q) ->
       (forall l, In l (an_learnt an) -> H (lneg l)) -> forall m, In m (clits d c) -> H (lneg m)).
Proof.
  intros Hc Hf Hex. destruct (analyze_spec c Hc Hf Hex) as (ls & inv & A1 & A2 & A3 & A4).
  unfold handle_conflict. rewrite A1. cbn [bind]. destruct A2 as (x & r & -> & W & F & Lx & Lr).
  destruct r as [|y r].
  - exists (mkAn [x] inv (computeLBD t [x]) 0). split; auto. cbn [an_learnt an_involved an_level an_lbd tl].
    split; [exists x, []; auto|]. split; auto. split; auto. split; [intros m []|]. split; auto. split; [discriminate|]. split; auto.
  - pose proof (bt_swap_spec r y) as HS. destruct (bt_swap t y r) as [m r']. destruct HS as [P Hm].
    exists (mkAn (x :: m :: r') inv (computeLBD t (x :: y :: r)) (level t (lvar m))). split; auto. cbn [an_learnt an_involved an_level an_lbd tl].
    assert (P' : Permutation (x :: y :: r) (x :: m :: r')) by (apply perm_skip; auto).
    assert (Hin : forall z, In z (m :: r') -> In z (y :: r)) by (intros z; apply Permutation_in, Permutation_sym; auto).
    split.
    { exists x, (m :: r'). split; auto. split; [split|].
      - eapply Permutation_NoDup; [apply Permutation_map; exact P'|]. apply W.
      - intros z Hz. apply W. eapply Permutation_in; [apply Permutation_sym; exact P'|auto].
      - split; [|split; auto]. intros z Hz. apply F. eapply Permutation_in; [apply Permutation_sym; exact P'|auto]. }
    split; auto. split; [apply Lr, Hin; simpl; auto|]. split; [intros z Hz; apply Hm, Hin; auto|]. split; [discriminate|].
    split; [intros y' r0 [= <- _]; auto|]. split.
    { apply computeLBD_perm; auto. }
    intros H HU H0 Hall. apply A4; auto. intros l Hl. apply Hall. eapply Permutation_in; [exact P'|auto].
Qed.
End Analyze.
