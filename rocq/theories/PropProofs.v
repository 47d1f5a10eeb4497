(** Invariants and specification lemmas for unit propagation (used by PropProps and the solver). *)
Require Import List Arith Bool NArith Lia Permutation.
Require Import Verif.Base Verif.CNFModel Verif.CNFProofs Verif.HeapProofs Verif.Outcome Verif.TrailModel
  Verif.TrailProofs Verif.DbModel Verif.PropModel.
Import ListNotations.

(** ** Clause objects *)
Definition alits (a : list cobj) (c : cid) : list lit := lits (nth c a cnull).
Definition awt (a : list cobj) (c : cid) : N := wt (nth c a cnull).

(** same objects, literals permuted *)
Definition aperm (a a' : list cobj) : Prop :=
  length a' = length a /\ forall c, Permutation (alits a c) (alits a' c) /\ awt a' c = awt a c.

Lemma aperm_refl a : aperm a a.
Proof. split; auto. Qed.
Lemma aperm_trans a b c : aperm a b -> aperm b c -> aperm a c.
Proof.
  intros [H1 H2] [H3 H4]. split; [congruence|]. intros i. destruct (H2 i), (H4 i).
  split; [eapply Permutation_trans; eauto|congruence].
Qed.
Lemma aperm_in a a' c l : aperm a a' -> In l (alits a c) <-> In l (alits a' c).
Proof.
  intros [_ H]. destruct (H c) as [P _]. split; apply Permutation_in; auto. apply Permutation_sym; auto.
Qed.
Lemma aperm_len a a' c : aperm a a' -> length (alits a c) = length (alits a' c).
Proof. intros [_ H]. destruct (H c) as [P _]. apply Permutation_length; auto. Qed.

Lemma alits_set_same c ls a : c < length a -> alits (set_lits c ls a) c = ls.
Proof. intros H. unfold alits, set_lits. rewrite nth_set_nth_same by auto. reflexivity. Qed.
Lemma alits_set_other c ls a c' : c' <> c -> alits (set_lits c ls a) c' = alits a c'.
Proof. intros H. unfold alits, set_lits. rewrite nth_set_nth_other by auto. reflexivity. Qed.
Lemma alits_overflow a c : length a <= c -> alits a c = [].
Proof. intros H. unfold alits. rewrite nth_overflow by auto. reflexivity. Qed.
Lemma alits_lt a c x : In x (alits a c) -> c < length a.
Proof. intros H. destruct (Nat.lt_ge_cases c (length a)); auto. rewrite alits_overflow in H by auto. destruct H. Qed.

Lemma aperm_set c ls a : Permutation (alits a c) ls -> aperm a (set_lits c ls a).
Proof.
  intros P. split; [apply set_nth_length|]. intros i.
  destruct (Nat.eq_dec i c) as [->|Hn].
  - destruct (Nat.lt_ge_cases c (length a)) as [H|H].
    + rewrite alits_set_same by auto. split; auto. unfold awt, set_lits. rewrite nth_set_nth_same by auto. auto.
    + unfold alits, awt, set_lits. rewrite !nth_overflow by (rewrite ?set_nth_length; auto). auto.
  - rewrite alits_set_other by auto. split; auto. unfold awt, set_lits. rewrite nth_set_nth_other by auto. auto.
Qed.

(** well-formed clause objects: distinct variables, all known *)
Definition WFA (n : nat) (a : list cobj) : Prop :=
  forall c, NoDup (map lvar (alits a c)) /\ forall l, In l (alits a c) -> lvar l < n.
Lemma WFA_perm n a a' : aperm a a' -> WFA n a -> WFA n a'.
Proof.
  intros HP H c. destruct HP as [_ HP]. destruct (HP c) as [P _]. destruct (H c) as [H1 H2]. split.
  - eapply Permutation_NoDup; [apply Permutation_map; eauto|]. auto.
  - intros l Hl. apply H2. eapply Permutation_in; [apply Permutation_sym; eauto|auto].
Qed.

Lemma nodup_var_neq ls l m : NoDup (map lvar ls) -> In l ls -> In m ls -> lvar l = lvar m -> l = m.
Proof.
  intros H Hl Hm E. apply In_nth_error in Hl. apply In_nth_error in Hm.
  destruct Hl as (i & Hi). destruct Hm as (j & Hj).
  assert (i = j).
  { eapply NoDup_nth_error in H; [apply H| |].
    - rewrite map_length. eapply nth_error_lt; eauto.
    - rewrite !nth_error_map, Hi, Hj. simpl. congruence. }
  subst. congruence.
Qed.

(** ** Extension of a trail *)
Record text (t t' : trail_t) : Prop := {
  tx_tr : exists new, tr t' = tr t ++ new /\ forall l, In l new -> reason t' (lvar l) <> None;
  tx_lim : lim t' = lim t;
  tx_nvt : nvt t' = nvt t;
  tx_qh : qh t' = qh t;
  tx_dec : dec t' = dec t;
  tx_assum : assum t' = assum t;
  tx_vd : forall l, In l (tr t) -> level t' (lvar l) = level t (lvar l) /\ reason t' (lvar l) = reason t (lvar l) }.

Lemma text_refl t : text t t.
Proof. constructor; auto. exists []. rewrite app_nil_r. split; [reflexivity|]. intros l []. Qed.
Lemma text_trans t1 t2 t3 : text t1 t2 -> text t2 t3 -> text t1 t3.
Proof.
  intros [(n1 & E1 & R1) ? ? ? ? ? V1] [(n2 & E2 & R2) ? ? ? ? ? V2]. constructor; try congruence.
  - exists (n1 ++ n2). rewrite E2, E1, app_assoc. split; auto. intros l Hl. apply in_app_or in Hl.
    destruct Hl as [Hl|Hl]; auto. destruct (V2 l) as [_ ->]; auto. rewrite E1. apply in_or_app; auto.
  - intros l Hl. destruct (V1 l Hl). destruct (V2 l); [rewrite E1; apply in_or_app; auto|]. split; congruence.
Qed.
Lemma text_in t t' l : text t t' -> In l (tr t) -> In l (tr t').
Proof. intros [(n & E & _)] H. rewrite E. apply in_or_app; auto. Qed.
Lemma text_true t t' l : TI t -> TI t' -> text t t' -> value t l = Some true -> value t' l = Some true.
Proof. intros H H' HE Hv. apply (ti_val t' H'). eapply text_in; eauto. apply (ti_val t H); auto. Qed.
Lemma text_false t t' l : TI t -> TI t' -> text t t' -> value t l = Some false -> value t' l = Some false.
Proof. intros H H' HE Hv. apply (ti_val_false t' l H'). eapply text_in; eauto. apply (ti_val_false t l H); auto. Qed.
Lemma text_dlevel t t' : text t t' -> dlevel t' = dlevel t.
Proof. intros H. unfold dlevel. rewrite (tx_lim t t' H). auto. Qed.

Lemma text_push t l c : TI t -> value t l = None -> lvar l < nvt t -> text t (tpush l (Some c) t).
Proof.
  intros H Hv Hl. assert (Hlv : lvar l < length (vd t)) by (rewrite (ti_vd t H); auto). constructor; auto.
  - exists [l]. split; [reflexivity|]. intros m [<-|[]]. rewrite reason_push, Nat.eqb_refl by auto. discriminate.
  - intros m Hm. rewrite level_push, reason_push by auto.
    destruct (Nat.eqb_spec (lvar m) (lvar l)) as [E|E]; auto.
    exfalso. apply (value_none_notin t l H Hv). rewrite <- E. apply in_map; auto.
Qed.

Lemma level_le_dlevel t l : TI t -> In l (tr t) -> level t (lvar l) <= dlevel t.
Proof.
  intros H Hl. apply In_nth_error in Hl. destruct Hl as (i & Hi). rewrite (ti_lev t H i l Hi).
  unfold lev_at, dlevel. induction (lim t) as [|x r IH]; simpl; auto. destruct (x <=? i); simpl; lia.
Qed.

(** ** Reasons *)
Definition TRe (a : list cobj) (t : trail_t) : Prop :=
  forall i l c, nth_error (tr t) i = Some l -> reason t (lvar l) = Some c ->
    In l (alits a c) /\
    forall m, In m (alits a c) -> m <> l -> exists j, j < i /\ nth_error (tr t) j = Some (lneg m).

Lemma TRe_perm a a' t : aperm a a' -> TRe a t -> TRe a' t.
Proof.
  intros HP H i l c Hi Hr. destruct (H i l c Hi Hr) as [H1 H2]. split.
  - apply (aperm_in a a'); auto.
  - intros m Hm. apply H2. apply (aperm_in a a'); auto.
Qed.

Lemma TRe_push a t l c : TI t -> value t l = None -> lvar l < nvt t -> TRe a t ->
  In l (alits a c) -> (forall m, In m (alits a c) -> m <> l -> value t m = Some false) ->
  TRe a (tpush l (Some c) t).
Proof.
  intros H Hv Hl HR Hin Hf i m c' Hi Hr.
  assert (Hlv : lvar l < length (vd t)) by (rewrite (ti_vd t H); auto).
  rewrite reason_push in Hr by auto. cbn [tpush tr] in *. apply nth_error_snoc in Hi. destruct Hi as [Hi|[-> ->]].
  - destruct (Nat.eqb_spec (lvar m) (lvar l)) as [E|E].
    + exfalso. apply (value_none_notin t l H Hv). rewrite <- E. apply in_map. eapply nth_error_In; eauto.
    + destruct (HR i m c' Hi Hr) as [H1 H2]. split; auto. intros x Hx Hn. destruct (H2 x Hx Hn) as (j & Hj & Ej).
      exists j. split; auto. apply nth_error_snoc. auto.
  - rewrite Nat.eqb_refl in Hr. inversion Hr; subst c'. split; auto. intros x Hx Hn.
    specialize (Hf x Hx Hn). apply (ti_val_false t x H) in Hf. apply In_nth_error in Hf. destruct Hf as (j & Ej).
    exists j. split; [eapply nth_error_lt; eauto|]. apply nth_error_snoc. auto.
Qed.

(** ** Watch lists *)
Definition wl (w : watches) (p : lit) : list (cid * lit) := nth p w [].

Definition W1 (a : list cobj) (w : watches) : Prop :=
  forall p c b, In (c, b) (wl w p) -> In b (alits a c) /\
    exists x y z r, alits a c = x :: y :: z :: r /\ (x = lneg p \/ y = lneg p).
Definition W2 (w : watches) : Prop := forall p, NoDup (map fst (wl w p)).

(** every entry of the list of [q] has a literal that became true no later than the level of q *)
Definition Sat4 (a : list cobj) (w : watches) (t : trail_t) (q : lit) : Prop :=
  forall c b, In (c, b) (wl w q) ->
    exists m, In m (alits a c) /\ value t m = Some true /\ level t (lvar m) <= level t (lvar q).

(** the clause is watched through its first two literals *)
Definition watched2 (a : list cobj) (w : watches) (c : cid) : Prop :=
  exists x y z r, alits a c = x :: y :: z :: r /\
    In c (map fst (wl w (lneg x))) /\ In c (map fst (wl w (lneg y))).

Lemma wl_set_same w p l : p < length w -> wl (set_nth p l w) p = l.
Proof. intros H. apply nth_set_nth_same; auto. Qed.
Lemma wl_set_other w p l q : q <> p -> wl (set_nth p l w) q = wl w q.
Proof. intros H. apply nth_set_nth_other; auto. Qed.
Lemma wl_push_same w p x : p < length w -> wl (push_at p x w) p = wl w p ++ [x].
Proof. intros H. unfold push_at, wl. rewrite nth_set_nth_same by auto. auto. Qed.
Lemma wl_push_other w p x q : q <> p -> wl (push_at p x w) q = wl w q.
Proof. intros H. unfold push_at, wl. rewrite nth_set_nth_other by auto. auto. Qed.
Lemma push_at_length {A} p (x : A) w : length (push_at p x w) = length w.
Proof. apply set_nth_length. Qed.

Lemma find_watch_some t ls k : find_watch t ls = Some k ->
  k < length ls /\ value t (nth k ls 0) <> Some false.
Proof.
  revert k. induction ls as [|l r IH]; simpl; intros k H; [discriminate|].
  destruct (is_false (value t l)) eqn:E.
  - destruct (find_watch t r) as [j|]; [|discriminate]. inversion H; subst. destruct (IH j eq_refl). split; [lia|auto].
  - inversion H; subst. split; [lia|]. intros Hx. apply is_false_iff in Hx. congruence.
Qed.
Lemma find_watch_none t ls : find_watch t ls = None -> forall l, In l ls -> value t l = Some false.
Proof.
  induction ls as [|x r IH]; simpl; intros H l; [tauto|].
  destruct (is_false (value t x)) eqn:E; [|discriminate].
  destruct (find_watch t r); [discriminate|]. apply is_false_iff in E. intros [<-|Hl]; auto.
Qed.

Lemma swap_perm (k : nat) (s d : lit) rest : k < length rest ->
  Permutation (s :: rest) (nth k rest d :: set_nth k s rest).
Proof.
  revert k. induction rest as [|x r IH]; intros k Hk; simpl in Hk; [lia|].
  destruct k as [|k]; unfold set_nth; simpl.
  - apply perm_swap.
  - assert (Hk' : k < length r) by lia. specialize (IH k Hk'). unfold set_nth in IH.
    eapply Permutation_trans; [apply perm_swap|].
    eapply Permutation_trans; [apply perm_skip; exact IH|]. apply perm_swap.
Qed.

(** ** Binary clauses *)
Definition BWl (a : list cobj) (p : lit) (ws : list (cid * lit)) : Prop :=
  forall c o, In (c, o) ws -> forall m, In m (alits a c) <-> m = lneg p \/ m = o.
Definition BW (a : list cobj) (b : watches) : Prop := forall p, BWl a p (wl b p).

Lemma BW_perm a a' b : aperm a a' -> BW a b -> BW a' b.
Proof. intros HP H p c o Hc m. rewrite <- (aperm_in a a') by auto. apply (H p c o Hc). Qed.

Lemma prop_binary_spec a p ws : forall t,
  TI t -> TRe a t -> WFA (nvt t) a -> In p (tr t) -> BWl a p ws ->
  exists k t', prop_binary ws t = Ok (k, t') /\ TI t' /\ TRe a t' /\ text t t' /\
    (forall c, k = Some c -> (forall m, In m (alits a c) -> value t' m = Some false) /\ In (lneg p) (alits a c)) /\
    (k = None -> forall c o, In (c, o) ws -> value t' o = Some true).
Proof.
  induction ws as [|[c o] r IH]; intros t HT HR HW Hp HB; cbn [prop_binary].
  - exists None, t. split; [reflexivity|]. repeat (split; auto using text_refl); try discriminate. intros _ c o [].
  - assert (Hc : forall m, In m (alits a c) <-> m = lneg p \/ m = o) by (apply HB; simpl; auto).
    assert (HB' : BWl a p r) by (intros c' o' Hin; apply HB; simpl; auto).
    assert (Hnp : value t (lneg p) = Some false) by (apply value_neg_false; apply (ti_val t HT); auto).
    destruct (value t o) as [[|]|] eqn:Ev.
    + destruct (IH t HT HR HW Hp HB') as (k & t' & E & A1 & A2 & A3 & A4 & A5).
      exists k, t'. split; [exact E|]. split; [exact A1|]. split; [exact A2|]. split; [exact A3|]. split; [exact A4|].
      intros Hk c' o' [Heq|Hin]; [inversion Heq; subst c' o'; apply (text_true t t'); auto|eauto].
    + exists (Some c), t. split; [reflexivity|]. split; [exact HT|]. split; [exact HR|]. split; [apply text_refl|].
      split; [|discriminate]. intros c' Hc'. inversion Hc'; subst c'. split.
      * intros m Hm. apply Hc in Hm. destruct Hm as [->| ->]; auto.
      * apply Hc; auto.
    + assert (Ho : lvar o < nvt t) by (apply (HW c); apply Hc; auto).
      rewrite tpropagate_push; [|eapply TI_room; eauto|congruence]. cbn [bind].
      assert (HT1 : TI (tpush o (Some c) t)) by (apply TI_push; auto).
      assert (HX : text t (tpush o (Some c) t)) by (apply text_push; auto).
      assert (HR1 : TRe a (tpush o (Some c) t)).
      { apply TRe_push; auto; [apply Hc; auto|]. intros m Hm Hn. apply Hc in Hm. destruct Hm as [->| ->]; auto. congruence. }
      destruct (IH (tpush o (Some c) t) HT1 HR1 HW (text_in _ _ _ HX Hp) HB') as (k & t' & E & A1 & A2 & A3 & A4 & A5).
      exists k, t'. split; [exact E|]. split; [exact A1|]. split; [exact A2|]. split; [eapply text_trans; eauto|]. split; [exact A4|].
      intros Hk c' o' [Heq|Hin]; [|eauto]. inversion Heq; subst c' o'. apply (text_true _ t' o HT1 A1 A3).
      apply value_push_self. rewrite (ti_asg t HT); auto.
Qed.

(** ** Long clauses *)
Definition virt (p : lit) (kept ws : list (cid * lit)) (w : watches) : watches := set_nth p (kept ++ ws) w.

Lemma W1_perm_sub a a' w w' : 
  (forall p c b, In (c, b) (wl w' p) -> In (c, b) (wl w p) /\ alits a' c = alits a c) -> W1 a w -> W1 a' w'.
Proof. intros H HW p c b Hin. destruct (H p c b Hin) as [Hin' E]. rewrite E. apply HW; auto. Qed.

Definition watched_spec (p : lit) (ws kept : list (cid * lit)) (a : list cobj) (w : watches) (t : trail_t) : Prop :=
  exists k ws' a' w' t', prop_watched p ws kept a w t = Ok (k, ws', a', w', t') /\
    let V := virt p kept ws w in let V' := set_nth p ws' w' in
    TI t' /\ TRe a' t' /\ text t t' /\ aperm a a' /\ length w' = length w /\ W1 a' V' /\ W2 V' /\
    (forall c, watched2 a V c -> watched2 a' V' c) /\
    (forall q, q <> p -> In q (tr t) -> Sat4 a V t q -> Sat4 a' V' t' q) /\
    (forall c, k = Some c -> (forall m, In m (alits a' c) -> value t' m = Some false) /\ In (lneg p) (alits a' c)) /\
    (k = None -> (forall c b, In (c, b) kept -> exists m, In m (alits a c) /\ value t m = Some true) ->
       forall c b, In (c, b) ws' -> exists m, In m (alits a' c) /\ value t' m = Some true) /\
    (forall c q, In c (map fst (wl V' q)) -> exists q', In c (map fst (wl V q'))).

Lemma Sat4_mono a w t t' q : TI t -> TI t' -> text t t' -> In q (tr t) -> Sat4 a w t q -> Sat4 a w t' q.
Proof.
  intros H H' HX Hq HS c b Hin. destruct (HS c b Hin) as (m & Hm & Hv & Hl). exists m. split; auto.
  split; [apply (text_true t t' m); auto|]. pose proof (proj1 (ti_val t H m) Hv) as Hm1.
  rewrite (proj1 (tx_vd t t' HX m Hm1)), (proj1 (tx_vd t t' HX q Hq)). auto.
Qed.

Lemma Sat4_perm a a' w t q : aperm a a' -> Sat4 a w t q -> Sat4 a' w t q.
Proof.
  intros HP HS c b Hin. destruct (HS c b Hin) as (m & Hm & Hv & Hl). exists m. split; auto. apply (aperm_in a a'); auto.
Qed.

(** changing the blocker of one entry of the traversed list *)
Lemma virt_move_map p kept c b f r w : p < length w -> forall q,
  map fst (wl (virt p (kept ++ [(c, f)]) r w) q) = map fst (wl (virt p kept ((c, b) :: r) w) q).
Proof.
  intros H q. unfold virt. destruct (Nat.eq_dec q p) as [->|Hn].
  - rewrite !wl_set_same by auto. rewrite !map_app. simpl. rewrite <- app_assoc. reflexivity.
  - rewrite !wl_set_other by auto. auto.
Qed.
Lemma virt_other p kept ws w q : q <> p -> wl (virt p kept ws w) q = wl w q.
Proof. intros H. apply wl_set_other; auto. Qed.
Lemma virt_same p kept ws w : p < length w -> wl (virt p kept ws w) p = kept ++ ws.
Proof. intros H. apply wl_set_same; auto. Qed.

Lemma watched2_swap a w w' c : (forall q, map fst (wl w' q) = map fst (wl w q)) -> watched2 a w c -> watched2 a w' c.
Proof. intros H (x & y & z & r & E & H1 & H2). exists x, y, z, r. rewrite !H. auto. Qed.

(** putting the false literal second: the clause keeps its two watched literals *)
Lemma swap_first2 a c x y z r p f s : c < length a -> alits a c = x :: y :: z :: r ->
  (x = lneg p \/ y = lneg p) -> (f, s) = (if x =? lneg p then (y, x) else (x, y)) ->
  s = lneg p /\ (f = x \/ f = y) /\ Permutation (alits a c) (f :: s :: z :: r) /\
  alits (set_lits c (f :: s :: z :: r) a) c = f :: s :: z :: r.
Proof.
  intros Hc E HH Hfs. rewrite alits_set_same by auto. rewrite E. destruct (Nat.eqb_spec x (lneg p)) as [Hx|Hx]; inversion Hfs; subst.
  - repeat split; auto. apply perm_swap.
  - destruct HH as [HH|HH]; [congruence|]. subst. repeat split; auto.
Qed.

Section Step.
Variables (p : lit) (c : cid) (b : lit) (r kept : list (cid * lit)) (a : list cobj) (w : watches) (t : trail_t).
Variables (x y z : lit) (rs : list lit) (f s : lit).
Hypothesis Hp : p < length w.
Hypothesis Hc : c < length a.
Hypothesis HE : alits a c = x :: y :: z :: rs.
Hypothesis Hw1 : W1 a (virt p kept ((c, b) :: r) w).
Hypothesis Hw2 : W2 (virt p kept ((c, b) :: r) w).
Hypothesis Hxy : x = lneg p \/ y = lneg p.
Hypothesis Hfs : (f, s) = (if x =? lneg p then (y, x) else (x, y)).
Hypothesis Hnd : NoDup (map lvar (alits a c)).
Let V0 := virt p kept ((c, b) :: r) w.
Let a1 := set_lits c (f :: s :: z :: rs) a.

Lemma st_s : s = lneg p.
Proof. exact (proj1 (swap_first2 a c x y z rs p f s Hc HE Hxy Hfs)). Qed.
Lemma st_f : f = x \/ f = y.
Proof. exact (proj1 (proj2 (swap_first2 a c x y z rs p f s Hc HE Hxy Hfs))). Qed.
Lemma st_perm : Permutation (alits a c) (f :: s :: z :: rs).
Proof. exact (proj1 (proj2 (proj2 (swap_first2 a c x y z rs p f s Hc HE Hxy Hfs)))). Qed.
Lemma st_a1 : alits a1 c = f :: s :: z :: rs.
Proof. apply alits_set_same; auto. Qed.
Lemma st_aperm : aperm a a1.
Proof. apply aperm_set. apply st_perm. Qed.
Lemma st_xy q : x = lneg q \/ y = lneg q -> f = lneg q \/ s = lneg q.
Proof. destruct (x =? lneg p); inversion Hfs; tauto. Qed.
Lemma st_fs : f <> s.
Proof.
  intros E. pose proof (Permutation_NoDup (Permutation_map lvar st_perm) Hnd) as H. simpl in H.
  inversion H as [|? ? Hn _]. apply Hn. rewrite E. simpl; auto.
Qed.

Lemma keep_W1 f' : In f' (alits a c) -> W1 a1 (virt p (kept ++ [(c, f')]) r w).
Proof.
  intros Hf' q c' b' Hin.
  assert (HH : In b' (alits a c') /\ exists x y z r0, alits a c' = x :: y :: z :: r0 /\ (x = lneg q \/ y = lneg q)).
  { destruct (Nat.eq_dec q p) as [->|Hq].
    - rewrite virt_same in Hin by auto. rewrite <- app_assoc in Hin. apply in_app_or in Hin. simpl in Hin.
      assert (Ho : In (c', b') (kept ++ (c, b) :: r) -> In b' (alits a c') /\ exists x y z r0, alits a c' = x :: y :: z :: r0 /\ (x = lneg p \/ y = lneg p)).
      { intros Ho. apply (Hw1 p c' b'). rewrite virt_same; auto. }
      destruct Hin as [Hin|[Hin|Hin]].
      + apply Ho. apply in_or_app; auto.
      + inversion Hin; subst c' b'. split; auto. exists x, y, z, rs. auto.
      + apply Ho. apply in_or_app; simpl; auto.
    - rewrite virt_other in Hin by auto. apply (Hw1 q c' b'). rewrite virt_other; auto. }
  destruct HH as [H1 (x' & y' & z' & r' & E' & H2)]. split; [apply (aperm_in a a1); auto; apply st_aperm|].
  destruct (Nat.eq_dec c' c) as [->|Hn].
  - rewrite st_a1. exists f, s, z, rs. split; auto. apply st_xy. rewrite HE in E'. inversion E'; subst; auto.
  - unfold a1. rewrite alits_set_other by auto. eauto 10.
Qed.
Lemma keep_W2 f' : W2 (virt p (kept ++ [(c, f')]) r w).
Proof. intros q. rewrite (virt_move_map p kept c b f' r w Hp q). apply Hw2. Qed.
Lemma swap_watched2 c' w' : watched2 a w' c' -> watched2 a1 w' c'.
Proof.
  intros (x' & y' & z' & r' & E & H1 & H2). destruct (Nat.eq_dec c' c) as [->|Hn].
  - rewrite HE in E. inversion E; subst x' y' z' r'. exists f, s, z, rs. split; [apply st_a1|].
    destruct (x =? lneg p); inversion Hfs; auto.
  - exists x', y', z', r'. unfold a1. rewrite alits_set_other by auto. auto.
Qed.
Lemma keep_watched2 f' c' : watched2 a V0 c' -> watched2 a1 (virt p (kept ++ [(c, f')]) r w) c'.
Proof.
  intros H. apply swap_watched2. revert H. apply watched2_swap. apply virt_move_map; auto.
Qed.
Lemma keep_Sat4 f' q : q <> p -> Sat4 a V0 t q -> Sat4 a1 (virt p (kept ++ [(c, f')]) r w) t q.
Proof.
  intros Hq HS. apply Sat4_perm with (a := a); [apply st_aperm|]. intros c' b' Hin. apply (HS c' b').
  unfold V0. rewrite virt_other in * by auto. auto.
Qed.

Section Move.
Variable k : nat.
Hypothesis Hk : k < length (z :: rs).
Let l := nth k (z :: rs) 0.
Hypothesis Hlp : lneg l <> p.
Hypothesis Hlw : lneg l < length w.
Hypothesis Hlf : value t l <> Some false.
Hypothesis HT : TI t.
Let a2 := set_lits c (f :: l :: set_nth k s (z :: rs)) a1.
Let w2 := push_at (lneg l) (c, f) w.
Let V2 := virt p kept r w2.

Lemma mv_len : length a1 = length a.
Proof. unfold a1, set_lits. apply set_nth_length. Qed.
Lemma mv_a2 : alits a2 c = f :: l :: set_nth k s (z :: rs).
Proof. apply alits_set_same. rewrite mv_len; auto. Qed.
Lemma mv_perm1 : Permutation (f :: s :: z :: rs) (f :: l :: set_nth k s (z :: rs)).
Proof. apply perm_skip. apply swap_perm; auto. Qed.
Lemma mv_aperm : aperm a a2.
Proof. apply aperm_trans with a1; [apply st_aperm|]. apply aperm_set. rewrite st_a1. apply mv_perm1. Qed.
Lemma mv_other c' : c' <> c -> alits a2 c' = alits a c'.
Proof. intros H. unfold a2, a1. rewrite !alits_set_other by auto. auto. Qed.
Lemma mv_lin : In l (z :: rs).
Proof. apply nth_In; auto. Qed.
Lemma mv_lx : l <> x /\ l <> y.
Proof.
  pose proof Hnd as H. rewrite HE in H. simpl in H. pose proof mv_lin as Hl.
  assert (Hv : In (lvar l) (lvar z :: map lvar rs)) by (change (In (lvar l) (map lvar (z :: rs))); apply in_map; auto).
  inversion H as [|? ? H1 H2]; subst. inversion H2 as [|? ? H3 H4]; subst.
  split; intros E; [apply H1; right|apply H3]; rewrite <- E; auto.
Qed.
Lemma mv_cold b' : ~ In (c, b') (wl V0 (lneg l)).
Proof.
  intros Hin. destruct (Hw1 (lneg l) c b' Hin) as [_ (x' & y' & z' & r' & E & H)]. rewrite HE in E.
  inversion E; subst x' y' z' r'. rewrite lneg_invol in H. destruct mv_lx. destruct H; congruence.
Qed.
Lemma mv_notkr b' : ~ In (c, b') (kept ++ r).
Proof.
  intros Hin. pose proof (Hw2 p) as H. rewrite virt_same in H by auto. rewrite map_app in H. simpl in H.
  apply NoDup_remove_2 in H. apply H. rewrite <- map_app. change c with (fst (c, b')). apply in_map; auto.
Qed.
Lemma mv_wl q : wl V2 q = if q =? p then kept ++ r else if q =? lneg l then wl w q ++ [(c, f)] else wl w q.
Proof.
  unfold V2. destruct (Nat.eqb_spec q p) as [->|Hq].
  - apply virt_same. unfold w2. rewrite push_at_length. auto.
  - rewrite virt_other by auto. destruct (Nat.eqb_spec q (lneg l)) as [->|Hn].
    + apply wl_push_same; auto.
    + apply wl_push_other; auto.
Qed.
Lemma mv_V0 q : wl V0 q = if q =? p then kept ++ (c, b) :: r else wl w q.
Proof.
  unfold V0. destruct (Nat.eqb_spec q p) as [->|Hq]; [apply virt_same; auto|apply virt_other; auto].
Qed.

Lemma mv_W1 : W1 a2 V2.
Proof.
  intros q c' b' Hin. destruct (Nat.eq_dec c' c) as [->|Hn].
  - rewrite mv_wl in Hin. destruct (Nat.eqb_spec q p) as [->|Hq]; [destruct (mv_notkr b' Hin)|].
    assert (Hz : exists z' r', set_nth k s (z :: rs) = z' :: r').
    { destruct (set_nth k s (z :: rs)) eqn:E; eauto. apply (f_equal (@length _)) in E. rewrite set_nth_length in E. discriminate. }
    destruct Hz as (z' & r' & Ez).
    destruct (Nat.eqb_spec q (lneg l)) as [->|Hql].
    + apply in_app_or in Hin. destruct Hin as [Hin|[Hin|[]]].
      * exfalso. apply (mv_cold b'). rewrite mv_V0. destruct (Nat.eqb_spec (lneg l) p); [contradiction|auto].
      * inversion Hin; subst b'. rewrite mv_a2. split; [simpl; auto|]. exists f, l, z', r'. rewrite Ez. rewrite lneg_invol. auto.
    + destruct (Hw1 q c b') as [H1 (x' & y' & z0 & r0 & E & H2)].
      { fold V0. rewrite mv_V0. destruct (Nat.eqb_spec q p); [contradiction|auto]. }
      split; [apply (aperm_in a a2); auto; apply mv_aperm|].
      rewrite mv_a2, Ez. exists f, l, z', r'. split; auto. left.
      rewrite HE in E. inversion E; subst x' y' z0 r0. apply st_xy in H2. destruct H2 as [H2|H2]; auto.
      rewrite st_s in H2. apply lneg_inj in H2. congruence.
  - destruct (Hw1 q c' b') as [H1 H2].
    + fold V0. rewrite mv_V0. rewrite mv_wl in Hin. destruct (Nat.eqb_spec q p).
      * apply in_app_or in Hin. apply in_or_app. simpl. tauto.
      * destruct (q =? lneg l); auto. apply in_app_or in Hin. destruct Hin as [Hin|[Hin|[]]]; auto. inversion Hin; congruence.
    + rewrite (mv_other c') by auto. auto.
Qed.
Lemma mv_W2 : W2 V2.
Proof.
  intros q. pose proof (Hw2 q) as H. fold V0 in H. rewrite mv_wl. rewrite mv_V0 in H.
  destruct (Nat.eqb_spec q p) as [Eq|Hq].
  - rewrite map_app in *. simpl in H. apply NoDup_remove_1 in H. auto.
  - destruct (Nat.eqb_spec q (lneg l)) as [Eq|Hn]; auto. rewrite map_app. simpl. rewrite Eq in *.
    apply (Permutation_NoDup (l := c :: map fst (wl w (lneg l)))); [apply Permutation_cons_append|].
    constructor; auto. intros Hin. apply in_map_iff in Hin. destruct Hin as ([c0 b0] & E0 & Hin). simpl in E0. subst c0.
    apply (mv_cold b0). rewrite mv_V0. destruct (Nat.eqb_spec (lneg l) p); [contradiction|auto].
Qed.
Lemma mv_grow c' q : c' <> c \/ q <> p -> In c' (map fst (wl V0 q)) -> In c' (map fst (wl V2 q)).
Proof.
  intros Hor Hin. rewrite mv_wl. rewrite mv_V0 in Hin. destruct (Nat.eqb_spec q p).
  - destruct Hor as [Hor|Hor]; [|contradiction]. rewrite map_app in *. simpl in Hin. apply in_app_or in Hin. apply in_or_app.
    destruct Hin as [|[|]]; auto. congruence.
  - destruct (q =? lneg l); auto. rewrite map_app. apply in_or_app; auto.
Qed.
Lemma mv_watched2 c' : watched2 a V0 c' -> watched2 a2 V2 c'.
Proof.
  intros (x' & y' & z' & r' & E & H1 & H2). destruct (Nat.eq_dec c' c) as [->|Hn].
  - rewrite HE in E. inversion E; subst x' y' z' r'.
    assert (Hz : exists z' r', set_nth k s (z :: rs) = z' :: r').
    { destruct (set_nth k s (z :: rs)) eqn:E2; eauto. apply (f_equal (@length _)) in E2. rewrite set_nth_length in E2. discriminate. }
    destruct Hz as (z' & r' & Ez). exists f, l, z', r'. split; [rewrite mv_a2, Ez; auto|]. split.
    + apply mv_grow.
      * right. intros Ep. apply st_fs. rewrite st_s, <- Ep. symmetry. apply lneg_invol.
      * destruct st_f as [Hf|Hf]; rewrite Hf; auto.
    + rewrite mv_wl. destruct (Nat.eqb_spec (lneg l) p); [contradiction|]. rewrite Nat.eqb_refl, map_app.
      apply in_or_app. right. simpl; auto.
  - exists x', y', z', r'. rewrite mv_other by auto. split; auto. split; apply mv_grow; auto.
Qed.
Lemma mv_Sat4 q : q <> p -> In q (tr t) -> Sat4 a V0 t q -> Sat4 a2 V2 t q.
Proof.
  intros Hq Hin HS. apply Sat4_perm with (a := a); [apply mv_aperm|]. intros c' b' Hcb. apply (HS c' b').
  rewrite mv_V0. rewrite mv_wl in Hcb. destruct (Nat.eqb_spec q p); [contradiction|].
  destruct (Nat.eqb_spec q (lneg l)) as [Eq|]; auto. exfalso. apply Hlf. apply (ti_val_false t l HT). rewrite <- Eq. auto.
Qed.
End Move.
End Step.

Lemma prop_watched_spec p : forall ws kept a w t,
  TI t -> TRe a t -> WFA (nvt t) a -> In p (tr t) -> p < length w ->
  (forall l, lvar l < nvt t -> l < length w) ->
  W1 a (virt p kept ws w) -> W2 (virt p kept ws w) ->
  watched_spec p ws kept a w t.
Proof.
  induction ws as [|[c b] r IH]; intros kept a w t HT HR HA Hp Hpw Hw H1 H2; unfold watched_spec; cbn [prop_watched].
  - exists None, kept, a, w, t. split; [reflexivity|]. unfold virt in *. rewrite app_nil_r in *.
    split; [exact HT|]. split; [exact HR|]. split; [apply text_refl|]. split; [apply aperm_refl|]. split; [reflexivity|].
    split; [exact H1|]. split; [exact H2|]. split; [auto|]. split; [auto|]. split; [discriminate|]. split; [auto|]. eauto.
  - assert (Hin : In (c, b) (wl (virt p kept ((c, b) :: r) w) p)).
    { rewrite virt_same by auto. apply in_or_app. simpl; auto. }
    destruct (H1 p c b Hin) as [Hb (x & y & z & rs & HE & Hxy)].
    assert (Hc : c < length a) by (eapply alits_lt; eauto).
    assert (Hnd : NoDup (map lvar (alits a c))) by apply HA.
    assert (Hnp : value t (lneg p) = Some false) by (apply value_neg_false; apply (ti_val t HT); auto).
    destruct (is_true (value t b)) eqn:Eb.
    + (* blocker true *)
      apply is_true_iff in Eb.
      assert (EV : virt p (kept ++ [(c, b)]) r w = virt p kept ((c, b) :: r) w).
      { unfold virt. rewrite <- app_assoc. reflexivity. }
      destruct (IH (kept ++ [(c, b)]) a w t HT HR HA Hp Hpw Hw) as (k & ws' & a' & w' & t' & E & A1 & A2 & A3 & A4 & A5 & A6 & A7 & A8 & A9 & A10 & A11 & A12).
      { rewrite EV; auto. } { rewrite EV; auto. }
      rewrite EV in *. exists k, ws', a', w', t'. split; [exact E|].
      split; [exact A1|]. split; [exact A2|]. split; [exact A3|]. split; [exact A4|]. split; [exact A5|].
      split; [exact A6|]. split; [exact A7|]. split; [exact A8|]. split; [exact A9|]. split; [exact A10|]. split; [|exact A12].
      intros Hk HK. apply A11; auto. intros c' b' Hcb. apply in_app_or in Hcb. destruct Hcb as [Hcb|[Hcb|[]]]; [eauto|].
      inversion Hcb; subst c' b'. eauto.
    + change (lits (nth c a cnull)) with (alits a c). rewrite HE.
      destruct (if x =? lneg p then (y, x) else (x, y)) as [f s] eqn:Hfs. symmetry in Hfs.
      pose proof (st_s p c a x y z rs f s Hc HE Hxy Hfs) as Hs.
      pose proof (st_f p c a x y z rs f s Hc HE Hxy Hfs) as Hf.
      pose proof (st_perm p c a x y z rs f s Hc HE Hxy Hfs) as HP.
      pose proof (st_aperm p c a x y z rs f s Hc HE Hxy Hfs) as HAP.
      pose proof (st_a1 c a z rs f s Hc) as Ha1.
      pose proof (st_fs p c a x y z rs f s Hc HE Hxy Hfs Hnd) as Hne.
      set (a1 := set_lits c (f :: s :: z :: rs) a) in *.
      assert (Hfin : In f (alits a c)) by (rewrite HE; destruct Hf as [->| ->]; simpl; auto).
      assert (HA1 : WFA (nvt t) a1) by (eapply WFA_perm; eauto).
      assert (HR1 : TRe a1 t) by (eapply TRe_perm; eauto).
      assert (KW1 : W1 a1 (virt p (kept ++ [(c, f)]) r w)) by (apply (keep_W1 p c b r kept a w x y z rs f s); auto).
      assert (KW2 : W2 (virt p (kept ++ [(c, f)]) r w)) by (apply (keep_W2 p c b r kept w); auto).
      assert (KWA : forall c', watched2 a (virt p kept ((c, b) :: r) w) c' -> watched2 a1 (virt p (kept ++ [(c, f)]) r w) c').
      { intros c'. apply (keep_watched2 p c b r kept a w x y z rs f s); auto. }
      assert (KS : forall q, q <> p -> Sat4 a (virt p kept ((c, b) :: r) w) t q -> Sat4 a1 (virt p (kept ++ [(c, f)]) r w) t q).
      { intros q. apply (keep_Sat4 p c b r kept a w t x y z rs f s); auto. }
      assert (KM : forall c' q, In c' (map fst (wl (virt p (kept ++ [(c, f)]) r w) q)) ->
                     exists q', In c' (map fst (wl (virt p kept ((c, b) :: r) w) q'))).
      { intros c' q. rewrite (virt_move_map p kept c b f r w Hpw q). eauto. }
      destruct (is_true (value t f)) eqn:Ef.
      * (* first literal true *)
        apply is_true_iff in Ef.
        destruct (IH (kept ++ [(c, f)]) a1 w t HT HR1 HA1 Hp Hpw Hw KW1 KW2) as (k & ws' & a' & w' & t' & E & A1 & A2 & A3 & A4 & A5 & A6 & A7 & A8 & A9 & A10 & A11 & A12).
        exists k, ws', a', w', t'. split; [exact E|].
        split; [exact A1|]. split; [exact A2|]. split; [exact A3|]. split; [eapply aperm_trans; eauto|]. split; [exact A5|].
        split; [exact A6|]. split; [exact A7|]. split; [auto|]. split; [auto|]. split; [exact A10|]. split.
        -- intros Hk HK. apply A11; auto. intros c' b' Hcb. apply in_app_or in Hcb. destruct Hcb as [Hcb|[Hcb|[]]].
           ++ destruct (HK c' b' Hcb) as (m & Hm & Hv). exists m. split; auto. apply (aperm_in a a1); auto.
           ++ inversion Hcb; subst c' b'. exists f. split; auto. apply (aperm_in a a1); auto.
        -- intros c' q Hq. destruct (A12 c' q Hq) as (q' & Hq'). apply (KM c' q'); auto.
      * destruct (find_watch t (z :: rs)) as [k0|] eqn:EF.
        -- (* new watch *)
           destruct (find_watch_some _ _ _ EF) as [Hk0 Hlv]. set (l := nth k0 (z :: rs) 0) in *.
           assert (Hlin : In l (alits a c)).
           { rewrite HE. right; right. apply nth_In; auto. }
           assert (Hlp : lneg l <> p).
           { intros El. apply Hlv. rewrite <- El in Hnp. rewrite lneg_invol in Hnp. auto. }
           apply Nat.eqb_neq in Hlp. rewrite Hlp. apply Nat.eqb_neq in Hlp.
           assert (Hlw : lneg l < length w) by (apply Hw; rewrite lvar_neg; apply (HA c); auto).
           set (a2 := set_lits c (f :: l :: set_nth k0 s (z :: rs)) a1).
           set (w2 := push_at (lneg l) (c, f) w).
           assert (MA : aperm a a2) by (apply (mv_aperm p c a x y z rs f s Hc HE Hxy Hfs k0 Hk0)).
           assert (M1 : W1 a2 (virt p kept r w2)) by (apply (mv_W1 p c b r kept a w x y z rs f s); auto).
           assert (M2 : W2 (virt p kept r w2)) by (apply (mv_W2 p c b r kept a w x y z rs f); auto).
           assert (M3 : forall c', watched2 a (virt p kept ((c, b) :: r) w) c' -> watched2 a2 (virt p kept r w2) c').
           { intros c'. apply (mv_watched2 p c b r kept a w x y z rs f s); auto. }
           assert (M4 : forall q, q <> p -> In q (tr t) -> Sat4 a (virt p kept ((c, b) :: r) w) t q -> Sat4 a2 (virt p kept r w2) t q).
           { intros q. apply (mv_Sat4 p c b r kept a w t x y z rs f s); auto. }
           assert (Hw2l : length w2 = length w) by apply push_at_length.
           destruct (IH kept a2 w2 t HT (TRe_perm _ _ _ MA HR) (WFA_perm _ _ _ MA HA) Hp) as (k & ws' & a' & w' & t' & E & A1 & A2 & A3 & A4 & A5 & A6 & A7 & A8 & A9 & A10 & A11 & A12); auto.
           { rewrite Hw2l; auto. } { rewrite Hw2l; auto. }
           exists k, ws', a', w', t'. split; [exact E|].
           split; [exact A1|]. split; [exact A2|]. split; [exact A3|]. split; [eapply aperm_trans; eauto|]. split; [congruence|].
           split; [exact A6|]. split; [exact A7|]. split; [auto|]. split; [auto|]. split; [exact A10|]. split.
           ++ intros Hk HK. apply A11; auto. intros c' b' Hcb. destruct (HK c' b' Hcb) as (m & Hm & Hv). exists m. split; auto. apply (aperm_in a a2); auto.
           ++ intros c' q Hq. destruct (A12 c' q Hq) as (q' & Hq'). 
              unfold w2, l in Hq'. rewrite (mv_wl p c r kept w z rs f Hpw k0) in Hq' by auto.
              destruct (Nat.eqb_spec q' p) as [Eq|Nq].
              ** exists p. rewrite virt_same by auto. rewrite map_app in *. simpl. apply in_app_or in Hq'. apply in_or_app. simpl. tauto.
              ** destruct (Nat.eqb_spec q' (lneg (nth k0 (z :: rs) 0))) as [Eq|Nq2].
                 --- rewrite map_app in Hq'. apply in_app_or in Hq'. destruct Hq' as [Hq'|[Hq'|[]]].
                     +++ exists q'. rewrite virt_other by auto. auto.
                     +++ simpl in Hq'. subst c'. exists p. rewrite virt_same by auto. rewrite map_app. apply in_or_app. simpl; auto.
                 --- exists q'. rewrite virt_other by auto. auto.
        -- pose proof (find_watch_none _ _ EF) as Hall.
           destruct (is_false (value t f)) eqn:Eff.
           ++ (* conflict *)
              apply is_false_iff in Eff. exists (Some c), (kept ++ (c, f) :: r), a1, w, t. split; [reflexivity|].
              assert (EV : set_nth p (kept ++ (c, f) :: r) w = virt p (kept ++ [(c, f)]) r w).
              { unfold virt. rewrite <- app_assoc. reflexivity. }
              cbn zeta. rewrite EV.
              split; [exact HT|]. split; [exact HR1|]. split; [apply text_refl|]. split; [exact HAP|]. split; [reflexivity|].
              split; [exact KW1|]. split; [exact KW2|]. split; [exact KWA|]. split; [auto|]. split; [|split; [discriminate|exact KM]].
              intros c' Hc'. inversion Hc'; subst c'. rewrite Ha1. split; [|rewrite Hs; simpl; auto].
              intros m [<-|[<-|Hm]]; auto. congruence.
           ++ (* unit *)
              assert (Hfn : value t f = None) by (destruct (value t f) as [[|]|]; try discriminate; auto).
              assert (Hfv : lvar f < nvt t) by (apply (HA c); auto).
              rewrite tpropagate_push; [|eapply TI_room; eauto|congruence]. cbn [bind].
              set (t1 := tpush f (Some c) t).
              assert (HT1 : TI t1) by (apply TI_push; auto).
              assert (HX : text t t1) by (apply text_push; auto).
              assert (HR2 : TRe a1 t1).
              { apply TRe_push; auto; rewrite Ha1; [simpl; auto|]. intros m [<-|[<-|Hm]] Hn; auto; [congruence|]. rewrite Hs; auto. }
              destruct (IH (kept ++ [(c, f)]) a1 w t1 HT1 HR2 HA1 (text_in _ _ _ HX Hp) Hpw Hw KW1 KW2) as (k & ws' & a' & w' & t' & E & A1 & A2 & A3 & A4 & A5 & A6 & A7 & A8 & A9 & A10 & A11 & A12).
              exists k, ws', a', w', t'. split; [exact E|].
              split; [exact A1|]. split; [exact A2|]. split; [eapply text_trans; eauto|]. split; [eapply aperm_trans; eauto|]. split; [exact A5|].
              split; [exact A6|]. split; [exact A7|]. split; [auto|].
              split; [intros q Hq Hqi HS; apply A9; auto; [eapply text_in; eauto|]; apply (Sat4_mono _ _ t t1); auto|].
              split; [exact A10|]. split.
              ** intros Hk HK. apply A11; auto. intros c' b' Hcb. apply in_app_or in Hcb. destruct Hcb as [Hcb|[Hcb|[]]].
                 --- destruct (HK c' b' Hcb) as (m & Hm & Hv). exists m. split; [apply (aperm_in a a1); auto|].
                     apply (text_true t t1); auto.
                 --- inversion Hcb; subst c' b'. exists f. split; [apply (aperm_in a a1); auto|].
                     apply value_push_self. rewrite (ti_asg t HT); auto.
              ** intros c' q Hq. destruct (A12 c' q Hq) as (q' & Hq'). apply (KM c' q'); auto.
Qed.

(** ** The propagation loop *)
Definition SatB (b : watches) (t : trail_t) (q : lit) : Prop :=
  forall c o, In (c, o) (wl b q) -> value t o = Some true /\ level t (lvar o) <= level t (lvar q).

(** the first [n] literals of the trail have been propagated *)
Definition Done (d : db) (w : watches) (t : trail_t) (n : nat) : Prop :=
  forall i q, i < n -> nth_error (tr t) i = Some q -> Sat4 (arena d) w t q /\ SatB (bw d) t q.

Record PInv (d : db) (w : watches) (t : trail_t) : Prop := {
  pi_TI : TI t;
  pi_TRe : TRe (arena d) t;
  pi_WFA : WFA (nvt t) (arena d);
  pi_W1 : W1 (arena d) w;
  pi_W2 : W2 w;
  pi_BW : BW (arena d) (bw d);
  pi_len : forall l, lvar l < nvt t -> l < length w }.

(** all levels were opened after complete propagation *)
Definition LimQ (t : trail_t) : Prop := forall k, In k (lim t) -> k <= qh t.

(** clauses that propagation can meet *)
Definition listed (d : db) (w : watches) (c : cid) : Prop :=
  exists q, In c (map fst (wl w q)) \/ In c (map fst (wl (bw d) q)).

Lemma tpropagate_reason l c t b t' : tpropagate l c t = Ok (b, t') ->
  forall m c', In m (tr t') -> reason t' (lvar m) = Some c' -> (In m (tr t) /\ reason t (lvar m) = Some c') \/ c' = c.
Proof.
  unfold tpropagate. destruct (is_false (value t l)); [intros [= <- <-]; auto|].
  unfold set_value. destruct (length (tr t) <? nvt t); [|discriminate]. cbn [bind]. intros [= <- <-] m c'.
  unfold reason, set_vd. cbn [vd tr]. unfold dlevel. cbn [lim]. intros Hm.
  destruct (Nat.eq_dec (lvar m) (lvar l)) as [->|Hn].
  - destruct (Nat.lt_ge_cases (lvar l) (length (vd t))) as [Hl|Hl].
    + rewrite nth_set_nth_same by auto. simpl. intros [= <-]. auto.
    + rewrite nth_overflow by (rewrite set_nth_length; auto). discriminate.
  - rewrite nth_set_nth_other by auto. apply in_app_or in Hm. destruct Hm as [Hm|[<-|[]]]; [auto|contradiction].
Qed.

Lemma prop_binary_ids ws : forall t k t', prop_binary ws t = Ok (k, t') ->
  (forall c, k = Some c -> In c (map fst ws)) /\
  (forall l c, In l (tr t') -> reason t' (lvar l) = Some c -> (In l (tr t) /\ reason t (lvar l) = Some c) \/ In c (map fst ws)).
Proof.
  induction ws as [|[c o] r IH]; intros t k t' H; cbn [prop_binary] in H.
  - inversion H; subst. split; [discriminate|auto].
  - destruct (value t o) as [[|]|].
    + destruct (IH _ _ _ H) as [A B]. split; intros; simpl; [auto|]. destruct (B l c0); auto.
    + inversion H; subst. split; [intros ? [= <-]; simpl; auto|auto].
    + apply bind_ok in H. destruct H as ([b t1] & H1 & H2). destruct (IH _ _ _ H2) as [A B].
      split; intros; simpl; [auto|]. destruct (B l c0) as [[H3 H4]|H3]; auto.
      destruct (tpropagate_reason _ _ _ _ _ H1 l c0 H3 H4); subst; auto.
Qed.

Lemma prop_watched_ids p ws : forall kept a w t k ws' a' w' t',
  prop_watched p ws kept a w t = Ok (k, ws', a', w', t') ->
  (forall c, k = Some c -> In c (map fst ws)) /\
  (forall l c, In l (tr t') -> reason t' (lvar l) = Some c -> (In l (tr t) /\ reason t (lvar l) = Some c) \/ In c (map fst ws)).
Proof.
  induction ws as [|[c b] r IH]; intros kept a w t k ws' a' w' t' H; cbn [prop_watched] in H.
  - inversion H; subst. split; [discriminate|auto].
  - assert (IH' : forall kept a w, prop_watched p r kept a w t = Ok (k, ws', a', w', t') ->
      (forall c0, k = Some c0 -> In c0 (map fst ((c, b) :: r))) /\
      (forall l c0, In l (tr t') -> reason t' (lvar l) = Some c0 -> (In l (tr t) /\ reason t (lvar l) = Some c0) \/ In c0 (map fst ((c, b) :: r)))).
    { intros k1 a1 w1 H1. destruct (IH _ _ _ _ _ _ _ _ _ H1) as [A B]. split; intros; simpl; [auto|]. destruct (B l c0); auto. }
    destruct (is_true (value t b)); [eapply IH'; eauto|].
    destruct (lits (nth c a cnull)) as [|x [|y rest]]; try discriminate.
    destruct (if x =? lneg p then (y, x) else (x, y)) as [f s].
    destruct (is_true (value t f)); [eapply IH'; eauto|].
    destruct (find_watch t rest) as [j|].
    + destruct (lneg (nth j rest 0) =? p); [discriminate|eapply IH'; eauto].
    + destruct (is_false (value t f)).
      * inversion H; subst. split; [intros ? [= <-]; simpl; auto|auto].
      * apply bind_ok in H. destruct H as ([b1 t1] & H1 & H2). destruct (IH _ _ _ _ _ _ _ _ _ H2) as [A B].
        split; intros; simpl; [auto|]. destruct (B l c0) as [[H3 H4]|H3]; auto.
        destruct (tpropagate_reason _ _ _ _ _ H1 l c0 H3 H4); subst; auto.
Qed.

Lemma set_nth_self {A} (l : list A) n d : set_nth n (nth n l d) l = l.
Proof.
  unfold set_nth. revert n. induction l as [|x l IH]; intros [|n]; simpl; auto. f_equal. apply IH.
Qed.

Lemma text_qh q t t' : text t t' -> text (with_qh q t) (with_qh q t').
Proof. intros [A B C D E F G]. constructor; auto. Qed.

Lemma SatB_mono b t t' q : TI t -> TI t' -> text t t' -> In q (tr t) -> SatB b t q -> SatB b t' q.
Proof.
  intros H H' HX Hq HS c o Hin. destruct (HS c o Hin) as [Hv Hl].
  split; [apply (text_true t t'); auto|]. pose proof (proj1 (ti_val t H o) Hv) as Hm.
  rewrite (proj1 (tx_vd t t' HX o Hm)), (proj1 (tx_vd t t' HX q Hq)). auto.
Qed.

Lemma text_nth t t' i (q : lit) : text t t' -> i < length (tr t) -> nth_error (tr t') i = nth_error (tr t) i.
Proof. intros [(n & E & _)] Hi. rewrite E. apply nth_error_app1; auto. Qed.
Lemma text_len t t' : text t t' -> length (tr t) <= length (tr t').
Proof. intros [(n & E & _)]. rewrite E, app_length. lia. Qed.

Definition prop_result (d : db) (w : watches) (t : trail_t) (k : option cid) (d' : db) (w' : watches) (t' : trail_t) : Prop :=
  PInv d' w' t' /\ text (with_qh (qh t') t) t' /\ qh t <= qh t' /\
  aperm (arena d) (arena d') /\ d' = with_arena d (arena d') /\ length w' = length w /\
  (forall c, watched2 (arena d) w c -> watched2 (arena d') w' c) /\
  (forall c q, In c (map fst (wl w' q)) -> exists q', In c (map fst (wl w q'))) /\
  (forall l c, In l (tr t') -> reason t' (lvar l) = Some c -> (In l (tr t) /\ reason t (lvar l) = Some c) \/ listed d w c) /\
  (forall c, k = Some c ->
     (forall m, In m (alits (arena d') c) -> value t' m = Some false) /\ listed d w c /\
     (LimQ t -> (exists m, In m (alits (arena d') c) /\ level t' (lvar m) = dlevel t') /\
       0 < qh t' /\ (forall x, In x (lim t') -> x <= pred (qh t')) /\
       (Done d w t (qh t) -> Done d' w' t' (pred (qh t'))))) /\
  (k = None -> qh t' = length (tr t') /\ (LimQ t -> Done d w t (qh t) -> Done d' w' t' (length (tr t')))).

Lemma LimQ_mono t t' : LimQ t -> lim t' = lim t -> qh t <= qh t' -> LimQ t'.
Proof. intros H E Hq k Hk. rewrite E in Hk. specialize (H k Hk). lia. Qed.

Lemma Done_ext d w t d' w' t' n : TI t -> TI t' -> text t t' -> n <= length (tr t) -> bw d' = bw d ->
  (forall i q, i < n -> nth_error (tr t) i = Some q -> Sat4 (arena d) w t q -> Sat4 (arena d') w' t' q) ->
  Done d w t n -> Done d' w' t' n.
Proof.
  intros H H' HX Hn Hb HS HD i q Hi Hq. rewrite (text_nth t t' i q HX) in Hq by lia.
  destruct (HD i q Hi Hq) as [D1 D2]. split; [eapply HS; eauto|]. rewrite Hb.
  apply (SatB_mono _ t t'); auto. eapply nth_error_In; eauto.
Qed.

Lemma prop_loop_spec fuel : forall d w t, PInv d w t -> nvt t - qh t < fuel ->
  exists k d' w' t', prop_loop fuel d w t = Ok (k, d', w', t') /\ prop_result d w t k d' w' t'.
Proof.
  induction fuel as [|fuel IH]; intros d w t HI Hf; [lia|]. cbn [prop_loop].
  pose proof (pi_TI _ _ _ HI) as HT. pose proof (TI_length t HT) as Hlen.
  destruct (Nat.ltb_spec (qh t) (length (tr t))) as [Hq|Hq].
  2:{ exists None, d, w, t. split; [reflexivity|]. pose proof (ti_qh t HT).
      split; [exact HI|]. split; [destruct t; apply text_refl|]. split; [lia|]. split; [apply aperm_refl|]. split; [destruct d; reflexivity|].
      split; [reflexivity|]. split; [auto|]. split; [eauto|]. split; [auto|]. split; [discriminate|]. intros _.
      assert (E : qh t = length (tr t)) by lia. split; [exact E|]. rewrite <- E. auto. }
  set (p := nth (qh t) (tr t) 0).
  assert (Hpn : nth_error (tr t) (qh t) = Some p) by (apply nth_error_nth'; auto).
  assert (Hp : In p (tr t)) by (eapply nth_error_In; eauto).
  set (t0 := with_qh (S (qh t)) t).
  assert (HT0 : TI t0) by (apply TI_with_qh; auto).
  assert (HR0 : TRe (arena d) t0) by exact (pi_TRe _ _ _ HI).
  assert (HA0 : WFA (nvt t0) (arena d)) by exact (pi_WFA _ _ _ HI).
  assert (Hp0 : In p (tr t0)) by exact Hp.
  assert (HB : BWl (arena d) p (wl (bw d) p)) by exact (pi_BW _ _ _ HI p).
  destruct (prop_binary_spec (arena d) p (wl (bw d) p) t0 HT0 HR0 HA0 Hp0 HB) as (k & t1 & E1 & T1 & R1 & X1 & C1 & N1).
  unfold wl in E1. rewrite E1. cbn [bind].
  assert (Hqh1 : qh t1 = S (qh t)) by exact (tx_qh _ _ X1).
  assert (Hpl : LimQ t -> forall t', TI t' -> text t0 t' -> level t' (lvar p) = dlevel t').
  { intros HLQ t' HT' HX'. rewrite (text_dlevel _ _ HX'). rewrite (proj1 (tx_vd _ _ HX' p Hp0)).
    change (level t (lvar p) = dlevel t). rewrite (ti_lev t HT (qh t) p Hpn). unfold dlevel. apply lev_at_all.
    apply HLQ. }
  destruct (prop_binary_ids _ _ _ _ E1) as [I1 I2].
  destruct k as [c|].
  { exists (Some c), d, w, t1. split; [reflexivity|]. destruct (C1 c eq_refl) as [Ca Cb].
    assert (HI1 : PInv d w t1).
    { constructor; auto; try exact (pi_W1 _ _ _ HI); try exact (pi_W2 _ _ _ HI); try exact (pi_BW _ _ _ HI).
      - rewrite (tx_nvt _ _ X1). exact (pi_WFA _ _ _ HI).
      - rewrite (tx_nvt _ _ X1). exact (pi_len _ _ _ HI). }
    split; [exact HI1|]. split; [rewrite Hqh1; exact X1|]. split; [lia|]. split; [apply aperm_refl|]. split; [destruct d; reflexivity|].
    split; [reflexivity|]. split; [auto|]. split; [eauto|].
    split; [intros l0 c' Hl0 Hr; destruct (I2 l0 c' Hl0 Hr); [left; auto|right; exists p; right; auto]|]. split; [|discriminate].
    intros c' Hc'. inversion Hc'; subst c'. split; [exact Ca|]. split; [exists p; right; apply (I1 c eq_refl)|]. intros HLQ. split.
    { exists (lneg p). split; auto. rewrite lvar_neg. auto. }
    split; [lia|]. rewrite Hqh1. simpl. split.
    { rewrite (tx_lim _ _ X1). exact HLQ. }
    apply (Done_ext d w t0 d w t1); auto; [change (tr t0) with (tr t); lia|].
    intros i q Hi Hnq HS. apply (Sat4_mono _ _ t0 t1); auto. eapply nth_error_In; eauto. }
  assert (HR2 : TRe (arena d) t1) by exact R1.
  assert (HA2 : WFA (nvt t1) (arena d)) by (rewrite (tx_nvt _ _ X1); exact (pi_WFA _ _ _ HI)).
  assert (Hp1 : In p (tr t1)) by (eapply text_in; eauto).
  assert (Hpw : p < length w) by (apply (pi_len _ _ _ HI); apply (ti_range t HT); auto).
  assert (Hw1 : forall l, lvar l < nvt t1 -> l < length w) by (rewrite (tx_nvt _ _ X1); exact (pi_len _ _ _ HI)).
  assert (EV : virt p [] (wl w p) w = w) by (unfold virt; simpl; apply set_nth_self).
  destruct (prop_watched_spec p (wl w p) [] (arena d) w t1 T1 HR2 HA2 Hp1 Hpw Hw1) as
    (k & ws' & a' & w' & t' & E & A1 & A2 & A3 & A4 & A5 & A6 & A7 & A8 & A9 & A10 & A11 & A12).
  { rewrite EV. exact (pi_W1 _ _ _ HI). } { rewrite EV. exact (pi_W2 _ _ _ HI). }
  rewrite EV in *. unfold wl in E. rewrite E. cbn [bind].
  destruct (prop_watched_ids _ _ _ _ _ _ _ _ _ _ _ E) as [J1 J2].
  assert (HR' : forall l c, In l (tr t') -> reason t' (lvar l) = Some c -> (In l (tr t) /\ reason t (lvar l) = Some c) \/ listed d w c).
  { intros l c' Hl Hr. destruct (J2 l c' Hl Hr) as [[Hl1 Hr1]|Hr1]; [|right; exists p; left; auto].
    destruct (I2 l c' Hl1 Hr1); [left; auto|right; exists p; right; auto]. }
  set (d2 := with_arena d a'). set (w2 := set_nth p ws' w') in *.
  assert (X2 : text t0 t') by (eapply text_trans; eauto).
  assert (Hqh2 : qh t' = S (qh t)) by (rewrite (tx_qh _ _ X2); reflexivity).
  assert (Hlw2 : length w2 = length w) by (unfold w2; rewrite set_nth_length; auto).
  assert (HI2 : PInv d2 w2 t').
  { constructor; auto.
    - rewrite (tx_nvt _ _ X2). eapply WFA_perm; [exact A4|]. exact (pi_WFA _ _ _ HI).
    - eapply BW_perm; [exact A4|]. exact (pi_BW _ _ _ HI).
    - rewrite (tx_nvt _ _ X2), Hlw2. exact (pi_len _ _ _ HI). }
  assert (HL2 : LimQ t -> LimQ t').
  { intros HLQ. apply (LimQ_mono t); [exact HLQ|exact (tx_lim _ _ X2)|lia]. }
  assert (HD0 : Done d w t (qh t) -> Done d2 w2 t' (qh t)).
  { apply (Done_ext d w t0 d2 w2 t'); auto; [change (tr t0) with (tr t); lia|].
    intros i q Hi Hnq HS. assert (Hqi : In q (tr t0)) by (eapply nth_error_In; eauto). apply A9.
    - intros ->. change (tr t0) with (tr t) in Hnq. pose proof (tr_nth_inj t _ _ _ _ HT Hnq Hpn eq_refl). lia.
    - eapply text_in; eauto.
    - apply (Sat4_mono _ _ t0 t1); auto. }
  destruct k as [c|].
  { exists (Some c), d2, w2, t'. split; [reflexivity|]. destruct (A10 c eq_refl) as [Ca Cb].
    split; [exact HI2|]. split; [rewrite Hqh2; exact X2|]. split; [lia|]. split; [exact A4|]. split; [reflexivity|].
    split; [exact Hlw2|]. split; [exact A8|]. split; [exact A12|]. split; [exact HR'|]. split; [|discriminate].
    intros c' Hc'. inversion Hc'; subst c'. split; [exact Ca|]. split; [exists p; left; apply (J1 c eq_refl)|].
    intros HLQ. split.
    { exists (lneg p). split; auto. rewrite lvar_neg. auto. }
    split; [lia|]. rewrite Hqh2. simpl. split; [|exact HD0].
    rewrite (tx_lim _ _ X2). exact HLQ. }
  assert (HD1 : LimQ t -> Done d w t (qh t) -> Done d2 w2 t' (qh t')).
  { intros HLQ HD i q Hi Hnq. rewrite Hqh2 in Hi. destruct (Nat.eq_dec i (qh t)) as [->|Hn]; [|apply (HD0 HD i q); [lia|auto]].
    assert (Eq : q = p).
    { rewrite (text_nth t0 t' (qh t) q X2 Hq) in Hnq. change (tr t0) with (tr t) in Hnq. congruence. }
    subst q. split.
    - intros c b Hcb. unfold w2 in Hcb. rewrite wl_set_same in Hcb by congruence.
      destruct (A11 eq_refl) with (c := c) (b := b) as (m & Hm & Hv); auto; [intros ? ? []|].
      exists m. split; auto. split; auto. rewrite (Hpl HLQ t' A1 X2). apply level_le_dlevel; auto. apply (ti_val t' A1); auto.
    - intros c o Hco. assert (Hv : value t' o = Some true) by (apply (text_true t1 t'); auto; eapply N1; eauto).
      split; auto. rewrite (Hpl HLQ t' A1 X2). apply level_le_dlevel; auto. apply (ti_val t' A1); auto. }
  destruct (IH d2 w2 t' HI2) as (k & d3 & w3 & t3 & E3 & B1 & B2 & B2' & B3 & B4 & B5 & B6 & B7 & BR & B8 & B9).
  { rewrite Hqh2, (tx_nvt _ _ X2). change (nvt t0) with (nvt t). lia. }
  exists k, d3, w3, t3. split; [exact E3|]. split; [exact B1|].
  split; [eapply text_trans; [|exact B2]; apply (text_qh (qh t3)) in X2; exact X2|]. split; [lia|].
  split; [eapply aperm_trans; [exact A4|exact B3]|]. split; [rewrite B4; reflexivity|]. split; [congruence|].
  split; [auto|]. split.
  { intros c q Hc. destruct (B7 c q Hc) as (q' & Hq'). apply (A12 c q' Hq'). }
  assert (HLi : forall c, listed d2 w2 c -> listed d w c).
  { intros c (q & [Hc|Hc]); [destruct (A12 c q Hc) as (q' & Hc'); exists q'; auto|exists q; auto]. }
  split; [intros l0 c Hl0 Hr; destruct (BR l0 c Hl0 Hr) as [[Hl1 Hr1]|Hr1]; [apply HR'; auto|right; auto]|].
  split.
  - intros c Hk. destruct (B8 c Hk) as (C2 & C3 & C4). split; [exact C2|]. split; [auto|]. intros HLQ.
    destruct (C4 (HL2 HLQ)) as (C5 & C6 & C7 & C8). split; [exact C5|]. split; [exact C6|]. split; [exact C7|].
    intros HD. apply C8. apply HD1; auto.
  - intros Hk. destruct (B9 Hk) as (C2 & C3). split; [exact C2|]. intros HLQ HD. apply C3; auto.
Qed.

Theorem propagate_spec d w t : PInv d w t ->
  exists k d' w' t', propagate d w t = Ok (k, d', w', t') /\ prop_result d w t k d' w' t'.
Proof. intros H. apply prop_loop_spec; auto. lia. Qed.
