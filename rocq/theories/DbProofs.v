(** Invariants of the clause database (used by PropLemmas and the solver proofs). *)
Require Import List Arith Bool NArith Lia Permutation.
Require Import Verif.Base Verif.CNFModel Verif.CNFProofs Verif.HeapProofs Verif.Outcome Verif.TrailModel
  Verif.TrailProofs Verif.TrailLemmas Verif.DbModel Verif.PropModel Verif.PropProofs.
Import ListNotations.

Definition wfc (n : nat) (ls : list lit) : Prop := NoDup (map lvar ls) /\ forall l, In l ls -> lvar l < n.

Record DI (n : nat) (d : db) : Prop := {
  di_nv : nv d = n;
  di_bwl : forall l, lvar l < n -> l < length (bw d);
  di_bwl2 : length (bw d) <= 2 * n + 2;
  di_WFA : WFA n (arena d);
  di_BW : BW (arena d) (bw d);
  di_bw0 : forall p c o, In (c, o) (wl (bw d) p) ->
    In c (cls d) /\ cwt d c = 0%N /\ length (clits d c) = 2;
  di_rng : forall c, In c (mem d ++ facts d) -> c < length (arena d);
  di_mfnd : NoDup (mem d ++ facts d);
  di_cls : forall c, In c (cls d) -> In c (mem d ++ facts d);
  di_clsnd : NoDup (cls d);
  di_live : forall c, In c (mem d ++ facts d) -> isDeleted d c = false -> In c (cls d);
  di_fact : forall c, In c (mem d ++ facts d) -> (In c (facts d) <-> length (clits d c) = 1);
  di_small : forall c, In c (mem d ++ facts d) -> length (clits d c) < 3 ->
    cwt d c = 0%N \/ cwt d c = W_DELETED;
  di_cov2 : forall c x, In c (cls d) -> cwt d c = 0%N -> length (clits d c) = 2 -> In x (clits d c) ->
    exists o, In (c, o) (wl (bw d) (lneg x)) }.

Lemma clits_alits d c : clits d c = alits (arena d) c. Proof. reflexivity. Qed.
Lemma cwt_awt d c : cwt d c = awt (arena d) c. Proof. reflexivity. Qed.

Lemma lit_lt_double l n : lvar l < n -> l < 2 * n.
Proof. intros H. pose proof (Nat.div2_odd l) as E. unfold lvar in H. destruct (Nat.odd l); simpl in E; lia. Qed.

Lemma wfc_alits n a c : WFA n a -> wfc n (alits a c).
Proof. intros H. apply H. Qed.
Lemma wfc_mono n m ls : n <= m -> wfc n ls -> wfc m ls.
Proof. intros Hn [H1 H2]. split; auto. intros l Hl. specialize (H2 l Hl). lia. Qed.
Lemma WFA_mono n m a : n <= m -> WFA n a -> WFA m a.
Proof. intros Hn H c. apply (wfc_mono n); auto. apply H. Qed.

(** ** Appending a clause object *)
Lemma alits_app a x c : c < length a -> alits (a ++ x) c = alits a c.
Proof. intros H. unfold alits. rewrite app_nth1 by auto. reflexivity. Qed.
Lemma awt_app a x c : c < length a -> awt (a ++ x) c = awt a c.
Proof. intros H. unfold awt. rewrite app_nth1 by auto. reflexivity. Qed.
Lemma alits_new a o : alits (a ++ [o]) (length a) = lits o.
Proof. unfold alits. rewrite app_nth2, Nat.sub_diag by auto. reflexivity. Qed.
Lemma awt_new a o : awt (a ++ [o]) (length a) = wt o.
Proof. unfold awt. rewrite app_nth2, Nat.sub_diag by auto. reflexivity. Qed.
Lemma alits_app_in a x c l : In l (alits a c) -> alits (a ++ x) c = alits a c.
Proof. intros H. apply alits_app. eapply alits_lt; eauto. Qed.
Lemma alits_app_eq a x c : alits (a ++ x) c = alits a c \/ length a <= c.
Proof. destruct (Nat.lt_ge_cases c (length a)); auto. left. apply alits_app; auto. Qed.

Lemma WFA_app n a ls w : WFA n a -> wfc n ls -> WFA n (a ++ [mkC ls w]).
Proof.
  intros H Hl c. destruct (Nat.lt_trichotomy c (length a)) as [Hc|[->|Hc]].
  - rewrite alits_app by auto. apply H.
  - rewrite alits_new. apply Hl.
  - rewrite alits_overflow by (rewrite app_length; simpl; lia). split; [constructor|intros ? []].
Qed.

(** ** Binary watchers *)
Lemma wl_nil p : wl [] p = [].
Proof. unfold wl. destruct p; reflexivity. Qed.
Lemma wl_push_in b p x q y : In y (wl (push_at p x b) q) -> In y (wl b q) \/ (q = p /\ y = x).
Proof.
  destruct (Nat.eq_dec q p) as [->|Hn].
  - destruct (Nat.lt_ge_cases p (length b)) as [H|H].
    + rewrite wl_push_same by auto. intros Hi. apply in_app_or in Hi. destruct Hi as [|[|[]]]; auto.
    + unfold wl. rewrite !nth_overflow; auto. unfold push_at. rewrite set_nth_length. auto.
  - rewrite wl_push_other by auto. auto.
Qed.
Lemma wl_push_old b p x q y : In y (wl b q) -> In y (wl (push_at p x b) q).
Proof.
  intros H. destruct (Nat.eq_dec q p) as [->|Hn].
  - assert (Hp : p < length b).
    { destruct (Nat.lt_ge_cases p (length b)); auto. unfold wl in H. rewrite nth_overflow in H by auto. destruct H. }
    rewrite wl_push_same by auto. apply in_or_app; auto.
  - rewrite wl_push_other by auto. auto.
Qed.
Lemma wl_push_new b p x : p < length b -> In x (wl (push_at p x b) p).
Proof. intros H. rewrite wl_push_same by auto. apply in_or_app. simpl; auto. Qed.

Lemma watch_binary_len c ls b : length (watch_binary c ls b) = length b.
Proof.
  unfold watch_binary. destruct ls as [|x [|y [|]]]; auto. rewrite !push_at_length. auto.
Qed.
Lemma watch_binary_in c ls b p c' o : In (c', o) (wl (watch_binary c ls b) p) ->
  In (c', o) (wl b p) \/
  (c' = c /\ length ls = 2 /\ exists x y, ls = [x; y] /\ ((p = lneg x /\ o = y) \/ (p = lneg y /\ o = x))).
Proof.
  unfold watch_binary. destruct ls as [|x [|y [|]]]; auto. intros H.
  apply wl_push_in in H. destruct H as [H|[-> E]].
  - apply wl_push_in in H. destruct H as [H|[-> E]]; auto. inversion E; subst. right. eauto 10.
  - inversion E; subst. right. eauto 10.
Qed.
Lemma watch_binary_old c ls b p y : In y (wl b p) -> In y (wl (watch_binary c ls b) p).
Proof. unfold watch_binary. destruct ls as [|x [|z [|]]]; auto. intros H. auto using wl_push_old. Qed.
Lemma watch_binary_new c ls b m : length ls = 2 -> In m ls -> (forall l, In l ls -> lneg l < length b) ->
  exists o, In (c, o) (wl (watch_binary c ls b) (lneg m)).
Proof.
  unfold watch_binary. destruct ls as [|x [|y [|]]]; try discriminate. intros _ Hm Hb.
  assert (Hx : lneg x < length b) by (apply Hb; simpl; auto).
  assert (Hy : lneg y < length b) by (apply Hb; simpl; auto).
  destruct Hm as [<-|[<-|[]]].
  - exists y. apply wl_push_old, wl_push_new; auto.
  - exists x. apply wl_push_new. rewrite push_at_length. auto.
Qed.

Lemma fold_watch_len d cs : forall b, length (fold_left (fun b c => watch_binary c (clits d c) b) cs b) = length b.
Proof. induction cs as [|c r IH]; intros b; simpl; auto. rewrite IH, watch_binary_len. auto. Qed.
Lemma fold_watch_in d cs : forall b p c' o,
  In (c', o) (wl (fold_left (fun b c => watch_binary c (clits d c) b) cs b) p) ->
  In (c', o) (wl b p) \/ (In c' cs /\ exists x y, clits d c' = [x; y] /\ ((p = lneg x /\ o = y) \/ (p = lneg y /\ o = x))).
Proof.
  induction cs as [|c r IH]; intros b p c' o H; simpl in *; auto.
  destruct (IH _ _ _ _ H) as [H1|[H1 H2]]; [|auto].
  destruct (watch_binary_in _ _ _ _ _ _ H1) as [H2|(-> & _ & H2)]; auto.
Qed.
Lemma fold_watch_old d cs : forall b p y, In y (wl b p) ->
  In y (wl (fold_left (fun b c => watch_binary c (clits d c) b) cs b) p).
Proof. induction cs as [|c r IH]; intros b p y H; simpl; auto. apply IH. apply watch_binary_old; auto. Qed.
Lemma fold_watch_new d cs : forall b c m, In c cs -> length (clits d c) = 2 -> In m (clits d c) ->
  (forall l, In l (clits d c) -> lneg l < length b) ->
  exists o, In (c, o) (wl (fold_left (fun b c => watch_binary c (clits d c) b) cs b) (lneg m)).
Proof.
  induction cs as [|c0 r IH]; intros b c m Hin Hl Hm Hb; simpl in *; [tauto|].
  destruct Hin as [->|Hin].
  - destruct (watch_binary_new c (clits d c) b m Hl Hm Hb) as (o & Ho). exists o. apply fold_watch_old; auto.
  - apply IH; auto. rewrite watch_binary_len. auto.
Qed.

Lemma BW_entry a c x y p o : alits a c = [x; y] -> ((p = lneg x /\ o = y) \/ (p = lneg y /\ o = x)) ->
  forall m, In m (alits a c) <-> m = lneg p \/ m = o.
Proof.
  intros E H m. rewrite E. simpl. destruct H as [[-> ->]|[-> ->]]; rewrite lneg_invol; intuition.
Qed.

(** ** Creating a clause *)
Definition created (d : db) (ls : list lit) (c : cid) (d' : db) : Prop :=
  c = length (arena d) /\ nv d' = nv d /\ cls d' = cls d ++ [c] /\
  (exists w, arena d' = arena d ++ [mkC ls w]) /\ empt d' = (if length ls =? 0 then true else empt d).

Lemma createClause_created ls lbd lem d c d' : createClause ls lbd lem d = Ok (c, d') -> created d ls c d'.
Proof.
  unfold createClause. destruct (65536 <=? N.of_nat (length ls))%N; [discriminate|]. intros H. inversion H; subst.
  unfold created. cbn. eauto 10.
Qed.

Lemma createClause_DI n ls lbd lem d c d' : DI n d -> wfc n ls -> createClause ls lbd lem d = Ok (c, d') ->
  DI n d'.
Proof.
  intros H Hw E. unfold createClause in E. destruct (65536 <=? N.of_nat (length ls))%N; [discriminate|].
  set (w := if length ls <? 3 then 0%N else (lbd mod 65536)%N) in E.
  inversion E; subst c d'. clear E. set (c := length (arena d)).
  assert (Hnc : ~ In c (mem d ++ facts d)) by (intros Hi; apply (di_rng n d H) in Hi; unfold c in Hi; lia).
  set (m' := if length ls =? 1 then mem d else mem d ++ [c]).
  set (f' := if length ls =? 1 then facts d ++ [c] else facts d).
  assert (Hmf : forall x, In x (m' ++ f') <-> In x (mem d ++ facts d) \/ x = c).
  { intros x. unfold m', f'. destruct (length ls =? 1); rewrite !in_app_iff; simpl; intuition. }
  assert (Hcl : forall x o, In x (mem d ++ facts d) -> alits (arena d ++ [o]) x = clits d x /\ awt (arena d ++ [o]) x = cwt d x).
  { intros x o Hx. apply (di_rng n d H) in Hx. rewrite alits_app, awt_app by auto. auto. }
  assert (Hlen : forall l, In l ls -> lneg l < length (bw d)).
  { intros l Hl. apply (di_bwl n d H). rewrite lvar_neg. apply Hw; auto. }
  constructor; unfold clits, cwt, cobj_at, isDeleted; cbn [nv bw arena mem facts cls]; fold m' f'.
  - apply H.
  - intros l Hl. rewrite watch_binary_len. apply (di_bwl n d H); auto.
  - rewrite watch_binary_len. apply H.
  - apply WFA_app; auto. apply H.
  - intros p c' o Hin m. change (lits (nth c' (arena d ++ [mkC ls w]) cnull)) with (alits (arena d ++ [mkC ls w]) c').
    destruct (watch_binary_in _ _ _ _ _ _ Hin) as [Hin1|(-> & _ & x & y & El & Hp)].
    + pose proof (di_BW n d H p c' o Hin1) as HB.
      assert (Hi : In o (alits (arena d) c')) by (apply HB; auto).
      rewrite (alits_app_in _ _ _ o) by auto. apply HB.
    + apply (BW_entry _ c x y p o); auto. unfold c. rewrite alits_new. auto.
  - intros p c' o Hin. destruct (watch_binary_in _ _ _ _ _ _ Hin) as [Hin1|(-> & Hl2 & _)].
    + destruct (di_bw0 n d H p c' o Hin1) as (B1 & B2 & B3). split; [apply in_or_app; auto|].
      destruct (Hcl c' (mkC ls w)) as [E1 E2]; [apply (di_cls n d H); auto|]. unfold alits, awt in E1, E2. rewrite E1, E2. auto.
    + split; [apply in_or_app; simpl; auto|]. pose proof (alits_new (arena d) (mkC ls w)) as E1.
      pose proof (awt_new (arena d) (mkC ls w)) as E2. unfold alits, awt, c in *. rewrite E1, E2. simpl.
      split; auto. unfold w. rewrite Hl2. reflexivity.
  - intros x Hx. apply Hmf in Hx. rewrite app_length. simpl. destruct Hx as [Hx| ->]; [apply (di_rng n d H) in Hx; lia|unfold c; lia].
  - apply (Permutation_NoDup (l := c :: mem d ++ facts d)).
    + unfold m', f'. destruct (length ls =? 1).
      * rewrite app_assoc. apply Permutation_cons_append.
      * rewrite <- app_assoc. simpl. apply Permutation_middle.
    + constructor; auto. apply H.
  - intros x Hx. apply Hmf. apply in_app_or in Hx. destruct Hx as [Hx|[<-|[]]]; auto. left. apply (di_cls n d H); auto.
  - apply (Permutation_NoDup (l := c :: cls d)); [apply Permutation_cons_append|]. constructor; [|apply H].
    intros Hi. apply Hnc. apply (di_cls n d H); auto.
  - intros x Hx Hd. apply in_or_app. apply Hmf in Hx. destruct Hx as [Hx| ->]; [|simpl; auto]. left.
    apply (di_live n d H); auto. destruct (Hcl x (mkC ls w) Hx) as [_ E2]. unfold isDeleted. rewrite <- E2. exact Hd.
  - intros x Hx. apply Hmf in Hx. destruct Hx as [Hx| ->].
    + destruct (Hcl x (mkC ls w) Hx) as [E1 _]. unfold alits in E1. rewrite E1. rewrite <- (di_fact n d H x Hx).
      unfold f'. destruct (length ls =? 1); [|tauto]. rewrite in_app_iff. simpl.
      split; [|auto]. intros [|[E|[]]]; auto. subst x. contradiction.
    + pose proof (alits_new (arena d) (mkC ls w)) as E1. unfold alits, c in *. rewrite E1. simpl. unfold f'.
      destruct (Nat.eqb_spec (length ls) 1) as [E|E].
      * split; auto. intros _. apply in_or_app. simpl; auto.
      * split; [|tauto]. intros Hi. exfalso. apply Hnc. apply in_or_app; auto.
  - intros x Hx Hl. apply Hmf in Hx. destruct Hx as [Hx| ->].
    + destruct (Hcl x (mkC ls w) Hx) as [E1 E2]. unfold alits, awt in *. rewrite E1 in Hl. rewrite E2. apply (di_small n d H); auto.
    + pose proof (alits_new (arena d) (mkC ls w)) as E1. pose proof (awt_new (arena d) (mkC ls w)) as E2.
      unfold alits, awt, c in *. rewrite E1 in Hl. rewrite E2. simpl in *. left. unfold w. apply Nat.ltb_lt in Hl. rewrite Hl. reflexivity.
  - intros x m Hx Hw0 Hl Hm. apply in_app_or in Hx. destruct Hx as [Hx|[<-|[]]].
    + destruct (Hcl x (mkC ls w)) as [E1 E2]; [apply (di_cls n d H); auto|]. unfold alits, awt in *. rewrite E1 in *. rewrite E2 in *.
      destruct (di_cov2 n d H x m Hx Hw0 Hl Hm) as (o & Ho). exists o. apply watch_binary_old; auto.
    + pose proof (alits_new (arena d) (mkC ls w)) as E1. unfold alits, c in *. rewrite E1 in *. simpl in *.
      apply watch_binary_new; auto.
Qed.

(** ** Removing a clause *)
Lemma wl_filter_in b p f q (y : cid * lit) : In y (wl (filter_at p f b) q) -> In y (wl b q) /\ (q = p -> f y = true).
Proof.
  unfold filter_at. destruct (Nat.eq_dec q p) as [->|Hn].
  - destruct (Nat.lt_ge_cases p (length b)) as [H|H].
    + rewrite wl_set_same by auto. intros Hi. apply filter_In in Hi. destruct Hi; auto.
    + unfold wl. rewrite !nth_overflow by (rewrite ?set_nth_length; auto). intros [].
  - rewrite wl_set_other by auto. tauto.
Qed.
Lemma wl_filter_old b p f q (y : cid * lit) : In y (wl b q) -> f y = true -> In y (wl (filter_at p f b) q).
Proof.
  intros H Hf. unfold filter_at. destruct (Nat.eq_dec q p) as [->|Hn].
  - assert (Hp : p < length b).
    { destruct (Nat.lt_ge_cases p (length b)); auto. unfold wl in H. rewrite nth_overflow in H by auto. destruct H. }
    rewrite wl_set_same by auto. apply filter_In; auto.
  - rewrite wl_set_other by auto. auto.
Qed.

Lemma alits_set_wt c w a c' : alits (set_wt c w a) c' = alits a c'.
Proof.
  unfold alits, set_wt. rewrite nth_set_nth. destruct ((c' =? c) && (c <? length a)) eqn:E; auto.
  apply andb_true_iff in E. destruct E as [E _]. apply Nat.eqb_eq in E. subst. reflexivity.
Qed.
Lemma awt_set_wt c w a c' : awt (set_wt c w a) c' = if (c' =? c) && (c <? length a) then w else awt a c'.
Proof. unfold awt, set_wt. rewrite nth_set_nth. destruct ((c' =? c) && (c <? length a)); auto. Qed.
Lemma WFA_set_wt n c w a : WFA n a -> WFA n (set_wt c w a).
Proof. intros H x. rewrite alits_set_wt. apply H. Qed.

Lemma remove_bw n d c p c' o : DI n d -> (In (c', o) (wl (bw (removeClause c d)) p) <-> In (c', o) (wl (bw d) p) /\ c' <> c).
Proof.
  intros H. unfold removeClause; cbn [bw]. split.
  - destruct (clits d c) as [|x [|y [|z r]]] eqn:E.
    1,2,4: intros Hin; split; [exact Hin|]; intros ->; apply (di_bw0 n d H) in Hin; destruct Hin as (_ & _ & Hl);
      rewrite E in Hl; discriminate.
    intros Hin. apply wl_filter_in in Hin. destruct Hin as [Hin Hy]. apply wl_filter_in in Hin. destruct Hin as [Hin Hx].
    split; auto. intros ->. pose proof (di_BW n d H p c o Hin (lneg p)) as HB.
    change (alits (arena d) c) with (clits d c) in HB. rewrite E in HB.
    assert (Hp : In (lneg p) [x; y]) by (apply HB; auto). unfold not_clause in *. simpl in *. rewrite Nat.eqb_refl in *.
    destruct Hp as [Hp|[Hp|[]]].
    + rewrite Hp, lneg_invol in Hx. specialize (Hx eq_refl). discriminate.
    + rewrite Hp, lneg_invol in Hy. specialize (Hy eq_refl). discriminate.
  - intros [Hin Hn]. assert (Hf : not_clause c (c', o) = true) by (unfold not_clause; simpl; apply negb_true_iff, Nat.eqb_neq; auto).
    destruct (clits d c) as [|x [|y [|z r]]]; auto. auto using wl_filter_old.
Qed.

Lemma remove_fields c d : mem (removeClause c d) = mem d /\ facts (removeClause c d) = facts d /\
  cls (removeClause c d) = cls d /\ nv (removeClause c d) = nv d /\ empt (removeClause c d) = empt d /\
  arena (removeClause c d) = set_wt c W_DELETED (arena d).
Proof. cbn. auto 10. Qed.

Lemma remove_bw_len c d : length (bw (removeClause c d)) = length (bw d).
Proof.
  unfold removeClause; cbn [bw]. destruct (clits d c) as [|x [|y [|z r]]]; auto.
  unfold filter_at. rewrite !set_nth_length. auto.
Qed.

Lemma removeClause_DI n c d : DI n d -> DI n (removeClause c d).
Proof.
  intros H. set (d' := removeClause c d).
  assert (Ea : forall x, alits (arena d') x = alits (arena d) x) by (intros; apply alits_set_wt).
  assert (Ew : forall x, cwt d' x = cwt d x \/ (cwt d' x = W_DELETED /\ x = c)).
  { intros x. unfold d'. rewrite !cwt_awt. cbn [arena removeClause]. rewrite awt_set_wt.
    destruct (Nat.eqb_spec x c); simpl; auto. destruct (c <? length (arena d)); auto. }
  assert (Ew' : forall x, x <> c -> cwt d' x = cwt d x).
  { intros x Hx. destruct (Ew x) as [|[_ ->]]; auto. contradiction. }
  constructor; unfold clits; cbn [nv mem facts cls d' removeClause]; fold d'.
  - apply H.
  - unfold d'. rewrite remove_bw_len. apply H.
  - unfold d'. rewrite remove_bw_len. apply H.
  - apply WFA_set_wt, H.
  - intros p c' o Hin m. rewrite Ea. apply (remove_bw n) in Hin; auto. apply (di_BW n d H p c' o); tauto.
  - intros p c' o Hin. apply (remove_bw n) in Hin; auto. destruct Hin as [Hin Hn].
    destruct (di_bw0 n d H p c' o Hin) as (B1 & B2 & B3). split; auto. rewrite Ew' by auto.
    change (lits (cobj_at d' c')) with (alits (arena d') c'). rewrite Ea. auto.
  - intros x Hx. apply (di_rng n d H) in Hx. cbn [arena d' removeClause]. unfold set_wt. rewrite set_nth_length. auto.
  - apply H.
  - apply H.
  - apply H.
  - intros x Hx Hd. apply (di_live n d H); auto. unfold isDeleted in *. destruct (Ew x) as [<-|[E ->]]; auto.
    rewrite E in Hd. discriminate.
  - intros x Hx. change (lits (cobj_at d' x)) with (alits (arena d') x). rewrite Ea. apply (di_fact n d H); auto.
  - intros x Hx. change (lits (cobj_at d' x)) with (alits (arena d') x). rewrite Ea. intros Hl.
    destruct (Ew x) as [->|[E _]]; auto. apply (di_small n d H); auto.
  - intros x m Hx Hw. change (lits (cobj_at d' x)) with (alits (arena d') x). rewrite Ea. intros Hl Hm.
    assert (Hxc : cwt d' x = cwt d x) by (destruct (Ew x) as [|[E _]]; auto; rewrite E in Hw; discriminate).
    destruct (di_cov2 n d H x m Hx) as (o & Ho); auto; [congruence|]. exists o. apply (remove_bw n); auto. split; auto.
    intros ->. assert (Hr : c < length (arena d)) by (apply (di_rng n d H), (di_cls n d H); auto).
    rewrite cwt_awt in Hw. cbn [arena d' removeClause] in Hw. rewrite awt_set_wt, Nat.eqb_refl in Hw.
    apply Nat.ltb_lt in Hr. rewrite Hr in Hw. discriminate.
Qed.

Lemma strengthenClause_DI n c l d c' d' : DI n d -> strengthenClause c l d = Ok (c', d') -> DI n d'.
Proof.
  intros H E. unfold strengthenClause in E. apply bind_ok in E. destruct E as ([c1 d1] & E1 & E2).
  inversion E2; subst. apply removeClause_DI. eapply createClause_DI; [exact H| |exact E1].
  destruct (di_WFA n d H c) as [W1' W2']. change (alits (arena d) c) with (clits d c) in *. split.
  - revert W1'. clear. induction (clits d c) as [|x r IH]; simpl; intros Hn; [constructor|]. inversion Hn; subst.
    destruct (x =? l); simpl; auto. constructor; auto. intros Hi. apply in_map_iff in Hi. destruct Hi as (y & Ey & Hy).
    apply filter_In in Hy. apply H1. rewrite <- Ey. apply in_map. apply Hy.
  - intros x Hx. apply filter_In in Hx. apply W2'. apply Hx.
Qed.

(** ** Reorganising *)
Lemma getUnit_in d c : In c (getUnitClauses d) <-> In c (facts d) /\ isDeleted d c = false.
Proof. unfold getUnitClauses. rewrite filter_In, negb_true_iff. tauto. Qed.

Lemma NoDup_filter_app {A} f g (l m : list A) : NoDup (l ++ m) -> NoDup (filter f l ++ filter g m).
Proof.
  induction l as [|x l IH]; simpl; intros H.
  - apply NoDup_filter. auto.
  - inversion H; subst. destruct (f x); auto. simpl. constructor; auto.
    intros Hi. match goal with h : ~ In _ _ |- _ => apply h end. apply in_or_app. apply in_app_or in Hi.
    destruct Hi as [Hi|Hi]; apply filter_In in Hi; tauto.
Qed.

Lemma reorganize_fields d : arena (reorganize d) = arena d /\ facts (reorganize d) = facts d /\
  nv (reorganize d) = nv d /\ empt (reorganize d) = empt d.
Proof. cbn. auto. Qed.

Lemma reorganize_cls d c : In c (cls (reorganize d)) <-> In c (mem d ++ facts d) /\ isDeleted d c = false.
Proof.
  cbn [cls reorganize reinitBinaryWatchers with_bw]. rewrite in_app_iff, in_app_iff, filter_In, getUnit_in, negb_true_iff. tauto.
Qed.

Lemma wl_repeat k p : wl (repeat [] k) p = [].
Proof. unfold wl. destruct (Nat.lt_ge_cases p k) as [H|H]; [apply nth_repeat|rewrite nth_overflow; auto; rewrite repeat_length; auto]. Qed.

Lemma reorganize_DI n d : DI n d -> DI n (reorganize d).
Proof.
  intros H. set (d' := reorganize d).
  assert (Hmem : forall c, In c (mem d' ++ facts d') -> In c (mem d ++ facts d)).
  { intros c Hc. cbn [mem facts d' reorganize reinitBinaryWatchers with_bw] in Hc. rewrite in_app_iff, filter_In in Hc.
    rewrite in_app_iff. tauto. }
  assert (Hc2 : forall c, In c (cls d') <-> In c (mem d ++ facts d) /\ isDeleted d c = false) by (apply reorganize_cls).
  assert (Hbw : forall p c o, In (c, o) (wl (bw d') p) -> In c (cls d') /\
     exists x y, clits d c = [x; y] /\ ((p = lneg x /\ o = y) \/ (p = lneg y /\ o = x))).
  { intros p c o Hin. cbn [bw d' reorganize reinitBinaryWatchers with_bw] in Hin. apply fold_watch_in in Hin.
    destruct Hin as [Hin|Hin]; [rewrite wl_repeat in Hin; destruct Hin|exact Hin]. }
  constructor.
  - apply H.
  - intros l Hl. cbn [bw d' reorganize reinitBinaryWatchers with_bw nv]. rewrite fold_watch_len, repeat_length.
    rewrite (di_nv n d H). pose proof (lit_lt_double l n Hl). lia.
  - cbn [bw d' reorganize reinitBinaryWatchers with_bw nv]. rewrite fold_watch_len, repeat_length. rewrite (di_nv n d H). lia.
  - apply H.
  - intros p c o Hin m. destruct (Hbw p c o Hin) as [_ (x & y & E & Hp)]. apply (BW_entry (arena d) c x y p o); auto.
  - intros p c o Hin. destruct (Hbw p c o Hin) as [Hc (x & y & E & Hp)]. split; auto.
    change (cwt d' c) with (cwt d c). change (clits d' c) with (clits d c). rewrite E. split; auto.
    apply Hc2 in Hc. destruct Hc as [Hc Hd]. destruct (di_small n d H c Hc); auto; [rewrite E; simpl; lia|].
    unfold isDeleted in Hd. rewrite H0 in Hd. discriminate.
  - intros c Hc. apply (di_rng n d H); auto.
  - cbn [mem facts d' reorganize reinitBinaryWatchers with_bw].
    assert (E : facts d = filter (fun _ => true) (facts d)) by (clear; induction (facts d) as [|x r IH]; [reflexivity|exact (f_equal (cons x) IH)]).
    rewrite E. apply NoDup_filter_app. apply H.
  - intros c Hc. apply Hc2 in Hc. destruct Hc as [Hc Hd]. cbn [mem facts d' reorganize reinitBinaryWatchers with_bw].
    rewrite in_app_iff in *. rewrite filter_In, Hd. simpl. tauto.
  - cbn [cls d' reorganize reinitBinaryWatchers with_bw]. unfold getUnitClauses. cbn [facts]. apply NoDup_filter_app. apply H.
  - intros c Hc Hd. apply Hc2. split; auto.
  - intros c Hc. apply Hmem in Hc. change (facts d') with (facts d). change (clits d' c) with (clits d c). apply (di_fact n d H); auto.
  - intros c Hc. apply Hmem in Hc. apply (di_small n d H); auto.
  - intros c x Hc Hw Hl Hx. cbn [bw d' reorganize reinitBinaryWatchers with_bw]. apply fold_watch_new; auto.
    intros l Hin. rewrite repeat_length. cbn [nv]. rewrite (di_nv n d H).
    assert (Hv : lvar (lneg l) < n) by (rewrite lvar_neg; apply (di_WFA n d H c); exact Hin).
    pose proof (lit_lt_double _ _ Hv). lia.
Qed.

(** ** Weights *)
Lemma set_wt_DI n c w d : DI n d -> (In c (cls d) /\ 3 <= length (clits d c)) \/ ~ In c (mem d ++ facts d) ->
  DI n (with_arena d (set_wt c w (arena d))).
Proof.
  intros H Hc. set (d' := with_arena d (set_wt c w (arena d))).
  assert (Ea : forall x, clits d' x = clits d x) by (intros; apply alits_set_wt).
  assert (Ew : forall x, x <> c -> cwt d' x = cwt d x).
  { intros x Hx. unfold d'. rewrite !cwt_awt. cbn [arena with_arena]. rewrite awt_set_wt.
    apply Nat.eqb_neq in Hx. rewrite Hx. reflexivity. }
  assert (Hbig : forall x, In x (mem d ++ facts d) -> length (clits d x) < 3 -> x <> c).
  { intros x Hx Hl ->. destruct Hc as [[_ Hc]|Hc]; [lia|contradiction]. }
  constructor; cbn [nv mem facts cls bw d' with_arena]; fold d'.
  - apply H.
  - apply H.
  - apply H.
  - apply WFA_set_wt, H.
  - intros p x o Hin m. change (alits (arena d') x) with (clits d' x). rewrite Ea. apply (di_BW n d H p x o Hin).
  - intros p x o Hin. destruct (di_bw0 n d H p x o Hin) as (B1 & B2 & B3). split; auto. rewrite Ea. split; auto.
    rewrite Ew; auto. apply Hbig; [apply (di_cls n d H); auto|lia].
  - intros x Hx. cbn [arena d' with_arena]. unfold set_wt. rewrite set_nth_length. apply (di_rng n d H); auto.
  - apply H.
  - apply H.
  - apply H.
  - intros x Hx Hd. destruct (Nat.eq_dec x c) as [->|Hn].
    + destruct Hc as [[Hc _]|Hc]; [auto|contradiction].
    + apply (di_live n d H); auto. unfold isDeleted in *. rewrite <- Ew; auto.
  - intros x Hx. rewrite Ea. apply (di_fact n d H); auto.
  - intros x Hx. rewrite Ea. intros Hl. rewrite Ew by (apply Hbig; auto). apply (di_small n d H); auto.
  - intros x m Hx. rewrite Ea. intros Hw Hl. rewrite Ew in Hw; [intros; apply (di_cov2 n d H); auto|].
    apply Hbig; [apply (di_cls n d H); auto|lia].
Qed.

Lemma reestimate_fields t cs : forall d, let d' := reestimate t cs d in
  mem d' = mem d /\ facts d' = facts d /\ cls d' = cls d /\ nv d' = nv d /\ empt d' = empt d /\ bw d' = bw d /\
  cert d' = cert d /\ length (arena d') = length (arena d) /\ (forall c, alits (arena d') c = alits (arena d) c) /\
  (forall c, cwt d c = 0%N -> cwt d' c = 0%N).
Proof.
  induction cs as [|c r IH]; intros d; cbn [reestimate]; [repeat split; auto|].
  destruct (isLearnt d c) eqn:Hl; [|apply IH].
  set (w := (N.of_nat (computeLBD t (clits d c)) mod 65536)%N).
  destruct (IH (with_arena d (set_wt c w (arena d)))) as (A1 & A2 & A3 & A4 & A5 & A6 & A7 & A8 & A9 & A10).
  repeat (split; [first [exact A1|exact A2|exact A3|exact A4|exact A5|exact A6|exact A7]|]).
  split; [rewrite A8; cbn [arena with_arena]; unfold set_wt; apply set_nth_length|]. split.
  - intros x. rewrite A9. cbn [arena with_arena]. apply alits_set_wt.
  - intros x Hx. apply A10. rewrite cwt_awt. cbn [arena with_arena]. rewrite awt_set_wt.
    destruct (Nat.eqb_spec x c) as [->|Hn]; [|exact Hx]. unfold isLearnt in Hl. rewrite Hx in Hl. discriminate.
Qed.

Lemma reestimate_DI n t cs : forall d, DI n d ->
  (forall c, In c cs -> (In c (cls d) /\ 3 <= length (clits d c)) \/ cwt d c = 0%N) -> DI n (reestimate t cs d).
Proof.
  induction cs as [|c r IH]; intros d H Hc; cbn [reestimate]; auto.
  destruct (isLearnt d c) eqn:Hl; [|apply IH; auto; intros; apply Hc; simpl; auto].
  assert (Hc1 : In c (cls d) /\ 3 <= length (clits d c)).
  { destruct (Hc c (or_introl eq_refl)) as [|E]; auto. unfold isLearnt in Hl. rewrite E in Hl. discriminate. }
  apply IH; [apply set_wt_DI; auto|]. intros x Hx. destruct (Hc x (or_intror Hx)) as [[H1 H2]|H2].
  - left. split; [exact H1|]. rewrite clits_alits. cbn [arena with_arena]. rewrite alits_set_wt. exact H2.
  - destruct (Nat.eq_dec x c) as [->|Hn].
    + left. split; [apply Hc1|]. rewrite clits_alits. cbn [arena with_arena]. rewrite alits_set_wt. apply Hc1.
    + right. rewrite cwt_awt. cbn [arena with_arena]. rewrite awt_set_wt. apply Nat.eqb_neq in Hn. rewrite Hn. exact H2.
Qed.

(** ** Permuting the literals of clauses *)
Lemma aperm_DI n d a : DI n d -> aperm (arena d) a -> DI n (with_arena d a).
Proof.
  intros H HP. set (d' := with_arena d a).
  assert (El : forall c, length (clits d' c) = length (clits d c)) by (intros; symmetry; apply (aperm_len (arena d) a c HP)).
  assert (Ew : forall c, cwt d' c = cwt d c) by (intros c; apply (proj2 HP)).
  constructor; cbn [nv mem facts cls bw d' with_arena arena]; fold d'.
  - apply H.
  - apply H.
  - apply H.
  - eapply WFA_perm; [exact HP|apply H].
  - eapply BW_perm; [exact HP|apply H].
  - intros p c o Hin. rewrite El, Ew. apply (di_bw0 n d H p c o Hin).
  - rewrite (proj1 HP). apply H.
  - apply H.
  - apply H.
  - apply H.
  - intros c Hc. unfold isDeleted. rewrite Ew. apply (di_live n d H); auto.
  - intros c Hc. rewrite El. apply (di_fact n d H); auto.
  - intros c Hc. rewrite El, Ew. apply (di_small n d H); auto.
  - intros c x Hc. rewrite El, Ew. intros Hw Hl Hx. apply (di_cov2 n d H); auto. apply (aperm_in (arena d) a); auto.
Qed.

(** ** New variables and problems *)
Lemma db_new_DI : DI 0 db_new.
Proof.
  assert (Ha : WFA 0 (arena db_new)).
  { intros c. unfold alits. destruct c; simpl; split; try constructor; intros ? []. }
  constructor; try exact Ha; cbn; try (intros; lia); try (intros; tauto); try apply NoDup_nil.
  - intros p c o Hin. unfold wl in Hin. destruct p; simpl in Hin; destruct Hin.
  - intros p c o Hin. unfold wl in Hin. destruct p; simpl in Hin; destruct Hin.
Qed.

Lemma db_grow_DI n m d : DI n d -> DI (max m n) (db_grow m d).
Proof.
  intros H. unfold db_grow. rewrite (di_nv n d H). destruct (Nat.ltb_spec n m) as [Hm|Hm].
  2:{ rewrite Nat.max_r by auto. exact H. }
  rewrite Nat.max_l by lia.
  assert (Hl : length (bw d) <= 2 * m + 2) by (pose proof (di_bwl2 n d H); lia).
  assert (Hw : forall p, wl (resize (2 * m + 2) [] (bw d)) p = wl (bw d) p) by (intros p; apply resize_nth; auto).
  constructor; cbn [nv mem facts cls bw arena].
  - reflexivity.
  - intros l Hv. rewrite resize_length by auto. pose proof (lit_lt_double l m Hv). lia.
  - rewrite resize_length by auto. lia.
  - eapply WFA_mono; [|apply H]. lia.
  - intros p. rewrite Hw. apply (di_BW n d H).
  - intros p c o. rewrite Hw. apply (di_bw0 n d H).
  - apply H.
  - apply H.
  - apply H.
  - apply H.
  - apply (di_live n d H).
  - apply (di_fact n d H).
  - apply (di_small n d H).
  - intros c x. rewrite Hw. apply (di_cov2 n d H).
Qed.

(** databases that differ by the addition of clauses *)
Record dext (d d' : db) : Prop := {
  dx_arena : exists x, arena d' = arena d ++ x;
  dx_cls : exists x, cls d' = cls d ++ x;
  dx_new : forall c, In c (cls d') -> In c (cls d) \/ (length (arena d) <= c);
  dx_nv : nv d' = nv d;
  dx_empt : empt d = true -> empt d' = true }.

Lemma dext_refl d : dext d d.
Proof. constructor; auto; exists []; rewrite app_nil_r; auto. Qed.
Lemma dext_trans a b c : dext a b -> dext b c -> dext a c.
Proof.
  intros [(x1 & E1) (y1 & F1) N1 V1 P1] [(x2 & E2) (y2 & F2) N2 V2 P2]. constructor; auto; try congruence.
  - exists (x1 ++ x2). rewrite E2, E1, app_assoc. auto.
  - exists (y1 ++ y2). rewrite F2, F1, app_assoc. auto.
  - intros i Hi. destruct (N2 i Hi) as [H|H]; auto. right. rewrite E1, app_length in H. lia.
Qed.
Lemma created_dext d ls c d' : created d ls c d' -> dext d d'.
Proof.
  intros (E1 & E2 & E3 & (w & E4) & E5). constructor; auto.
  - eauto.
  - eauto.
  - intros i Hi. rewrite E3 in Hi. apply in_app_or in Hi. destruct Hi as [|[<-|[]]]; auto. right. lia.
  - rewrite E5. intros ->. destruct (length ls =? 0); auto.
Qed.

Lemma create_all_spec n cs lem : forall d d', DI n d -> Forall (wfc n) cs -> create_all cs lem d = Ok d' ->
  DI n d' /\ dext d d' /\ Forall (fun ls => exists c, In c (cls d') /\ clits d' c = ls /\ (lem = true -> cwt d' c = 0%N)) cs /\
  (forall c, In c (cls d') -> In c (cls d) \/ In (clits d' c) cs) /\
  (forall c, length (arena d) <= c < length (arena d') -> In (clits d' c) cs).
Proof.
  induction cs as [|ls r IH]; intros d d' H Hf E; cbn [create_all] in E.
  - inversion E; subst. split; auto. split; [apply dext_refl|]. split; [constructor|]. split; auto. lia.
  - apply bind_ok in E. destruct E as ([c d1] & E1 & E2). inversion Hf as [|? ? Hls Hr]; subst.
    pose proof (createClause_DI _ _ _ _ _ _ _ H Hls E1) as H1. pose proof (createClause_created _ _ _ _ _ _ E1) as HC.
    destruct (IH d1 d' H1 Hr E2) as (A1 & A2 & A3 & A4 & A5). split; auto. pose proof (created_dext _ _ _ _ HC) as HX.
    split; [eapply dext_trans; eauto|]. destruct HC as (C1 & C2 & C3 & (w & C4) & C5).
    assert (Hc : clits d' c = ls /\ cwt d' c = w).
    { destruct (dx_arena _ _ A2) as (x & Ex). rewrite clits_alits, cwt_awt, Ex, C4, C1.
      rewrite alits_app, awt_app, alits_new, awt_new by (rewrite app_length; simpl; lia). auto. }
    split; [|split].
    + constructor; auto. exists c. split; [|split; [apply Hc|]].
      * destruct (dx_cls _ _ A2) as (y & Ey). rewrite Ey, C3. apply in_or_app. left. apply in_or_app. simpl; auto.
      * intros ->. rewrite (proj2 Hc). unfold createClause in E1. destruct (65536 <=? N.of_nat (length ls))%N; [discriminate|].
        inversion E1. subst d1. cbn [arena] in C4. apply app_inv_head in C4. inversion C4. destruct (length ls <? 3); reflexivity.
    + intros x Hx. destruct (A4 x Hx) as [Hx1|Hx1]; [|simpl; auto]. rewrite C3 in Hx1. apply in_app_or in Hx1.
      destruct Hx1 as [|[<-|[]]]; auto. right. left. symmetry. apply Hc.
    + intros x Hx. destruct (Nat.eq_dec x c) as [->|Hn]; [left; symmetry; apply Hc|]. right. apply A5.
      rewrite C4, app_length. simpl. lia.
Qed.

(** ** Resetting the watch lists *)
Lemma attach_in d c w p c' b : In (c', b) (wl (attachClause d c w) p) ->
  In (c', b) (wl w p) \/ (c' = c /\ exists x y r, clits d c = x :: y :: r /\ ((p = lneg x /\ b = y) \/ (p = lneg y /\ b = x))).
Proof.
  unfold attachClause. destruct (clits d c) as [|x [|y r]]; auto. intros H.
  apply wl_push_in in H. destruct H as [H|[-> E]].
  - apply wl_push_in in H. destruct H as [H|[-> E]]; auto. inversion E; subst. right. eauto 10.
  - inversion E; subst. right. eauto 10.
Qed.
Lemma attach_old d c w p y : In y (wl w p) -> In y (wl (attachClause d c w) p).
Proof. unfold attachClause. destruct (clits d c) as [|x [|z r]]; auto. intros H. auto using wl_push_old. Qed.
Lemma attach_len d c w : length (attachClause d c w) = length w.
Proof. unfold attachClause. destruct (clits d c) as [|x [|y r]]; auto. rewrite !push_at_length. auto. Qed.

Lemma attach_W1 d c w : W1 (arena d) w -> 3 <= length (clits d c) -> W1 (arena d) (attachClause d c w).
Proof.
  intros H Hl p c' b Hin. apply attach_in in Hin. destruct Hin as [Hin|(-> & x & y & r & E & Hp)]; [apply H; auto|].
  change (alits (arena d) c) with (clits d c). rewrite E in *. destruct r as [|z r]; [simpl in Hl; lia|].
  destruct Hp as [[-> ->]|[-> ->]]; rewrite lneg_invol; simpl; split; auto; exists x, y, z, r; auto.
Qed.
Lemma attach_W2 d c w : W2 w -> (forall q, ~ In c (map fst (wl w q))) -> NoDup (map lvar (clits d c)) ->
  W2 (attachClause d c w).
Proof.
  intros H Hn Hd. unfold attachClause. destruct (clits d c) as [|x [|y r]]; auto.
  assert (Hxy : lneg x <> lneg y).
  { intros E. apply lneg_inj in E. subst. simpl in Hd. inversion Hd as [|? ? Hi _]. apply Hi. simpl; auto. }
  assert (HP : forall w p (b : lit), W2 w -> ~ In c (map fst (wl w p)) -> W2 (push_at p (c, b) w)).
  { intros w0 p b H0 Hn0 q. destruct (Nat.eq_dec q p) as [->|Hq]; [|rewrite wl_push_other by auto; auto].
    destruct (Nat.lt_ge_cases p (length w0)) as [Hp|Hp].
    - rewrite wl_push_same by auto. rewrite map_app. simpl.
      apply (Permutation_NoDup (l := c :: map fst (wl w0 p))); [apply Permutation_cons_append|]. constructor; auto.
    - unfold wl. rewrite nth_overflow; [constructor|]. unfold push_at. rewrite set_nth_length. auto. }
  apply HP; [apply HP; auto|]. rewrite wl_push_other by auto. auto.
Qed.
Lemma attach_watched2 d c w : 3 <= length (clits d c) -> (forall l, In l (clits d c) -> lneg l < length w) ->
  watched2 (arena d) (attachClause d c w) c.
Proof.
  intros Hl Hw. unfold watched2. change (alits (arena d) c) with (clits d c). unfold attachClause.
  destruct (clits d c) as [|x [|y [|z r]]] eqn:E; simpl in Hl; try lia. exists x, y, z, r. split; auto.
  assert (Hx : lneg x < length w) by (apply Hw; simpl; auto).
  assert (Hy : lneg y < length w) by (apply Hw; simpl; auto). split.
  - apply in_map_iff. exists (c, y). split; auto. apply wl_push_old, wl_push_new; auto.
  - apply in_map_iff. exists (c, x). split; auto. apply wl_push_new. rewrite push_at_length; auto.
Qed.
Lemma watched2_mono a w w' c : (forall q y, In y (wl w q) -> In y (wl w' q)) -> watched2 a w c -> watched2 a w' c.
Proof.
  intros H (x & y & z & r & E & H1 & H2). exists x, y, z, r. split; auto.
  apply in_map_iff in H1. apply in_map_iff in H2. destruct H1 as (u & U1 & U2). destruct H2 as (v & V1 & V2).
  split; apply in_map_iff; eauto.
Qed.

(** every clause of the vector with at least three literals is watched; only such clauses are *)
Definition Cov3 (d : db) (w : watches) : Prop :=
  forall c, In c (cls d) -> 3 <= length (clits d c) -> watched2 (arena d) w c.
Definition WI (d : db) (w : watches) : Prop := forall c q, In c (map fst (wl w q)) -> In c (cls d).

Definition att_step (d : db) := fun w c => if 2 <? length (clits d c) then attachClause d c w else w.
Lemma att_fold d n cs : WFA n (arena d) -> NoDup cs -> forall w,
  (forall l, lvar l < n -> l < length w) ->
  W1 (arena d) w -> W2 w -> (forall c q, In c cs -> ~ In c (map fst (wl w q))) ->
  let w' := fold_left (att_step d) cs w in
  W1 (arena d) w' /\ W2 w' /\ length w' = length w /\
  (forall q y, In y (wl w q) -> In y (wl w' q)) /\
  (forall c q, In c (map fst (wl w' q)) -> In c (map fst (wl w q)) \/ In c cs) /\
  (forall c, In c cs -> 3 <= length (clits d c) -> watched2 (arena d) w' c).
Proof.
  intros HA. induction cs as [|c r IH]; intros Hnd w Hlen H1 H2 Hf; cbn [fold_left].
  - split; auto. split; auto. split; auto. split; auto. split; auto. intros ? [].
  - inversion Hnd as [|? ? Hnc Hnr]; subst.
    assert (Hstep : let w1 := att_step d w c in W1 (arena d) w1 /\ W2 w1 /\ length w1 = length w /\
      (forall q y, In y (wl w q) -> In y (wl w1 q)) /\
      (forall c' q, In c' (map fst (wl w1 q)) -> In c' (map fst (wl w q)) \/ c' = c) /\
      (3 <= length (clits d c) -> watched2 (arena d) w1 c)).
    { unfold att_step. destruct (Nat.ltb_spec 2 (length (clits d c))) as [Hl|Hl]; cbn zeta.
      - split; [apply attach_W1; auto|]. split; [apply attach_W2; auto; [intros; apply Hf; simpl; auto|apply HA]|].
        split; [apply attach_len|]. split; [intros; apply attach_old; auto|]. split.
        + intros c' q Hin. apply in_map_iff in Hin. destruct Hin as ([c0 b] & E & Hin). simpl in E. subst c0.
          apply attach_in in Hin. destruct Hin as [Hin|(-> & _)]; auto. left. apply in_map_iff. exists (c', b). auto.
        + intros _. apply attach_watched2; auto. intros l Hl'. apply Hlen. rewrite lvar_neg. apply (HA c). auto.
      - split; auto. split; auto. split; auto. split; auto. split; auto. intros; lia. }
    set (w1 := att_step d w c) in *. destruct Hstep as (S1 & S2 & S3 & S4 & S5 & S6).
    destruct (IH Hnr w1) as (A1 & A2 & A3 & A4 & A5 & A6); auto.
    + rewrite S3. auto.
    + intros c' q Hc' Hin. destruct (S5 c' q Hin) as [Hin'| ->]; [|contradiction]. apply (Hf c' q); simpl; auto.
    + split; auto. split; auto. split; [congruence|]. split; [auto|]. split.
      * intros c' q Hin. destruct (A5 c' q Hin) as [Hin'|]; [|simpl; auto]. destruct (S5 c' q Hin') as [|E]; auto. simpl; auto.
      * intros c' [<-|Hc'] Hl; auto. apply (watched2_mono _ w1); auto.
Qed.

Lemma prop_reset_spec n d : DI n d ->
  W1 (arena d) (prop_reset d) /\ W2 (prop_reset d) /\ Cov3 d (prop_reset d) /\ WI d (prop_reset d) /\
  (forall l, lvar l < n -> l < length (prop_reset d)).
Proof.
  intros H. unfold prop_reset, prop_init. assert (Er : resize (2 * nv d + 1) [] [] = repeat (@nil (cid * lit)) (2 * nv d + 1)).
  { unfold resize. simpl length. rewrite Nat.sub_0_r. destruct (2 * nv d + 1); reflexivity. }
  rewrite Er. rewrite (di_nv n d H). set (w0 := repeat (@nil (cid * lit)) (2 * n + 1)).
  assert (E0 : forall q, wl w0 q = []) by (intros; apply wl_repeat).
  assert (L0 : forall l, lvar l < n -> l < length w0).
  { intros l Hl. unfold w0. rewrite repeat_length. pose proof (lit_lt_double l n Hl). lia. }
  destruct (att_fold d n (cls d) (di_WFA n d H) (di_clsnd n d H) w0) as (A1 & A2 & A3 & A4 & A5 & A6); auto.
  - intros p c b Hin. rewrite E0 in Hin. destruct Hin.
  - intros q. rewrite E0. constructor.
  - intros c q _ Hin. rewrite E0 in Hin. destruct Hin.
  - fold (att_step d). split; auto. split; auto. split; [exact A6|]. split.
    + intros c q Hin. destruct (A5 c q Hin) as [Hin'|]; auto. rewrite E0 in Hin'. destruct Hin'.
    + rewrite A3. auto.
Qed.
