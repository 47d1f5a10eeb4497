(** Subsumption and unit resolution on the wrapped clause database (C27). *)
Require Import List Arith Bool NArith Lia Permutation.
Require Import Verif.Base Verif.CNFModel Verif.CNFSpec Verif.CNFProofs Verif.HeapProofs Verif.Outcome Verif.TrailModel
  Verif.TrailProofs Verif.TrailLemmas Verif.DbModel Verif.PropModel Verif.PropProofs Verif.DbProofs Verif.SimpModel
  Verif.SubsProofs.
Import ListNotations.

(** live clauses of a database *)
Definition LV (d : db) (c : cid) : Prop := In c (cls d) /\ isDeleted d c = false.

(** the database only grew, and weights of old clauses changed only to "deleted" *)
Record dstep (d d' : db) : Prop := {
  ds_len : length (arena d) <= length (arena d');
  ds_lits : forall c, c < length (arena d) -> clits d' c = clits d c;
  ds_cls : forall c, In c (cls d') <-> In c (cls d) \/ length (arena d) <= c < length (arena d');
  ds_wt : forall c, c < length (arena d) -> cwt d' c = cwt d c \/ cwt d' c = W_DELETED;
  ds_nv : nv d' = nv d;
  ds_empt : empt d' = empt d;
  ds_new : forall c, length (arena d) <= c < length (arena d') -> clits d' c <> [] }.

Lemma dstep_refl d : dstep d d.
Proof. constructor; auto; [|intros c H; lia]. intros c. split; auto. intros [H|H]; auto. lia. Qed.
Lemma dstep_trans a b c : dstep a b -> dstep b c -> dstep a c.
Proof.
  intros [A1 A2 A3 A4 A5 A6 A7] [B1 B2 B3 B4 B5 B6 B7]. constructor; try congruence; try lia.
  - intros x Hx. rewrite B2 by lia. auto.
  - intros x. rewrite B3, A3. intuition lia.
  - intros x Hx. destruct (B4 x ltac:(lia)) as [->|E]; auto.
  - intros x Hx. destruct (Nat.lt_ge_cases x (length (arena b))); [rewrite B2 by auto; apply A7; lia|apply B7; lia].
Qed.

Definition LenOk (d : db) : Prop := forall c, (N.of_nat (length (clits d c)) < 65536)%N.

Lemma createClause_ok ls lbd lem d : (N.of_nat (length ls) < 65536)%N ->
  exists d', createClause ls lbd lem d = Ok (length (arena d), d').
Proof.
  intros H. unfold createClause. destruct (N.leb_spec 65536 (N.of_nat (length ls))); [lia|]. eauto.
Qed.

Lemma clits_new d ls c d' : created d ls c d' -> clits d' c = ls.
Proof. intros (-> & _ & _ & (w & E) & _). rewrite clits_alits, E. apply alits_new. Qed.
Lemma clits_old d ls c d' x : created d ls c d' -> x < length (arena d) -> clits d' x = clits d x.
Proof. intros (-> & _ & _ & (w & E) & _) H. rewrite !clits_alits, E. apply alits_app; auto. Qed.
Lemma cwt_old d ls c d' x : created d ls c d' -> x < length (arena d) -> cwt d' x = cwt d x.
Proof. intros (-> & _ & _ & (w & E) & _) H. rewrite !cwt_awt, E. apply awt_app; auto. Qed.

Lemma created_dstep d ls c d' : created d ls c d' -> ls <> [] -> dstep d d'.
Proof.
  intros HC Hne. pose proof HC as (E1 & E2 & E3 & (w & E4) & E5).
  assert (L : length (arena d') = S (length (arena d))) by (rewrite E4, app_length; simpl; lia).
  constructor; auto; try lia.
  - intros x Hx. eapply clits_old; eauto.
  - intros x. rewrite E3, in_app_iff. simpl. split; [intros [H|[H|[]]]; auto; right; lia|]. intros [H|H]; auto. right. left. lia.
  - intros x Hx. left. eapply cwt_old; eauto.
  - rewrite E5. destruct ls; [contradiction|]. reflexivity.
  - intros x Hx. assert (x = c) as -> by lia. rewrite (clits_new _ _ _ _ HC). auto.
Qed.
Lemma created_LenOk ls lbd lem d c d' : createClause ls lbd lem d = Ok (c, d') -> LenOk d -> LenOk d'.
Proof.
  intros H HL x. pose proof (createClause_created _ _ _ _ _ _ H) as HC.
  assert (Hl : (N.of_nat (length ls) < 65536)%N).
  { unfold createClause in H. destruct (N.leb_spec 65536 (N.of_nat (length ls))); [discriminate|]. lia. }
  destruct (Nat.lt_trichotomy x (length (arena d))) as [Hx|[->|Hx]].
  - rewrite (clits_old _ _ _ _ _ HC Hx). apply HL.
  - pose proof (clits_new _ _ _ _ HC) as E. destruct HC as (-> & _). rewrite E. auto.
  - rewrite clits_alits, alits_overflow; [simpl; lia|]. destruct HC as (_ & _ & _ & (w & ->) & _). rewrite app_length. simpl. lia.
Qed.

Lemma clits_remove c d x : clits (removeClause c d) x = clits d x.
Proof. apply alits_set_wt. Qed.
Lemma cwt_remove c d x : c < length (arena d) -> cwt (removeClause c d) x = if x =? c then W_DELETED else cwt d x.
Proof.
  intros H. rewrite !cwt_awt. cbn [arena removeClause]. rewrite awt_set_wt. apply Nat.ltb_lt in H. rewrite H, andb_true_r. auto.
Qed.
Lemma arena_len_remove c d : length (arena (removeClause c d)) = length (arena d).
Proof. cbn [arena removeClause]. unfold set_wt. apply set_nth_length. Qed.
Lemma removeClause_dstep c d : c < length (arena d) -> dstep d (removeClause c d).
Proof.
  intros H. constructor; auto; rewrite ?arena_len_remove; auto.
  - intros x _. apply clits_remove.
  - intros x. split; auto. intros [Hx|Hx]; auto. lia.
  - intros x _. rewrite cwt_remove by auto. destruct (x =? c); auto.
  - intros x Hx. lia.
Qed.
Lemma remove_LenOk c d : LenOk d -> LenOk (removeClause c d).
Proof. intros H x. rewrite clits_remove. auto. Qed.

Lemma cls_lt n d c : DI n d -> In c (cls d) -> c < length (arena d).
Proof. intros H Hc. apply (di_rng n d H), (di_cls n d H). auto. Qed.

(** ** The wrapper database *)
Record SI (n : nat) (d : db) (s : sdb) : Prop := {
  s_D : DI n d;
  s_L : LenOk d;
  s_cls : forall i c, wclause s i = Some c -> In c (cls d) /\ clits d c <> [];
  s_occ : forall v i c, In i (occs s v) -> wclause s i = Some c -> exists l, In l (clits d c) /\ lvar l = v;
  s_full : forall i c l, wclause s i = Some c -> In l (clits d c) -> In i (occs s (lvar l));
  s_rng : forall v i, In i (occs s v) -> i < length (subs s);
  s_nd : forall v, NoDup (occs s v);
  s_inj : forall i j c, wclause s i = Some c -> wclause s j = Some c -> i = j;
  s_len : length (occ s) = n }.

(** no wrapped clause is deleted, none is wrapped twice *)
Record SL (d : db) (s : sdb) : Prop := {
  sl_live : forall i c, wclause s i = Some c -> isDeleted d c = false;
  sl_inj : forall i j c, wclause s i = Some c -> wclause s j = Some c -> i = j }.

(** all assignments in [P] satisfy all wrapped clauses, resp. all new clauses *)
Definition WE (P : assignment -> Prop) (d : db) (s : sdb) : Prop :=
  forall i c a, wclause s i = Some c -> P a -> sat_clause a (clits d c).
Definition NE (P : assignment -> Prop) (d d' : db) : Prop :=
  forall c a, length (arena d) <= c < length (arena d') -> P a -> sat_clause a (clits d' c).
(** every live clause is still there or there is a subset of it, persistent if it was persistent *)
Definition Cover (d d' : db) : Prop :=
  forall c, LV d c -> exists c', LV d' c' /\ incl (clits d' c') (clits d c) /\ (cwt d c = 0%N -> cwt d' c' = 0%N).

Lemma NE_refl P d : NE P d d.
Proof. intros c a H. lia. Qed.
Lemma NE_trans P a b c : dstep b c -> NE P a b -> NE P b c -> NE P a c.
Proof.
  intros HS H1 H2 x m Hx Hm. destruct (Nat.lt_ge_cases x (length (arena b))) as [Hl|Hl].
  - rewrite (ds_lits _ _ HS) by auto. apply H1; auto. lia.
  - apply H2; auto. lia.
Qed.
Lemma Cover_refl d : Cover d d.
Proof. intros c H. exists c. split; auto. split; auto. apply incl_refl. Qed.
Lemma Cover_trans a b c : Cover a b -> Cover b c -> Cover a c.
Proof.
  intros H1 H2 x Hx. destruct (H1 x Hx) as (y & Y1 & Y2 & Y3). destruct (H2 y Y1) as (z & Z1 & Z2 & Z3).
  exists z. split; auto. split; auto. eapply incl_tran; eauto.
Qed.

Lemma wclause_lt s i c : wclause s i = Some c -> i < length (subs s).
Proof.
  intros H. destruct (Nat.lt_ge_cases i (length (subs s))); auto. unfold wclause in H. rewrite nth_overflow in H by auto. discriminate.
Qed.

(** creating a wrapped clause *)
Lemma add_occ_in j ls : forall o v i, (forall l, In l ls -> lvar l < length o) ->
  In i (nth v (add_occ j ls o) []) <-> In i (nth v o []) \/ (i = j /\ exists l, In l ls /\ lvar l = v).
Proof.
  unfold add_occ. induction ls as [|x r IH]; intros o v i Hl; simpl.
  - split; auto. intros [H|(_ & l & [] & _)]; auto.
  - rewrite IH by (intros l Hr; rewrite push_at_length; auto with datatypes). unfold push_at.
    rewrite nth_set_nth. assert (Hx : lvar x < length o) by auto with datatypes. apply Nat.ltb_lt in Hx. rewrite Hx, andb_true_r.
    destruct (Nat.eqb_spec v (lvar x)) as [->|Hn].
    + rewrite in_app_iff. simpl. split.
      * intros [[H|[H|[]]]|(H1 & l & H2 & H3)]; auto; right; split; eauto.
      * intros [H|(H1 & l & [H2|H2] & H3)]; auto; right; eauto.
    + split.
      * intros [H|(H1 & l & H2 & H3)]; auto; right; split; eauto.
      * intros [H|(H1 & l & [H2|H2] & H3)]; auto; [congruence|]. right. eauto.
Qed.
Lemma add_occ_length j ls : forall o, length (add_occ j ls o) = length o.
Proof. unfold add_occ. induction ls as [|x r IH]; intros o; simpl; auto. rewrite IH, push_at_length. auto. Qed.

Lemma NoDup_app_one {A} (l : list A) x : NoDup l -> ~ In x l -> NoDup (l ++ [x]).
Proof.
  intros H Hx. apply (Permutation_NoDup (l := x :: l)); [|constructor; auto]. apply Permutation_cons_append.
Qed.
Lemma add_occ_nodup j ls : forall o, (forall l, In l ls -> lvar l < length o) -> NoDup (map lvar ls) ->
  (forall v, NoDup (nth v o [])) -> (forall l, In l ls -> ~ In j (nth (lvar l) o [])) ->
  forall v, NoDup (nth v (add_occ j ls o) []).
Proof.
  unfold add_occ. induction ls as [|x r IH]; intros o Hl Hn Ho Hj v; cbn [fold_left]; auto.
  inversion Hn as [|? ? Hx Hr]; subst.
  assert (Hxl : (lvar x <? length o) = true) by (apply Nat.ltb_lt; auto with datatypes).
  apply IH; auto.
  - intros l Hin. rewrite push_at_length. auto with datatypes.
  - intros u. unfold push_at. rewrite nth_set_nth, Hxl, andb_true_r. destruct (Nat.eqb_spec u (lvar x)) as [->|]; auto.
    apply NoDup_app_one; auto. apply Hj. simpl; auto.
  - intros l Hin. unfold push_at. rewrite nth_set_nth, Hxl, andb_true_r. destruct (Nat.eqb_spec (lvar l) (lvar x)) as [E|E].
    + exfalso. apply Hx. rewrite <- E. apply in_map; auto.
    + apply Hj. simpl; auto.
Qed.

Lemma wclause_add s c ls i : wclause (sub_add c ls s) i =
  if i =? length (subs s) then Some c else wclause s i.
Proof.
  unfold wclause, sub_add; cbn [subs]. destruct (Nat.eqb_spec i (length (subs s))) as [->|Hn].
  - rewrite app_nth2, Nat.sub_diag by auto. reflexivity.
  - destruct (Nat.lt_ge_cases i (length (subs s))).
    + rewrite app_nth1 by auto. auto.
    + rewrite !nth_overflow; auto. rewrite app_length. simpl. lia.
Qed.

Lemma sub_create_SI n ls lbd d s : SI n d s -> wfc n ls -> ls <> [] -> (N.of_nat (length ls) < 65536)%N ->
  exists d', sub_create ls lbd d s = Ok (length (subs s), d', sub_add (length (arena d)) ls s) /\
    SI n d' (sub_add (length (arena d)) ls s) /\ created d ls (length (arena d)) d' /\ dstep d d' /\
    cwt d' (length (arena d)) = (if length ls <? 3 then 0%N else (lbd mod 65536)%N).
Proof.
  intros H Hw Hne Hl. destruct (createClause_ok ls lbd false d Hl) as (d' & E).
  exists d'. unfold sub_create. rewrite E. split; [reflexivity|].
  pose proof (createClause_created _ _ _ _ _ _ E) as HC. pose proof (created_dstep _ _ _ _ HC Hne) as HS.
  split; [|split; [auto|split; [auto|]]].
  - assert (Hold : forall i c, wclause s i = Some c -> c < length (arena d)).
    { intros i c Hi. eapply cls_lt; [apply H|]. apply (s_cls _ _ _ H i c Hi). }
    assert (Hocc : forall v i, In i (occs (sub_add (length (arena d)) ls s) v) <->
              In i (occs s v) \/ (i = length (subs s) /\ exists l, In l ls /\ lvar l = v)).
    { intros v i. unfold occs, sub_add; cbn [occ]. apply add_occ_in. intros l Hin. rewrite (s_len _ _ _ H). apply Hw. auto. }
    constructor.
    + eapply createClause_DI; eauto. apply H.
    + eapply created_LenOk; eauto. apply H.
    + intros i c Hi. rewrite wclause_add in Hi. destruct (Nat.eqb_spec i (length (subs s))).
      * inversion Hi; subst. rewrite (clits_new _ _ _ _ HC). split; auto. destruct HC as (_ & _ & -> & _). apply in_or_app; simpl; auto.
      * destruct (s_cls _ _ _ H i c Hi) as [A B]. split; [apply (ds_cls _ _ HS); auto|].
        rewrite (ds_lits _ _ HS); eauto.
    + intros v i c Hin Hi. apply Hocc in Hin. rewrite wclause_add in Hi. destruct (Nat.eqb_spec i (length (subs s))) as [->|Hn].
      * inversion Hi; subst. rewrite (clits_new _ _ _ _ HC). destruct Hin as [Hin|[_ Hin]]; auto.
        apply (s_rng _ _ _ H) in Hin. lia.
      * destruct Hin as [Hin|[Hin _]]; [|contradiction]. rewrite (ds_lits _ _ HS) by eauto. eapply s_occ; eauto.
    + intros i c l Hi Hin. apply Hocc. rewrite wclause_add in Hi. destruct (Nat.eqb_spec i (length (subs s))) as [->|Hn].
      * inversion Hi; subst. rewrite (clits_new _ _ _ _ HC) in Hin. right. split; eauto.
      * left. rewrite (ds_lits _ _ HS) in Hin by eauto. eapply s_full; eauto.
    + intros v i Hin. apply Hocc in Hin. unfold sub_add; cbn [subs]. rewrite app_length; simpl.
      destruct Hin as [Hin|[-> _]]; [apply (s_rng _ _ _ H) in Hin|]; lia.
    + intros v. unfold occs, sub_add; cbn [occ]. apply add_occ_nodup.
      * intros l Hin. rewrite (s_len _ _ _ H). apply Hw. auto.
      * apply Hw.
      * apply (s_nd _ _ _ H).
      * intros l _ Hin. apply (s_rng _ _ _ H) in Hin. lia.
    + intros j k x Hj Hk. rewrite wclause_add in Hj, Hk.
      destruct (Nat.eqb_spec j (length (subs s))); destruct (Nat.eqb_spec k (length (subs s))); try congruence.
      * inversion Hj; subst. apply Hold in Hk. lia.
      * inversion Hk; subst. apply Hold in Hj. lia.
      * eapply (s_inj _ _ _ H); eauto.
    + unfold sub_add; cbn [occ]. rewrite add_occ_length. apply H.
  - unfold createClause in E. destruct (65536 <=? N.of_nat (length ls))%N; [discriminate|]. inversion E as [E1].
    rewrite cwt_awt. cbn [arena]. rewrite awt_new. reflexivity.
Qed.

(** removing *)
Lemma wclause_set s i x j : i < length (subs s) ->
  wclause (mkS (set_nth i x (subs s)) (occ s)) j = if j =? i then x else wclause s j.
Proof.
  intros H. unfold wclause; cbn [subs]. rewrite nth_set_nth. apply Nat.ltb_lt in H. rewrite H, andb_true_r. reflexivity.
Qed.

Definition srem (i : nat) (s : sdb) : sdb := mkS (set_nth i None (subs s)) (occ s).
Lemma wclause_srem s i c j : wclause s i = Some c -> wclause (srem i s) j = if j =? i then None else wclause s j.
Proof. intros H. apply wclause_set. eapply wclause_lt; eauto. Qed.

Lemma sub_remove_SI n i c d s : SI n d s -> wclause s i = Some c ->
  sub_remove i d s = Ok (removeClause c d, srem i s) /\ SI n (removeClause c d) (srem i s) /\ dstep d (removeClause c d).
Proof.
  intros H Hi. unfold sub_remove. rewrite Hi. split; [reflexivity|].
  assert (Hc : c < length (arena d)) by (eapply cls_lt; [apply H|]; apply (s_cls _ _ _ H i c Hi)).
  split; [|apply removeClause_dstep; auto].
  assert (HW : forall j x, wclause (srem i s) j = Some x -> j <> i /\ wclause s j = Some x).
  { intros j x Hj. rewrite (wclause_srem s i c) in Hj by auto. destruct (Nat.eqb_spec j i); [discriminate|auto]. }
  constructor.
  - apply removeClause_DI. apply H.
  - apply remove_LenOk. apply H.
  - intros j x Hj. apply HW in Hj. rewrite clits_remove. apply (s_cls _ _ _ H j). apply Hj.
  - intros v j x Hin Hj. apply HW in Hj. rewrite clits_remove. eapply s_occ; eauto. apply Hj.
  - intros j x l Hj. apply HW in Hj. rewrite clits_remove. intros Hl. eapply (s_full _ _ _ H); eauto. apply Hj.
  - intros v j Hin. unfold srem; cbn [subs]. rewrite set_nth_length. eapply s_rng; eauto.
  - apply (s_nd _ _ _ H).
  - intros j k x Hj Hk. rewrite (wclause_srem s i c) in Hj, Hk by auto. destruct (j =? i); [discriminate|]. destruct (k =? i); [discriminate|].
    eapply (s_inj _ _ _ H); eauto.
  - apply H.
Qed.

Lemma isDeleted_remove c d x : c < length (arena d) -> isDeleted (removeClause c d) x = (x =? c) || isDeleted d x.
Proof. intros H. unfold isDeleted. rewrite cwt_remove by auto. destruct (x =? c); auto. Qed.

Lemma LV_remove c d x : c < length (arena d) -> LV (removeClause c d) x <-> LV d x /\ x <> c.
Proof.
  intros H. unfold LV. rewrite isDeleted_remove, orb_false_iff, Nat.eqb_neq by auto.
  change (cls (removeClause c d)) with (cls d). tauto.
Qed.

Lemma sub_remove_SL n i c d s : SI n d s -> SL d s -> wclause s i = Some c -> SL (removeClause c d) (srem i s).
Proof.
  intros H HL Hi. assert (Hc : c < length (arena d)) by (eapply cls_lt; [apply H|]; apply (s_cls _ _ _ H i c Hi)).
  constructor.
  - intros j x Hj. rewrite (wclause_srem s i c) in Hj by auto. destruct (Nat.eqb_spec j i) as [|Hn]; [discriminate|].
    rewrite isDeleted_remove by auto. rewrite (sl_live _ _ HL j x Hj), orb_false_r. apply Nat.eqb_neq. intros ->.
    apply Hn. apply (sl_inj _ _ HL j i c); auto.
  - intros j k x Hj Hk. rewrite (wclause_srem s i c) in Hj, Hk by auto. destruct (j =? i); [discriminate|]. destruct (k =? i); [discriminate|].
    eapply (sl_inj _ _ HL); eauto.
Qed.

(** strengthening *)
Definition lfilt (l : lit) (ls : list lit) : list lit := filter (fun x => negb (x =? l)) ls.
Definition sstr (i : nat) (c' : cid) (l : lit) (s : sdb) : sdb :=
  mkS (set_nth i (Some c') (subs s)) (filter_at (lvar l) (fun j => negb (j =? i)) (occ s)).
Lemma lfilt_incl l ls : incl (lfilt l ls) ls.
Proof. intros x Hx. apply filter_In in Hx. apply Hx. Qed.
Lemma lfilt_in l ls x : In x (lfilt l ls) <-> In x ls /\ x <> l.
Proof. unfold lfilt. rewrite filter_In, negb_true_iff, Nat.eqb_neq. tauto. Qed.
Lemma lfilt_notin l ls : ~ In l ls -> lfilt l ls = ls.
Proof.
  unfold lfilt. induction ls as [|x r IH]; simpl; intros H; auto.
  destruct (Nat.eqb_spec x l) as [->|Hx]; [tauto|]. simpl. f_equal. auto.
Qed.
Lemma lfilt_len l ls : NoDup (map lvar ls) -> In l ls -> S (length (lfilt l ls)) = length ls.
Proof.
  induction ls as [|x r IH]; simpl; intros Hn H; [destruct H|]. inversion Hn as [|? ? Hi Hr]; subst.
  destruct (Nat.eqb_spec x l) as [->|Hx]; simpl.
  - f_equal. fold (lfilt l r). rewrite lfilt_notin; auto. intros Hl. apply Hi, in_map; auto.
  - destruct H as [H|H]; [contradiction|]. f_equal. apply IH; auto.
Qed.
Lemma lfilt_le l ls : length (lfilt l ls) <= length ls.
Proof. unfold lfilt. induction ls as [|x r IH]; simpl; auto. destruct (x =? l); simpl; lia. Qed.
Lemma lfilt_wfc n l ls : wfc n ls -> wfc n (lfilt l ls).
Proof.
  intros [H1 H2]. split; [|intros x Hx; apply lfilt_incl in Hx; auto].
  induction ls as [|x r IH]; simpl in *; [constructor|]. inversion H1 as [|? ? Hi Hr]; subst.
  destruct (x =? l); simpl; auto. constructor; auto. intros Hm. apply in_map_iff in Hm. destruct Hm as (y & Ey & Hy).
  apply lfilt_incl in Hy. apply Hi. rewrite <- Ey. apply in_map; auto.
Qed.
Lemma lfilt_two l ls : NoDup (map lvar ls) -> 1 < length ls -> lfilt l ls <> [].
Proof.
  intros Hn Hl E. destruct ls as [|x [|y r]]; simpl in Hl; try lia.
  assert (Hx : ~ In x (lfilt l (x :: y :: r))) by (rewrite E; auto).
  assert (Hy : ~ In y (lfilt l (x :: y :: r))) by (rewrite E; auto).
  rewrite lfilt_in in Hx, Hy. simpl in Hx, Hy. destruct (Nat.eq_dec x l) as [->|]; [|tauto].
  destruct (Nat.eq_dec y l) as [->|]; [|tauto]. inversion Hn as [|? ? Hi _]. apply Hi; simpl; auto.
Qed.

Lemma sub_strengthen_SI n i c l d s : SI n d s -> wclause s i = Some c -> 1 < length (clits d c) ->
  In l (clits d c) -> exists d', sub_strengthen i l d s = Ok (d', sstr i (length (arena d)) l s) /\
    SI n d' (sstr i (length (arena d)) l s) /\ dstep d d' /\
    length (arena d') = S (length (arena d)) /\ clits d' (length (arena d)) = lfilt l (clits d c) /\
    (forall x, x < length (arena d) -> LV d' x <-> LV d x /\ x <> c) /\
    (isDeleted d c = false -> LV d' (length (arena d))) /\
    (cwt d c = 0%N -> cwt d' (length (arena d)) = 0%N) /\
    (forall x, x < length (arena d) -> x <> c -> cwt d' x = cwt d x).
Proof.
  intros H Hi Hlen Hlin. pose proof (s_D _ _ _ H) as HD. assert (Hc : In c (cls d)) by (apply (s_cls _ _ _ H i c Hi)).
  assert (Hca : c < length (arena d)) by (eapply cls_lt; eauto).
  pose proof (di_WFA _ _ HD c) as Hwf. change (alits (arena d) c) with (clits d c) in Hwf.
  set (ls := lfilt l (clits d c)). assert (Hw : wfc n ls) by (apply lfilt_wfc; exact Hwf).
  assert (Hne : ls <> []) by (apply lfilt_two; auto; apply Hwf).
  assert (Hll : (N.of_nat (length ls) < 65536)%N).
  { pose proof (s_L _ _ _ H c). pose proof (lfilt_le l (clits d c)). unfold ls. lia. }
  set (lbd := N.min (cwt d c) (N.of_nat (length ls) mod 65536)).
  destruct (createClause_ok ls lbd false d Hll) as (d1 & E1). pose proof (createClause_created _ _ _ _ _ _ E1) as HC.
  pose proof (created_dstep _ _ _ _ HC Hne) as HS1. pose proof (createClause_DI _ _ _ _ _ _ _ HD Hw E1) as HD1.
  assert (L1 : length (arena d1) = S (length (arena d))).
  { destruct HC as (_ & _ & _ & (w & ->) & _). rewrite app_length; simpl; lia. }
  set (N0 := length (arena d)) in *.
  set (d' := removeClause c d1). exists d'.
  assert (E0 : strengthenClause c l d = Ok (N0, d')).
  { change (strengthenClause c l d) with ('(c', d1) <- createClause ls lbd false d ;; Ok (c', removeClause c d1)). rewrite E1. reflexivity. }
  unfold sub_strengthen. rewrite Hi, E0. split; [reflexivity|].
  assert (Hc1 : c < length (arena d1)) by lia.
  pose proof (removeClause_dstep c d1 Hc1) as HS2. pose proof (dstep_trans _ _ _ HS1 HS2) as HS.
  assert (Ew : cwt d1 N0 = if length ls <? 3 then 0%N else (lbd mod 65536)%N).
  { unfold createClause in E1. destruct (65536 <=? N.of_nat (length ls))%N; [discriminate|]. inversion E1 as [E2].
    rewrite cwt_awt. cbn [arena]. unfold N0. rewrite awt_new. reflexivity. }
  assert (Elit : forall x, x < N0 -> clits d' x = clits d x).
  { intros x Hx. unfold d'. rewrite clits_remove. apply (clits_old _ _ _ _ _ HC Hx). }
  assert (Enew : clits d' N0 = ls).
  { unfold d'. rewrite clits_remove. apply (clits_new _ _ _ _ HC). }
  assert (Hwold : forall j x, wclause s j = Some x -> x < N0).
  { intros j x Hj. eapply cls_lt; eauto. apply (s_cls _ _ _ H j x Hj). }
  assert (HWc : forall j, wclause (sstr i N0 l s) j = if j =? i then Some N0 else wclause s j).
  { intros j. unfold sstr. change (wclause (mkS (set_nth i (Some N0) (subs s)) (occ s)) j = if j =? i then Some N0 else wclause s j).
    apply wclause_set. eapply wclause_lt; eauto. }
  assert (Hocc : forall v j, In j (occs (sstr i N0 l s) v) <-> In j (occs s v) /\ (v = lvar l -> j <> i)).
  { intros v j. unfold occs, sstr; cbn [occ]. unfold filter_at. rewrite nth_set_nth.
    destruct (Nat.eqb_spec v (lvar l)) as [->|Hv]; simpl; [|split; [intros A; split; auto; congruence|tauto]].
    destruct (Nat.ltb_spec (lvar l) (length (occ s))) as [Hlt|Hge].
    - rewrite filter_In, negb_true_iff, Nat.eqb_neq. split; [intros [A B]; auto|]. intros [A B]; auto.
    - rewrite nth_overflow by auto. simpl. tauto. }
  split; [|split; [exact HS|split; [unfold d'; rewrite arena_len_remove; exact L1|split; [exact Enew|split; [|split; [|split]]]]]].
  - constructor.
    + apply removeClause_DI; auto.
    + apply remove_LenOk. eapply created_LenOk; eauto. apply H.
    + intros j x Hj. rewrite HWc in Hj. destruct (Nat.eqb_spec j i).
      * inversion Hj; subst. rewrite Enew. split; auto. apply (ds_cls _ _ HS). right. unfold d'. rewrite arena_len_remove. fold N0. lia.
      * rewrite Elit by eauto. destruct (s_cls _ _ _ H j x Hj). split; auto. apply (ds_cls _ _ HS). auto.
    + intros v j x Hin Hj. apply Hocc in Hin. destruct Hin as [Hin Hv]. rewrite HWc in Hj. destruct (Nat.eqb_spec j i) as [->|Hn].
      * inversion Hj; subst. rewrite Enew. destruct (s_occ _ _ _ H v i c Hin Hi) as (m & M1 & M2). exists m. split; auto.
        apply lfilt_in. split; auto. intros ->. apply Hv; auto.
      * rewrite Elit by eauto. eapply s_occ; eauto.
    + intros j x m Hj Hm. apply Hocc. rewrite HWc in Hj. destruct (Nat.eqb_spec j i) as [->|Hn].
      * inversion Hj; subst. rewrite Enew in Hm. apply lfilt_in in Hm. destruct Hm as [Hm Hml]. split; [eapply s_full; eauto|].
        intros Ev _. apply Hml. apply (nodup_var_neq (clits d c)); auto. apply Hwf.
      * split; [|intros _; auto]. rewrite Elit in Hm by eauto. eapply s_full; eauto.
    + intros v j Hin. apply Hocc in Hin. unfold sstr; cbn [subs]. rewrite set_nth_length. eapply s_rng; eauto. apply Hin.
    + intros v. unfold occs, sstr, filter_at; cbn [occ]. rewrite nth_set_nth. destruct ((v =? lvar l) && (lvar l <? length (occ s))).
      * apply NoDup_filter. apply (s_nd _ _ _ H).
      * apply (s_nd _ _ _ H).
    + intros j k x Hj Hk. rewrite HWc in Hj, Hk.
      destruct (Nat.eqb_spec j i); destruct (Nat.eqb_spec k i); try congruence.
      * inversion Hj; subst. apply Hwold in Hk. lia.
      * inversion Hk; subst. apply Hwold in Hj. lia.
      * eapply (s_inj _ _ _ H); eauto.
    + unfold sstr, filter_at; cbn [occ]. rewrite set_nth_length. apply H.
  - intros x Hx. unfold d'. rewrite LV_remove by auto. unfold LV, isDeleted. rewrite (cwt_old _ _ _ _ _ HC Hx).
    destruct HC as (_ & _ & E3 & _ & _). rewrite E3, in_app_iff. simpl. intuition lia.
  - intros Hdel. unfold d'. rewrite LV_remove by auto. split; [|lia]. split.
    + destruct HC as (_ & _ & E3 & _ & _). rewrite E3, in_app_iff. simpl. auto.
    + unfold isDeleted. rewrite Ew. destruct (length ls <? 3); [reflexivity|]. apply N.eqb_neq. unfold lbd, W_DELETED.
      pose proof (lfilt_len l (clits d c) (proj1 Hwf) Hlin). pose proof (s_L _ _ _ H c). fold ls in H0.
      rewrite (N.mod_small (N.of_nat (length ls))) by lia. rewrite N.mod_small by lia. lia.
  - intros H0. unfold d'. rewrite cwt_remove by auto. destruct (Nat.eqb_spec N0 c); [lia|]. rewrite Ew.
    unfold lbd. rewrite H0, N.min_0_l. destruct (length ls <? 3); reflexivity.
  - intros x Hx Hxc. unfold d'. rewrite cwt_remove by auto. apply Nat.eqb_neq in Hxc. rewrite Hxc. apply (cwt_old _ _ _ _ _ HC Hx).
Qed.

(** ** Size of the wrapped clauses *)
Definition wsize (d : db) (o : option cid) : nat := match o with Some c => length (clits d c) | None => 0 end.
Lemma sub_size_sum d s : sub_size d s = fold_right (fun o a => wsize d o + a) 0 (subs s).
Proof. unfold sub_size. induction (subs s) as [|[c|] r IH]; simpl; auto. Qed.
Lemma sub_size_ext d d' s : (forall i c, wclause s i = Some c -> clits d' c = clits d c) -> sub_size d' s = sub_size d s.
Proof.
  rewrite !sub_size_sum. unfold wclause. induction (subs s) as [|o r IH]; simpl; intros H; auto.
  rewrite IH by (intros i c Hi; apply (H (S i) c Hi)). f_equal. destruct o as [c|]; auto. simpl. rewrite (H 0 c); auto.
Qed.
Lemma sub_size_set d s i x o : i < length (subs s) ->
  sub_size d (mkS (set_nth i x (subs s)) o) + wsize d (wclause s i) = sub_size d s + wsize d x.
Proof.
  rewrite !sub_size_sum. cbn [subs]. unfold wclause. revert i. induction (subs s) as [|y r IH]; simpl; intros i H; [lia|].
  destruct i as [|i].
  - unfold set_nth. simpl. lia.
  - specialize (IH i ltac:(lia)). unfold set_nth in *. simpl. lia.
Qed.
Lemma sub_size_add d c ls s : sub_size d (sub_add c ls s) = sub_size d s + length (clits d c).
Proof.
  rewrite !sub_size_sum. cbn [subs sub_add]. induction (subs s) as [|y r IH]; simpl; [lia|]. rewrite IH. lia.
Qed.

(** ** What every simplification step guarantees *)
Definition WR (X : cid -> Prop) (d : db) (s : sdb) : Prop :=
  forall c, LV d c -> (exists i, wclause s i = Some c) \/ X c.

Record spost (n : nat) (d : db) (s : sdb) (d' : db) (s' : sdb) : Prop := {
  sp_SI : SI n d' s';
  sp_step : dstep d d';
  sp_WE : forall P, WE P d s -> WE P d' s' /\ NE P d d';
  sp_SL : SL d s -> SL d' s' /\ Cover d d';
  sp_WR : forall X, SL d s -> WR X d s -> WR X d' s';
  sp_len : length (subs s) <= length (subs s');
  sp_size : sub_size d' s' <= sub_size d s;
  sp_vars : forall i c l, wclause s' i = Some c -> In l (clits d' c) ->
    exists j c0, wclause s j = Some c0 /\ In l (clits d c0) }.

Lemma spost_refl n d s : SI n d s -> spost n d s d s.
Proof.
  intros H. constructor; auto.
  - apply dstep_refl.
  - intros P HW. split; auto. apply NE_refl.
  - intros HL. split; auto. apply Cover_refl.
  - eauto.
Qed.
Lemma spost_trans n d s d1 s1 d2 s2 : spost n d s d1 s1 -> spost n d1 s1 d2 s2 -> spost n d s d2 s2.
Proof.
  intros [A1 A2 A3 A4 A5 A6 A7 A8] [B1 B2 B3 B4 B5 B6 B7 B8]. constructor; auto; try lia.
  - eapply dstep_trans; eauto.
  - intros P HW. destruct (A3 P HW) as [C1 C2]. destruct (B3 P C1) as [C3 C4]. split; auto. eapply NE_trans; eauto.
  - intros HL. destruct (A4 HL) as [C1 C2]. destruct (B4 C1) as [C3 C4]. split; auto. eapply Cover_trans; eauto.
  - intros X HL HX. apply B5; auto. apply A4; auto.
  - intros i c l Hi Hl. destruct (B8 i c l Hi Hl) as (j & c0 & Hj & Hl0). exact (A8 j c0 l Hj Hl0).
Qed.

Lemma remove_size n j cj d s : SI n d s -> wclause s j = Some cj -> sub_size (removeClause cj d) (srem j s) < sub_size d s.
Proof.
  intros H Hj. pose proof (sub_size_set d s j None (occ s) (wclause_lt _ _ _ Hj)) as HZ. cbn [wsize] in HZ. rewrite Hj in HZ. cbn [wsize] in HZ.
  rewrite (sub_size_ext d) by (intros; apply clits_remove). unfold srem.
  destruct (s_cls _ _ _ H j cj Hj) as [_ Hne]. destruct (clits d cj); [congruence|]. cbn [length] in HZ. lia.
Qed.
(** removing a clause that a different wrapped clause subsumes *)
Lemma remove_spost n i j ci cj d s : SI n d s -> wclause s i = Some ci -> wclause s j = Some cj -> i <> j ->
  incl (clits d ci) (clits d cj) -> (SL d s -> cwt d cj = 0%N -> cwt d ci = 0%N) ->
  sub_remove j d s = Ok (removeClause cj d, srem j s) /\ spost n d s (removeClause cj d) (srem j s).
Proof.
  intros H Hi Hj Hn Hincl Hp. destruct (sub_remove_SI n j cj d s H Hj) as (E & HI & HS). split; auto.
  assert (Hc : cj < length (arena d)) by (eapply cls_lt; [apply H|]; apply (s_cls _ _ _ H j cj Hj)).
  assert (HW : forall k x, wclause (srem j s) k = Some x -> k <> j /\ wclause s k = Some x).
  { intros k x Hk. rewrite (wclause_srem s j cj) in Hk by auto. destruct (Nat.eqb_spec k j); [discriminate|auto]. }
  constructor; auto.
  - intros P HP. split.
    + intros k x a Hk Ha. apply HW in Hk. rewrite clits_remove. apply (HP k x a); auto. apply Hk.
    + intros x a Hx. rewrite arena_len_remove in Hx. lia.
  - intros HL. split; [eapply sub_remove_SL; eauto|]. intros x Hx. destruct (Nat.eq_dec x cj) as [->|Hxc].
    + exists ci. rewrite LV_remove, !clits_remove, cwt_remove by auto.
      assert (ci <> cj) by (intros ->; apply Hn; apply (sl_inj _ _ HL i j cj); auto).
      split; [|split; auto].
      * split; auto. split; [apply (s_cls _ _ _ H i ci Hi)|apply (sl_live _ _ HL i ci Hi)].
      * apply Nat.eqb_neq in H0. rewrite H0. auto.
    + exists x. rewrite LV_remove, !clits_remove, cwt_remove by auto. split; auto. split; [apply incl_refl|].
      apply Nat.eqb_neq in Hxc. rewrite Hxc. auto.
  - intros X HL HX x Hx. rewrite LV_remove in Hx by auto. destruct Hx as [Hx Hxc]. destruct (HX x Hx) as [(k & Hk)|Hk]; auto.
    left. exists k. rewrite (wclause_srem s j cj) by auto. destruct (Nat.eqb_spec k j) as [->|]; auto. congruence.
  - unfold srem; cbn [subs]. rewrite set_nth_length. auto.
  - pose proof (sub_size_set d s j None (occ s) (wclause_lt _ _ _ Hj)) as HZ. cbn [wsize] in HZ.
    rewrite (sub_size_ext d) by (intros; apply clits_remove). unfold srem. lia.
  - intros k x l Hk Hl. apply HW in Hk. rewrite clits_remove in Hl. exists k, x. split; [apply Hk|auto].
Qed.

(** replacing a clause by one without a literal, when that is implied *)
Lemma strengthen_gen n i c l d s : SI n d s -> wclause s i = Some c -> 1 < length (clits d c) -> In l (clits d c) ->
  exists d' s', sub_strengthen i l d s = Ok (d', s') /\
    (SI n d' s' /\ dstep d d' /\
     (forall P, WE P d s -> (forall a, P a -> sat_clause a (lfilt l (clits d c))) -> WE P d' s' /\ NE P d d') /\
     (SL d s -> SL d' s' /\ Cover d d') /\ (forall X, SL d s -> WR X d s -> WR X d' s') /\ length (subs s) <= length (subs s') /\
     (forall j x y, wclause s' j = Some x -> In y (clits d' x) -> exists k c0, wclause s k = Some c0 /\ In y (clits d c0))) /\ sub_size d' s' < sub_size d s /\
    (forall j, live s' j = live s j) /\ s' = sstr i (length (arena d)) l s /\ clits d' (length (arena d)) = lfilt l (clits d c).
Proof.
  intros H Hi Hlen Hl. destruct (sub_strengthen_SI n i c l d s H Hi Hlen Hl) as (d' & E & HI & HS & EL & Enew & HLV & Hnew & Hw0 & Hwo).
  set (N0 := length (arena d)) in *. exists d', (sstr i N0 l s). split; auto.
  assert (HWc : forall j, wclause (sstr i N0 l s) j = if j =? i then Some N0 else wclause s j).
  { intros j. unfold sstr. change (wclause (mkS (set_nth i (Some N0) (subs s)) (occ s)) j = if j =? i then Some N0 else wclause s j).
    apply wclause_set. eapply wclause_lt; eauto. }
  assert (Hwold : forall j x, wclause s j = Some x -> x < N0).
  { intros j x Hj. eapply cls_lt; [apply H|]. apply (s_cls _ _ _ H j x Hj). }
  assert (Hsz : sub_size d' (sstr i N0 l s) < sub_size d s).
  { pose proof (sub_size_set d' s i (Some N0) (filter_at (lvar l) (fun j => negb (j =? i)) (occ s)) (wclause_lt _ _ _ Hi)) as HZ.
    cbn [wsize] in HZ. rewrite Enew, Hi in HZ. cbn [wsize] in HZ.
    rewrite (sub_size_ext d d' s) in HZ by (intros j x Hj; apply (ds_lits _ _ HS); eauto).
    rewrite (ds_lits _ _ HS) in HZ by eauto.
    assert (HZ2 : S (length (lfilt l (clits d c))) = length (clits d c)) by (apply lfilt_len; auto; exact (proj1 (di_WFA _ _ (s_D _ _ _ H) c))).
    assert (G : forall A B C D, A + B = C + D -> S D = B -> A < C) by (clear; intros; lia). exact (G _ _ _ _ HZ HZ2). }
  split; [|split; [auto|split; [|auto]]].
  - split; [auto|]. split; [auto|]. split; [|split; [|split; [|split]]].
    + intros P HP Himp. assert (HN : NE P d d').
      { intros x a Hx Ha. fold N0 in Hx. rewrite EL in Hx. assert (x = N0) by lia. subst x. rewrite Enew. apply Himp; auto. }
      split; auto. intros j x a Hj Ha. rewrite HWc in Hj. destruct (Nat.eqb_spec j i).
      * inversion Hj; subst. apply HN; auto. fold N0. lia.
      * rewrite (ds_lits _ _ HS) by (eapply Hwold; eauto). apply (HP j); auto.
    + intros HL. split.
      * constructor.
        -- intros j x Hj. rewrite HWc in Hj. destruct (Nat.eqb_spec j i) as [->|Hn].
           ++ inversion Hj; subst. apply Hnew. apply (sl_live _ _ HL i c Hi).
           ++ apply (HLV x ltac:(eapply Hwold; eauto)). split; [split|].
              ** apply (s_cls _ _ _ H j x Hj).
              ** apply (sl_live _ _ HL j x Hj).
              ** intros ->. apply Hn. apply (sl_inj _ _ HL j i c); auto.
        -- intros j k x Hj Hk. rewrite HWc in Hj, Hk. destruct (Nat.eqb_spec j i) as [->|Hn]; destruct (Nat.eqb_spec k i) as [->|Hm]; auto.
           ++ inversion Hj; subst. apply Hwold in Hk. lia.
           ++ inversion Hk; subst. apply Hwold in Hj. lia.
           ++ apply (sl_inj _ _ HL j k x); auto.
      * intros x Hx. assert (HxN : x < N0) by (eapply cls_lt; [apply H|apply Hx]).
        destruct (Nat.eq_dec x c) as [->|Hxc].
        -- exists N0. rewrite Enew. split; [apply Hnew; apply Hx|]. split; [apply lfilt_incl|auto].
        -- exists x. rewrite (ds_lits _ _ HS), (Hwo x HxN Hxc) by auto. split; [apply HLV; auto|]. split; [apply incl_refl|auto].
    + intros X HL HX x Hx. destruct (Nat.lt_ge_cases x N0) as [HxN|HxN].
      * apply (HLV x HxN) in Hx. destruct Hx as [Hx Hxc]. destruct (HX x Hx) as [(k & Hk)|Hk]; auto. left. exists k. rewrite HWc.
        destruct (Nat.eqb_spec k i) as [->|]; auto. congruence.
      * left. exists i. rewrite HWc, Nat.eqb_refl. f_equal. destruct Hx as [Hx _]. apply (cls_lt _ _ _ (s_D _ _ _ HI)) in Hx. rewrite EL in Hx. lia.
    + unfold sstr; cbn [subs]. rewrite set_nth_length. auto.
    + intros j x y Hj Hy. rewrite HWc in Hj. destruct (Nat.eqb_spec j i).
      * inversion Hj; subst x. rewrite Enew in Hy. apply lfilt_incl in Hy. eauto.
      * rewrite (ds_lits _ _ HS) in Hy by (eapply Hwold; eauto). eauto.
  - intros j. unfold live. rewrite HWc. destruct (Nat.eqb_spec j i) as [->|]; auto. rewrite Hi. auto.
Qed.

Lemma strengthen_spost n i c l d s : SI n d s -> wclause s i = Some c -> 1 < length (clits d c) -> In l (clits d c) ->
  (forall P, WE P d s -> forall a, P a -> sat_clause a (lfilt l (clits d c))) ->
  exists d' s', sub_strengthen i l d s = Ok (d', s') /\ spost n d s d' s' /\ sub_size d' s' < sub_size d s /\
    (forall j, live s' j = live s j) /\ s' = sstr i (length (arena d)) l s /\ clits d' (length (arena d)) = lfilt l (clits d c).
Proof.
  intros H Hi Hlen Hl Himp. destruct (strengthen_gen n i c l d s H Hi Hlen Hl) as (d' & s' & E & (G1 & G2 & G3 & G4 & G5 & G6 & G7) & Hsz & R).
  exists d', s'. split; auto. split; [|split; [exact Hsz|exact R]]. constructor; auto; [|apply Nat.lt_le_incl; exact Hsz]. intros P HP. apply G3; [auto|]. intros a Ha. apply (Himp P HP a Ha).
Qed.

(** ** Unit resolution *)
Lemma existsb_eqb_in l ls : existsb (Nat.eqb l) ls = true <-> In l ls.
Proof.
  rewrite existsb_exists. split; [intros (x & H & E); apply Nat.eqb_eq in E; subst; auto|]. intros H. exists l. split; auto. apply Nat.eqb_refl.
Qed.

Lemma live_some s i : live s i = true -> exists c, wclause s i = Some c.
Proof. unfold live. destruct (wclause s i); [eauto|discriminate]. Qed.

Lemma unit_loop_spec n i c unit os : forall d s, SI n d s -> wclause s i = Some c -> clits d c = [unit] ->
  NoDup os -> (forall o co, In o os -> wclause s o = Some co -> exists l, In l (clits d co) /\ lvar l = lvar unit) ->
  exists b d' s', unit_loop i unit os d s = Ok (b, d', s') /\ spost n d s d' s' /\
    (b = false -> forall P a, WE P d s -> ~ P a).
Proof.
  induction os as [|o r IH]; intros d s H Hi Hu Hnd Hv; cbn [unit_loop].
  - exists true, d, s. split; [reflexivity|]. split; [apply spost_refl; auto|discriminate].
  - inversion Hnd as [|? ? Hor Hndr]; subst. destruct (Nat.eqb_spec o i) as [->|Hoi]; cbn [negb andb].
    { apply IH; auto; intros; eapply Hv; simpl; eauto. }
    destruct (live s o) eqn:Hlo; [|apply IH; auto; intros; eapply Hv; simpl; eauto].
    apply live_some in Hlo. destruct Hlo as (co & Ho). unfold wlits. rewrite Ho.
    assert (Hcn : c < length (arena d)) by (eapply cls_lt; [apply H|]; apply (s_cls _ _ _ H i c Hi)).
    destruct (existsb (Nat.eqb unit) (clits d co)) eqn:Eu.
    + apply existsb_eqb_in in Eu.
      destruct (remove_spost n i o c co d s H Hi Ho) as (E & HP); auto.
      { rewrite Hu. intros x [<-|[]]; auto. }
      { intros HL _. destruct (di_small _ _ (s_D _ _ _ H) c) as [|Ed]; auto.
        - apply (di_cls _ _ (s_D _ _ _ H)). apply (s_cls _ _ _ H i c Hi).
        - rewrite Hu. simpl. lia.
        - pose proof (sl_live _ _ HL i c Hi) as Hl. unfold isDeleted in Hl. rewrite Ed in Hl. discriminate. }
      rewrite E. cbn [bind]. destruct (IH (removeClause co d) (srem o s)) as (b & d' & s' & E' & HP' & Hf).
      * apply HP.
      * rewrite (wclause_srem s o co) by auto. apply not_eq_sym in Hoi. apply Nat.eqb_neq in Hoi. rewrite Hoi. auto.
      * rewrite clits_remove. auto.
      * auto.
      * intros x cx Hx Hw. rewrite clits_remove. rewrite (wclause_srem s o co) in Hw by auto. destruct (x =? o); [discriminate|].
        eapply Hv; simpl; eauto.
      * exists b, d', s'. split; auto. split; [eapply spost_trans; eauto|].
        intros Hb P a HW. apply (Hf Hb P a). apply HP; auto.
    + assert (Hnu : ~ In unit (clits d co)) by (rewrite <- existsb_eqb_in, Eu; discriminate).
      assert (Hneg : In (lneg unit) (clits d co)).
      { destruct (Hv o co (or_introl eq_refl) Ho) as (m & M1 & M2). apply same_var in M2. destruct M2 as [->| ->]; auto. contradiction. }
      destruct (Nat.eqb_spec (length (clits d co)) 1) as [E1|E1].
      * exists false, d, s. split; [reflexivity|]. split; [apply spost_refl; auto|]. intros _ P a HW Ha.
        pose proof (HW i c a Hi Ha) as S1. pose proof (HW o co a Ho Ha) as S2. rewrite Hu in S1.
        destruct S1 as (x & [<-|[]] & Hx). destruct S2 as (y & Hy & Hya).
        destruct (clits d co) as [|z [|z' r']]; simpl in E1; try lia. destruct Hneg as [->|[]]. destruct Hy as [<-|[]].
        apply lit_holds_neg in Hya. auto.
      * assert (Hlen : 1 < length (clits d co)).
        { destruct (clits d co) as [|z [|z' r']]; simpl in *; try lia. }
        destruct (strengthen_spost n o co (lneg unit) d s H Ho Hlen Hneg) as (d1 & s1 & E & HP & Hsz & Hliv & Es & Enew).
        { intros P HW a Ha. pose proof (HW i c a Hi Ha) as S1. rewrite Hu in S1. destruct S1 as (x & [<-|[]] & Hx).
          destruct (HW o co a Ho Ha) as (y & Hy & Hya). exists y. split; auto. apply lfilt_in. split; auto. intros ->.
          apply lit_holds_neg in Hya. auto. }
        rewrite E. cbn [bind].
        assert (HWc : forall j, wclause s1 j = if j =? o then Some (length (arena d)) else wclause s j).
        { intros j. subst s1. unfold sstr. change (wclause (mkS (set_nth o (Some (length (arena d))) (subs s)) (occ s)) j = if j =? o then Some (length (arena d)) else wclause s j).
          apply wclause_set. eapply wclause_lt; eauto. }
        destruct (IH d1 s1) as (b & d' & s' & E' & HP' & Hf).
        -- apply HP.
        -- rewrite HWc. apply not_eq_sym in Hoi. apply Nat.eqb_neq in Hoi. rewrite Hoi. exact Hi.
        -- rewrite (ds_lits _ _ (sp_step _ _ _ _ _ HP)) by auto. auto.
        -- auto.
        -- intros x cx Hx Hw. rewrite HWc in Hw. destruct (Nat.eqb_spec x o) as [->|Hxo]; [contradiction|].
           rewrite (ds_lits _ _ (sp_step _ _ _ _ _ HP)); [eapply Hv; simpl; eauto|]. eapply cls_lt; [apply H|]. apply (s_cls _ _ _ H x cx Hw).
        -- exists b, d', s'. split; auto. split; [eapply spost_trans; eauto|].
           intros Hb P a HW. apply (Hf Hb P a). apply HP; auto.
Qed.

Lemma unit_resolution_spec n i c d s : SI n d s -> wclause s i = Some c -> length (clits d c) = 1 ->
  exists b d' s', unit_resolution i d s = Ok (b, d', s') /\ spost n d s d' s' /\
    (b = false -> forall P a, WE P d s -> ~ P a).
Proof.
  intros H Hi Hl. unfold unit_resolution, wlits. rewrite Hi.
  destruct (clits d c) as [|u [|u' r]] eqn:E; try discriminate.
  eapply unit_loop_spec; eauto.
  - apply (s_nd _ _ _ H).
  - intros o co Ho Hw. eapply s_occ; eauto.
Qed.

(** ** Subsumption of one clause *)
(** re-creating a learnt clause as persistent and dropping the original *)
Lemma recreate_spost n i c d s : SI n d s -> wclause s i = Some c ->
  exists d1 d2, sub_create (clits d c) 0 d s = Ok (length (subs s), d1, sub_add (length (arena d)) (clits d c) s) /\
    sub_remove i d1 (sub_add (length (arena d)) (clits d c) s) = Ok (d2, srem i (sub_add (length (arena d)) (clits d c) s)) /\
    spost n d s d2 (srem i (sub_add (length (arena d)) (clits d c) s)) /\
    clits d2 (length (arena d)) = clits d c /\ cwt d2 (length (arena d)) = 0%N.
Proof.
  intros H Hi. destruct (s_cls _ _ _ H i c Hi) as [Hc Hne].
  assert (Hca : c < length (arena d)) by (eapply cls_lt; [apply H|auto]).
  destruct (sub_create_SI n (clits d c) 0 d s H (di_WFA _ _ (s_D _ _ _ H) c) Hne (s_L _ _ _ H c)) as (d1 & E1 & HI1 & HC & HS & Hw).
  set (N0 := length (arena d)) in *. set (s1 := sub_add N0 (clits d c) s) in *.
  assert (Hw0 : cwt d1 N0 = 0%N) by (rewrite Hw; destruct (length (clits d c) <? 3); reflexivity).
  assert (L1 : length (arena d1) = S N0).
  { destruct HC as (_ & _ & _ & (w & ->) & _). rewrite app_length; simpl. unfold N0. lia. }
  assert (Hil : i < length (subs s)) by (eapply wclause_lt; eauto).
  assert (HW1 : forall j, wclause s1 j = if j =? length (subs s) then Some N0 else wclause s j) by (intros; apply wclause_add).
  assert (Hi1 : wclause s1 i = Some c) by (rewrite HW1; destruct (Nat.eqb_spec i (length (subs s))); auto; lia).
  assert (Hj1 : wclause s1 (length (subs s)) = Some N0) by (rewrite HW1, Nat.eqb_refl; auto).
  assert (Hcl : clits d1 c = clits d c) by (apply (ds_lits _ _ HS); auto).
  assert (Hcn : clits d1 N0 = clits d c) by (apply (clits_new _ _ _ _ HC)).
  assert (HinN : In N0 (cls d1)) by (apply (ds_cls _ _ HS); right; unfold N0 in *; lia).
  assert (HLN : LV d1 N0) by (split; auto; unfold isDeleted; rewrite Hw0; reflexivity).
  destruct (remove_spost n (length (subs s)) i N0 c d1 s1 HI1 Hj1 Hi1) as (E2 & HP).
  { lia. } { rewrite Hcl, Hcn. apply incl_refl. } { auto. }
  exists d1, (removeClause c d1). split; auto. split; auto.
  assert (Hold : forall x, LV d x -> LV d1 x).
  { intros x [X1 X2]. split; [apply (ds_cls _ _ HS); auto|]. assert (x < length (arena d)) by (eapply cls_lt; [apply H|auto]).
    unfold isDeleted. rewrite (cwt_old _ _ _ _ _ HC) by auto. auto. }
  split; [|split; [rewrite clits_remove; auto|]].
  - destruct HP as [A1 A2 A3 A4 A5 A6 A7 A8].
    assert (HSL1 : SL d s -> SL d1 s1).
    { intros HL. assert (Hb : forall j x, wclause s j = Some x -> x < N0).
      { intros j x Hj. eapply cls_lt; [apply H|]. apply (s_cls _ _ _ H j x Hj). }
      constructor.
      - intros j x Hj. rewrite HW1 in Hj. destruct (j =? length (subs s)).
        + inversion Hj; subst. apply HLN.
        + apply Hold. split; [apply (s_cls _ _ _ H j x Hj)|apply (sl_live _ _ HL j x Hj)].
      - intros j k x Hj Hk. rewrite HW1 in Hj, Hk.
        destruct (Nat.eqb_spec j (length (subs s))); destruct (Nat.eqb_spec k (length (subs s))); try congruence.
        + inversion Hj; subst. apply Hb in Hk. lia.
        + inversion Hk; subst. apply Hb in Hj. lia.
        + eapply (sl_inj _ _ HL); eauto. }
    constructor; auto.
    + eapply dstep_trans; eauto.
    + intros P HW. assert (HN : NE P d d1).
      { intros x a Hx Ha. fold N0 in Hx. rewrite L1 in Hx. assert (x = N0) by lia. subst x. rewrite Hcn. apply (HW i); auto. }
      destruct (A3 P) as [B1 B2].
      * intros j x a Hj Ha. rewrite HW1 in Hj. destruct (Nat.eqb_spec j (length (subs s))).
        -- inversion Hj; subst. apply HN; auto. fold N0. lia.
        -- rewrite (ds_lits _ _ HS); [apply (HW j); auto|]. eapply cls_lt; [apply H|]. apply (s_cls _ _ _ H j x Hj).
      * split; auto. eapply NE_trans; eauto.
    + intros HL. destruct (A4 (HSL1 HL)) as [B1 B2]. split; auto. eapply Cover_trans; [|exact B2].
      intros x Hx. exists x. assert (x < length (arena d)) by (eapply cls_lt; [apply H|apply Hx]).
      rewrite (ds_lits _ _ HS), (cwt_old _ _ _ _ _ HC) by auto. split; auto. split; [apply incl_refl|auto].
    + intros X HL HX. apply A5; auto. intros x Hx. destruct (Nat.lt_ge_cases x N0) as [HxN|HxN].
      * destruct (HX x) as [(k & Hk)|Hk]; auto.
        -- destruct Hx as [X1 X2]. split; [apply (ds_cls _ _ HS) in X1; destruct X1; auto; unfold N0 in *; lia|].
           unfold isDeleted in *. rewrite (cwt_old _ _ _ _ _ HC) in X2; auto.
        -- left. exists k. rewrite HW1. destruct (Nat.eqb_spec k (length (subs s))) as [->|]; auto. apply wclause_lt in Hk. lia.
      * left. exists (length (subs s)). rewrite Hj1. f_equal. destruct Hx as [Hx _]. apply (cls_lt _ _ _ (s_D _ _ _ HI1)) in Hx. lia.
    + unfold s1, srem, sub_add; cbn [subs]. rewrite set_nth_length, app_length. simpl. lia.
    + pose proof (sub_size_set d1 s1 i None (occ s1) (wclause_lt _ _ _ Hi1)) as HZ. cbn [wsize] in HZ. rewrite Hi1 in HZ. cbn [wsize] in HZ.
      rewrite (sub_size_ext d1) by (intros; apply clits_remove). unfold srem.
      pose proof (sub_size_add d1 N0 (clits d c) s) as HA. fold s1 in HA. rewrite HA in HZ. clear HA. rewrite (sub_size_ext d d1 s) in HZ.
      2: { intros j x Hj. apply (ds_lits _ _ HS). eapply cls_lt; [apply H|]. apply (s_cls _ _ _ H j x Hj). }
      rewrite Hcl, Hcn in HZ.
      assert (G : forall A B C, A + B = C + B + 0 -> A <= C) by (clear; intros; lia). apply (G _ (length (clits d c))). etransitivity; [exact HZ|reflexivity].
    + intros j x l Hj Hl. destruct (A8 j x l Hj Hl) as (k & y & Hk & Hy). rewrite HW1 in Hk. destruct (k =? length (subs s)).
      * inversion Hk; subst y. rewrite Hcn in Hy. eauto.
      * rewrite (ds_lits _ _ HS) in Hy; [eauto|]. eapply cls_lt; [apply H|]. apply (s_cls _ _ _ H k y Hk).
  - rewrite cwt_remove by lia. destruct (Nat.eqb_spec N0 c); [unfold N0 in *; lia|auto].
Qed.

Section Scan.
Variable ptr_lt : db -> cid -> cid -> bool.

Lemma sub_scan_full n i0 os : forall i d s cnt, SI n d s -> live s i = true ->
  i0 = i \/ (forall c, wclause s i = Some c -> cwt d c = 0%N) ->
  exists e d' s' cnt', sub_scan ptr_lt i0 i os d s cnt = Ok (e, d', s', cnt') /\ spost n d s d' s' /\
    match e with
    | ScDone => True
    | ScRec o => live s' o = true /\ sub_size d' s' < sub_size d s
    | ScFail => forall P a, WE P d s -> ~ P a
    end /\ (e <> ScFail -> sub_size d' s' + sub_nTouched cnt' <= sub_size d s + sub_nTouched cnt).
Proof.
  induction os as [|o r IH]; intros i d s cnt H Hi H0; cbn [sub_scan].
  - exists ScDone, d, s, cnt. split; [reflexivity|]. split; [apply spost_refl; auto|]. split; auto.
  - destruct (Nat.eqb_spec o i) as [->|Hoi].
    { apply IH; auto. }
    destruct (wclause s o) as [co|] eqn:Ho; [|apply IH; auto].
    destruct (live_some _ _ Hi) as (ci & Eci). rewrite Eci.
    assert (Hwi : NoDup (map lvar (clits d ci))) by apply (di_WFA _ _ (s_D _ _ _ H) ci).
    assert (Hwo : NoDup (map lvar (clits d co))) by apply (di_WFA _ _ (s_D _ _ _ H) co).
    pose proof (subsumes_spec _ _ Hwi Hwo) as HSub.
    assert (Hcont : forall d1 s1 i1 cnt1, spost n d s d1 s1 -> live s1 i1 = true ->
       i0 = i1 \/ (forall c, wclause s1 i1 = Some c -> cwt d1 c = 0%N) ->
       sub_size d1 s1 + sub_nTouched cnt1 <= sub_size d s + sub_nTouched cnt ->
       exists e d' s' cnt', sub_scan ptr_lt i0 i1 r d1 s1 cnt1 = Ok (e, d', s', cnt') /\ spost n d s d' s' /\
       match e with
       | ScDone => True
       | ScRec o => live s' o = true /\ sub_size d' s' < sub_size d s
       | ScFail => forall P a, WE P d s -> ~ P a
       end /\ (e <> ScFail -> sub_size d' s' + sub_nTouched cnt' <= sub_size d s + sub_nTouched cnt)).
    { intros d1 s1 i1 cnt1 HP Hl1 H1 Hc1. destruct (IH i1 d1 s1 cnt1 (sp_SI _ _ _ _ _ HP) Hl1 H1) as (e & d' & s' & cnt' & E & HP' & HE & HN).
      exists e, d', s', cnt'. split; auto. split; [eapply spost_trans; eauto|]. split; [|intros He; specialize (HN He); lia]. destruct e; auto.
      - split; [apply HE|]. pose proof (sp_size _ _ _ _ _ HP). destruct HE. lia.
      - intros P a HW. apply HE. apply (sp_WE _ _ _ _ _ HP); auto. }
    assert (Hco : co < length (arena d)) by (eapply cls_lt; [apply H|]; apply (s_cls _ _ _ H o co Ho)).
    assert (Hne : ci <> co) by (intros ->; apply Hoi; eapply (s_inj _ _ _ H); eauto).
    destruct (subsumes (clits d ci) (clits d co)) as [| |l].
    + apply Hcont; auto; try lia. apply spost_refl; auto.
    + assert (Hrem : (cwt d co = 0%N -> cwt d ci = 0%N) -> forall cnt1, sub_nTouched cnt1 <= S (sub_nTouched cnt) ->
       exists e d' s' cnt', ('(d1, s1) <- sub_remove o d s;; sub_scan ptr_lt i0 i r d1 s1 cnt1) = Ok (e, d', s', cnt') /\ spost n d s d' s' /\
       match e with
       | ScDone => True
       | ScRec o => live s' o = true /\ sub_size d' s' < sub_size d s
       | ScFail => forall P a, WE P d s -> ~ P a
       end /\ (e <> ScFail -> sub_size d' s' + sub_nTouched cnt' <= sub_size d s + sub_nTouched cnt)).
      { intros Hp cnt1 Hc1. destruct (remove_spost n i o ci co d s H Eci Ho) as (E & HP); auto.
        rewrite E. cbn [bind]. assert (HZ := remove_size n o co d s H Ho). apply Hcont; auto; try lia.
        - unfold live. rewrite (wclause_srem s o co) by auto. apply not_eq_sym, Nat.eqb_neq in Hoi. rewrite Hoi, Eci. auto.
        - destruct H0 as [->|H0]; auto. right. intros c. rewrite (wclause_srem s o co) by auto. apply not_eq_sym, Nat.eqb_neq in Hoi. rewrite Hoi.
          intros Hc. rewrite cwt_remove by auto. rewrite Hc in Eci. inversion Eci; subst c. apply Nat.eqb_neq in Hne. rewrite Hne. auto. }
      destruct ((length (clits d ci) =? length (clits d co)) && _) eqn:Ed.
      * apply Hrem; [|unfold sub_nTouched; cbn [nSubsumed nStrengthened]; lia]. intros E0. rewrite E0 in Ed. apply andb_true_iff in Ed. destruct Ed as [_ Ed]. apply orb_true_iff in Ed. destruct Ed as [Ed|Ed].
        -- apply N.ltb_lt in Ed. lia.
        -- apply andb_true_iff in Ed. destruct Ed as [Ed _]. apply N.eqb_eq in Ed. auto.
      * cbv zeta. destruct (isPersistent d co && isLearnt d ci) eqn:Ep.
        -- apply andb_true_iff in Ep. destruct Ep as [_ Ep]. unfold isLearnt in Ep. apply N.ltb_lt in Ep.
           destruct H0 as [->|H0]; [|rewrite (H0 _ Eci) in Ep; lia].
           destruct (recreate_spost n i ci d s H Eci) as (d1 & d2 & E1 & E2 & HP & Hl2 & Hw2).
           rewrite E1. cbn [bind]. rewrite E2. cbn [bind].
           set (s2 := srem i (sub_add (length (arena d)) (clits d ci) s)) in *.
           assert (Hol : o < length (subs s)) by (eapply wclause_lt; eauto).
           assert (Hil : i < length (subs s)) by (eapply wclause_lt; eauto).
           assert (HW2 : forall j, wclause s2 j = if j =? i then None else if j =? length (subs s) then Some (length (arena d)) else wclause s j).
           { intros j. unfold s2. rewrite (wclause_srem _ i ci).
             - rewrite wclause_add. reflexivity.
             - rewrite wclause_add. destruct (Nat.eqb_spec i (length (subs s))); auto. lia. }
           assert (Ho2 : wclause s2 o = Some co).
           { rewrite HW2. destruct (Nat.eqb_spec o i); [contradiction|]. destruct (Nat.eqb_spec o (length (subs s))); [lia|auto]. }
           assert (Hn2 : wclause s2 (length (subs s)) = Some (length (arena d))).
           { rewrite HW2. destruct (Nat.eqb_spec (length (subs s)) i); [lia|]. rewrite Nat.eqb_refl. auto. }
           assert (Hco2 : clits d2 co = clits d co) by (apply (ds_lits _ _ (sp_step _ _ _ _ _ HP)); auto).
           destruct (remove_spost n (length (subs s)) o _ co d2 s2 (sp_SI _ _ _ _ _ HP) Hn2 Ho2) as (E3 & HP3); auto.
           { lia. } { rewrite Hl2, Hco2. auto. }
           rewrite E3. cbn [bind]. assert (HZ := remove_size n o co d2 s2 (sp_SI _ _ _ _ _ HP) Ho2). assert (HZ2 := sp_size _ _ _ _ _ HP).
           assert (Hnl : length (subs s) <> o) by lia. apply Nat.eqb_neq in Hnl.
           apply Hcont.
           ++ eapply spost_trans; eauto.
           ++ unfold live. rewrite (wclause_srem s2 o co) by auto. rewrite Hnl, Hn2. auto.
           ++ right. intros c. rewrite (wclause_srem s2 o co) by auto. rewrite Hnl, Hn2. intros Ec; inversion Ec; subst c.
              rewrite cwt_remove by (eapply Nat.lt_le_trans; [exact Hco|apply (ds_len _ _ (sp_step _ _ _ _ _ HP))]).
              destruct (Nat.eqb_spec (length (arena d)) co); auto. lia.
           ++ unfold sub_nTouched in *. cbn [nSubsumed nStrengthened]. lia.
        -- apply Hrem; [|unfold sub_nTouched; cbn [nSubsumed nStrengthened]; lia]. intros E0. apply andb_false_iff in Ep. unfold isPersistent, isLearnt in Ep. rewrite E0 in Ep.
           destruct Ep as [Ep|Ep]; [discriminate|]. apply N.ltb_ge in Ep. lia.
    + cbv zeta. destruct (1 <? length (clits d co)) eqn:El.
      * apply Nat.ltb_lt in El.
        destruct (strengthen_spost n o co (lneg l) d s H Ho El) as (d1 & s1 & E & HP & Hsz & Hliv & _).
        { exact (proj1 (proj2 HSub)). }
        { intros P HW a Ha. apply flipped_resolve with (cs := clits d ci); auto; [apply (HW i)|apply (HW o)]; auto. }
        rewrite E. cbn [bind]. exists (ScRec o), d1, s1. eexists. split; [reflexivity|]. split; auto. split; [split; auto; rewrite Hliv; unfold live; rewrite Ho; auto|]. intros _. unfold sub_nTouched in *. cbn [nSubsumed nStrengthened]. lia.
      * apply Nat.ltb_ge in El. exists ScFail, d, s. eexists. split; [reflexivity|]. split; [apply spost_refl; auto|]. split; [|congruence].
        intros P a HW Ha. destruct HSub as (S1 & S2 & S3).
        pose proof (HW i ci a Eci Ha) as (x & X1 & X2). pose proof (HW o co a Ho Ha) as (y & Y1 & Y2).
        assert (Hone : forall z, In z (clits d co) -> z = lneg l).
        { destruct (clits d co) as [|z [|z' t]]; simpl in El, S2 |- *; try lia; intuition congruence. }
        apply Hone in Y1. subst y. destruct (Nat.eq_dec x l) as [->|Hx].
        -- apply lit_holds_neg in Y2. auto.
        -- assert (x = lneg l) by (apply Hone; auto). subst x. apply (nodup_no_compl (clits d ci) l); auto.
Qed.

Lemma sub_scan_spec n i0 os : forall i d s cnt, SI n d s -> live s i = true ->
  i0 = i \/ (forall c, wclause s i = Some c -> cwt d c = 0%N) ->
  exists e d' s' cnt', sub_scan ptr_lt i0 i os d s cnt = Ok (e, d', s', cnt') /\ spost n d s d' s' /\
    match e with
    | ScDone => True
    | ScRec o => live s' o = true /\ sub_size d' s' < sub_size d s
    | ScFail => forall P a, WE P d s -> ~ P a
    end.
Proof.
  intros i d s cnt H1 H2 H3. destruct (sub_scan_full n i0 os i d s cnt H1 H2 H3) as (e & d' & s' & cnt' & E & HP & HE & _). exists e, d', s', cnt'. auto.
Qed.

Lemma subsume_clause_full n fuel : forall i d s cnt, SI n d s -> live s i = true -> sub_size d s < fuel ->
  exists b d' s' cnt', subsume_clause ptr_lt fuel i d s cnt = Ok (b, d', s', cnt') /\ spost n d s d' s' /\
    (b = false -> forall P a, WE P d s -> ~ P a) /\
    (b = true -> sub_size d' s' + sub_nTouched cnt' <= sub_size d s + sub_nTouched cnt).
Proof.
  induction fuel as [|f IH]; intros i d s cnt H Hi Hf; [lia|]. cbn [subsume_clause].
  destruct (live_some _ _ Hi) as (c & Ec). destruct (s_cls _ _ _ H i c Ec) as [_ Hne].
  unfold wlits. rewrite Ec. destruct (clits d c) as [|l0 r]; [congruence|]. cbv zeta.
  destruct (sub_scan_full n i (occs s (lvar (min_occ s l0 r))) i d s cnt H Hi (or_introl eq_refl)) as (e & d1 & s1 & cnt1 & E & HP & HE & HN).
  rewrite E. cbn [bind]. destruct e as [|o|].
  - exists true, d1, s1, cnt1. split; [reflexivity|]. split; [auto|]. split; [discriminate|]. intros _. apply HN. discriminate.
  - destruct HE as [HE1 HE2]. destruct (IH o d1 s1 cnt1 (sp_SI _ _ _ _ _ HP) HE1 ltac:(lia)) as (b & d2 & s2 & cnt2 & E2 & HP2 & Hb & HN2).
    exists b, d2, s2, cnt2. split; auto. split; [eapply spost_trans; eauto|]. split.
    + intros Eb P a HW. apply Hb; auto. apply (sp_WE _ _ _ _ _ HP); auto.
    + intros Eb. specialize (HN2 Eb). specialize (HN ltac:(discriminate)). lia.
  - exists false, d1, s1, cnt1. split; [reflexivity|]. split; auto. split; [auto|discriminate].
Qed.

Lemma subsume_clause_spec n fuel : forall i d s cnt, SI n d s -> live s i = true -> sub_size d s < fuel ->
  exists b d' s' cnt', subsume_clause ptr_lt fuel i d s cnt = Ok (b, d', s', cnt') /\ spost n d s d' s' /\
    (b = false -> forall P a, WE P d s -> ~ P a).
Proof.
  intros i d s cnt H1 H2 H3. destruct (subsume_clause_full n fuel i d s cnt H1 H2 H3) as (b & d' & s' & cnt' & E & HP & HE & _). exists b, d', s', cnt'. auto.
Qed.

Lemma subsume_list_full n is : forall d s cnt, SI n d s ->
  exists b d' s' cnt', subsume_list ptr_lt is d s cnt = Ok (b, d', s', cnt') /\ spost n d s d' s' /\
    (b = false -> forall P a, WE P d s -> ~ P a) /\
    (b = true -> sub_size d' s' + sub_nTouched cnt' <= sub_size d s + sub_nTouched cnt).
Proof.
  induction is as [|i r IH]; intros d s cnt H; cbn [subsume_list].
  - exists true, d, s, cnt. split; [reflexivity|]. split; [apply spost_refl; auto|]. split; [discriminate|auto].
  - destruct (wclause s i) as [c|] eqn:Ec; [|apply IH; auto].
    assert (HX : exists b d' s' cnt', (if length (clits d c) =? 1
         then '(b, d1, s1) <- unit_resolution i d s ;; Ok (b, d1, s1, cnt)
         else subsume_clause ptr_lt (S (sub_size d s)) i d s cnt) = Ok (b, d', s', cnt') /\ spost n d s d' s' /\
         (b = false -> forall P a, WE P d s -> ~ P a) /\ (b = true -> sub_size d' s' + sub_nTouched cnt' <= sub_size d s + sub_nTouched cnt)).
    { destruct (Nat.eqb_spec (length (clits d c)) 1).
      - destruct (unit_resolution_spec n i c d s H Ec) as (b & d1 & s1 & E & HP & Hb); auto.
        rewrite E. cbn [bind]. exists b, d1, s1, cnt. split; auto. split; auto. split; auto. intros _. pose proof (sp_size _ _ _ _ _ HP). lia.
      - apply subsume_clause_full; auto. unfold live. rewrite Ec. auto. }
    destruct HX as (b & d1 & s1 & cnt1 & E & HP & Hb & HN). rewrite E. cbn [bind]. destruct b.
    + destruct (IH d1 s1 cnt1 (sp_SI _ _ _ _ _ HP)) as (b2 & d2 & s2 & cnt2 & E2 & HP2 & Hb2 & HN2).
      exists b2, d2, s2, cnt2. split; auto. split; [eapply spost_trans; eauto|]. split.
      * intros Eb P a HW. apply Hb2; auto. apply (sp_WE _ _ _ _ _ HP); auto.
      * intros Eb. specialize (HN2 Eb). specialize (HN eq_refl). lia.
    + exists false, d1, s1, cnt1. split; [reflexivity|]. split; auto.
Qed.

Lemma subsume_list_spec n is : forall d s cnt, SI n d s ->
  exists b d' s' cnt', subsume_list ptr_lt is d s cnt = Ok (b, d', s', cnt') /\ spost n d s d' s' /\
    (b = false -> forall P a, WE P d s -> ~ P a).
Proof.
  intros d s cnt H. destruct (subsume_list_full n is d s cnt H) as (b & d' & s' & cnt' & E & HP & HE & _). exists b, d', s', cnt'. auto.
Qed.
End Scan.

(** ** Wrapping the clauses of the database *)
Lemma sub_add_SI n d s c : SI n d s -> In c (cls d) -> clits d c <> [] -> (forall i, wclause s i <> Some c) ->
  SI n d (sub_add c (clits d c) s).
Proof.
  intros H Hc Hne Hf. pose proof (di_WFA _ _ (s_D _ _ _ H) c) as Hw. change (alits (arena d) c) with (clits d c) in Hw.
  assert (Hocc : forall v i, In i (occs (sub_add c (clits d c) s) v) <->
            In i (occs s v) \/ (i = length (subs s) /\ exists l, In l (clits d c) /\ lvar l = v)).
  { intros v i. unfold occs, sub_add; cbn [occ]. apply add_occ_in. intros l Hin. rewrite (s_len _ _ _ H). apply Hw. auto. }
  constructor; try apply H.
  - intros i x Hi. rewrite wclause_add in Hi. destruct (Nat.eqb_spec i (length (subs s))).
    + inversion Hi; subst. auto.
    + apply (s_cls _ _ _ H i x Hi).
  - intros v i x Hin Hi. apply Hocc in Hin. rewrite wclause_add in Hi. destruct (Nat.eqb_spec i (length (subs s))) as [->|Hn].
    + inversion Hi; subst. destruct Hin as [Hin|[_ Hin]]; auto. apply (s_rng _ _ _ H) in Hin. lia.
    + destruct Hin as [Hin|[Hin _]]; [|contradiction]. eapply s_occ; eauto.
  - intros i x l Hi Hin. apply Hocc. rewrite wclause_add in Hi. destruct (Nat.eqb_spec i (length (subs s))) as [->|Hn].
    + inversion Hi; subst. right. split; eauto.
    + left. eapply s_full; eauto.
  - intros v i Hin. apply Hocc in Hin. unfold sub_add; cbn [subs]. rewrite app_length; simpl.
    destruct Hin as [Hin|[-> _]]; [apply (s_rng _ _ _ H) in Hin|]; lia.
  - intros v. unfold occs, sub_add; cbn [occ]. apply add_occ_nodup.
    + intros l Hin. rewrite (s_len _ _ _ H). apply Hw. auto.
    + apply Hw.
    + apply (s_nd _ _ _ H).
    + intros l _ Hin. apply (s_rng _ _ _ H) in Hin. lia.
  - intros j k x Hj Hk. rewrite wclause_add in Hj, Hk.
    destruct (Nat.eqb_spec j (length (subs s))); destruct (Nat.eqb_spec k (length (subs s))); try congruence.
    eapply (s_inj _ _ _ H); eauto.
  - unfold sub_add; cbn [occ]. rewrite add_occ_length. apply H.
Qed.

Lemma sdb_fold_SI n d cs : forall s, SI n d s -> NoDup cs -> (forall c, In c cs -> In c (cls d) /\ clits d c <> []) ->
  (forall c i, In c cs -> wclause s i <> Some c) ->
  let s' := fold_left (fun s c => sub_add c (clits d c) s) cs s in
  SI n d s' /\ (forall c, (exists i, wclause s' i = Some c) <-> (exists i, wclause s i = Some c) \/ In c cs).
Proof.
  induction cs as [|c r IH]; intros s H Hn Hc Hf; cbn [fold_left].
  - split; auto. intros c. simpl. tauto.
  - inversion Hn as [|? ? Hcr Hr]; subst. destruct (Hc c) as [C1 C2]; [simpl; auto|].
    assert (HA : forall x, (exists i, wclause (sub_add c (clits d c) s) i = Some x) <-> (exists i, wclause s i = Some x) \/ x = c).
    { intros x. split.
      - intros (i & Hi). rewrite wclause_add in Hi. destruct (i =? length (subs s)); [inversion Hi; auto|eauto].
      - intros [(i & Hi)| ->].
        + exists i. rewrite wclause_add. destruct (Nat.eqb_spec i (length (subs s))) as [->|]; auto. apply wclause_lt in Hi. lia.
        + exists (length (subs s)). rewrite wclause_add, Nat.eqb_refl. auto. }
    destruct (IH (sub_add c (clits d c) s)) as [I1 I2]; auto.
    + apply sub_add_SI; auto. intros i. apply Hf. simpl; auto.
    + intros x Hx. apply Hc. simpl; auto.
    + intros x i Hx Hi. destruct (proj1 (HA x)) as [(j & Hj)| ->]; [eauto| |auto]. apply (Hf x j); simpl; auto.
    + split; auto. intros x. rewrite I2, HA. simpl. intuition.
Qed.

Lemma sdb_init_spec n d : DI n d -> LenOk d -> (forall c, In c (cls d) -> clits d c <> []) ->
  SI n d (sdb_init d) /\ (forall c, (exists i, wclause (sdb_init d) i = Some c) <-> In c (cls d)) /\
  WR (fun _ => False) d (sdb_init d) /\ ((forall c, In c (cls d) -> isDeleted d c = false) -> SL d (sdb_init d)).
Proof.
  intros HD HL Hne. assert (H0 : SI n d (mkS [] (repeat [] (nv d)))).
  { rewrite (di_nv _ _ HD). constructor; auto.
    - intros i c Hi. apply wclause_lt in Hi. simpl in Hi. lia.
    - intros v i c Hi. unfold occs in Hi; cbn [occ] in Hi. rewrite nth_repeat in Hi. destruct Hi.
    - intros i c l Hi. apply wclause_lt in Hi. simpl in Hi. lia.
    - intros v i Hi. unfold occs in Hi; cbn [occ] in Hi. rewrite nth_repeat in Hi. destruct Hi.
    - intros v. unfold occs; cbn [occ]. rewrite nth_repeat. constructor.
    - intros i j c Hi. apply wclause_lt in Hi. simpl in Hi. lia.
    - cbn [occ]. apply repeat_length. }
  destruct (sdb_fold_SI n d (cls d) _ H0 (di_clsnd _ _ HD)) as [I1 I2].
  { auto. } { intros c i _ Hi. apply wclause_lt in Hi. simpl in Hi. lia. }
  fold (sdb_init d) in I1, I2.
  assert (I3 : forall c, (exists i, wclause (sdb_init d) i = Some c) <-> In c (cls d)).
  { intros c. rewrite I2. split; auto. intros [(i & Hi)|]; auto. apply wclause_lt in Hi. simpl in Hi. lia. }
  split; auto. split; auto. split.
  - intros c [Hc _]. left. apply I3; auto.
  - intros Hd. constructor; [|apply I1]. intros i c Hi. apply Hd. apply I3; eauto.
Qed.

(** cleaning the occurrence lists *)
Lemma sdb_cleanup_wclause s i : wclause (sdb_cleanup s) i = wclause s i. Proof. reflexivity. Qed.
Lemma sdb_cleanup_SI n d s : SI n d s -> SI n d (sdb_cleanup s).
Proof.
  intros H. assert (Ho : forall v, occs (sdb_cleanup s) v = filter (live s) (occs s v)).
  { intros v. unfold occs, sdb_cleanup; cbn [occ]. change (@nil nat) with (filter (live s) []) at 1. apply map_nth. }
  constructor; try apply H.
  - intros v i c. rewrite Ho, filter_In. intros [A _]. apply (s_occ _ _ _ H); auto.
  - intros i c l Hi Hl. rewrite Ho, filter_In. split; [eapply s_full; eauto|]. unfold live. rewrite sdb_cleanup_wclause in Hi. rewrite Hi. auto.
  - intros v i. rewrite Ho, filter_In. intros [A _]. apply (s_rng _ _ _ H v i A).
  - intros v. rewrite Ho. apply NoDup_filter. apply H.
  - unfold sdb_cleanup; cbn [occ]. rewrite map_length. apply H.
Qed.
