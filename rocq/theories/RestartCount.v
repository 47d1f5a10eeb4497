(** A learnt clause is new: counting the clauses of the database. *)
Require Import List Arith Bool NArith ZArith Permutation Lia.
From Coq Require Import ZifyBool ZifyNat ZifyN.
Require Import Verif.Base Verif.CNFModel Verif.CNFProofs Verif.Outcome Verif.TrailModel Verif.TrailSpec Verif.TrailProofs Verif.TrailLemmas Verif.DbModel Verif.PropModel Verif.PropProofs Verif.DbProofs
  Verif.PropSpec Verif.PropLemmas Verif.AnalyzeModel Verif.AnalyzeProofs Verif.AnalyzeLemmas Verif.SimpModel Verif.SubsProofs Verif.SimpProofs Verif.SimpSpec Verif.SimpLemmas
  Verif.ReduceModel Verif.SolverModel Verif.SolverBase Verif.SolverUnits Verif.SolverSimp Verif.SolverSearch Verif.SolverProofs Verif.SolverSpec Verif.SolverLemmas.
Import ListNotations.

(** ** Sets of literals as vectors *)
Fixpoint vecs (k : nat) : list (list bool) :=
  match k with 0 => [[]] | S k => map (cons false) (vecs k) ++ map (cons true) (vecs k) end.
Lemma vecs_in v : forall k, length v = k -> In v (vecs k).
Proof.
  induction v as [|b v IH]; intros k <-; cbn [length vecs]; [left; auto|]. apply in_or_app.
  destruct b; [right|left]; apply in_map; apply IH; auto.
Qed.
Definition vec (n : nat) (ls : list lit) : list bool := map (fun l => existsb (Nat.eqb l) ls) (seq 0 (2 * n)).
Definition veqb (a b : list bool) : bool := if list_eq_dec Bool.bool_dec a b then true else false.
Lemma veqb_eq a b : veqb a b = true <-> a = b.
Proof. unfold veqb. destruct (list_eq_dec Bool.bool_dec a b); split; auto; discriminate. Qed.
Lemma existsb_in l ls : existsb (Nat.eqb l) ls = true <-> In l ls.
Proof. rewrite existsb_exists. split; [intros (x & H1 & H2); apply Nat.eqb_eq in H2; subst; auto|intros H; exists l; split; auto; apply Nat.eqb_refl]. Qed.
Lemma map_eq_in {A B} (f g : A -> B) ls : map f ls = map g ls -> forall x, In x ls -> f x = g x.
Proof. induction ls as [|y ls IH]; intros E x H; [destruct H|]. cbn in E. injection E as E1 E2. destruct H as [<-|H]; auto. Qed.
Lemma vec_eq n a b : (forall l, In l a -> lvar l < n) -> (forall l, In l b -> lvar l < n) ->
  (vec n a = vec n b <-> forall l, In l a <-> In l b).
Proof.
  intros Ha Hb. unfold vec. split.
  - intros E l. assert (X := map_eq_in _ _ _ E l). cbn beta in X.
    assert (Y : lvar l < n -> existsb (Nat.eqb l) a = existsb (Nat.eqb l) b).
    { intros Hl. apply X. apply in_seq. assert (Z := lit_lt_double l n Hl). lia. }
    split; intros H; [assert (Y1 := Y (Ha l H))|assert (Y1 := Y (Hb l H))]; apply existsb_in; apply existsb_in in H; congruence.
  - intros H. apply map_ext. intros l. destruct (existsb (Nat.eqb l) a) eqn:E1; destruct (existsb (Nat.eqb l) b) eqn:E2; auto.
    + apply existsb_in, H, existsb_in in E1. congruence.
    + apply existsb_in, H, existsb_in in E2. congruence.
Qed.
Lemma filter_le {A} (p q : A -> bool) ls : (forall x, p x = true -> q x = true) -> length (filter p ls) <= length (filter q ls).
Proof.
  intros H. induction ls as [|x ls IH]; cbn; auto. destruct (p x) eqn:E; [rewrite (H x E); cbn; lia|]. destruct (q x); cbn; lia.
Qed.
Lemma filter_lt {A} (p q : A -> bool) ls x : (forall x, p x = true -> q x = true) -> In x ls -> p x = false -> q x = true ->
  length (filter p ls) < length (filter q ls).
Proof.
  intros H. induction ls as [|y ls IH]; intros Hi Hp Hq; [destruct Hi|]. assert (L := filter_le p q ls H). cbn. destruct Hi as [->|Hi].
  - rewrite Hp, Hq. cbn. lia.
  - specialize (IH Hi Hp Hq). destruct (p y) eqn:E; [rewrite (H y E); cbn; lia|]. destruct (q y); cbn; lia.
Qed.
Lemma filter_max {A} (p : A -> bool) ls : length (filter p ls) <= length ls.
Proof. induction ls as [|x ls IH]; cbn; auto. destruct (p x); cbn; lia. Qed.

(** ** The live clauses of a database *)
Definition has (n : nat) (d : db) (v : list bool) : bool := existsb (fun c => negb (isDeleted d c) && veqb (vec n (clits d c)) v) (cls d).
Lemma has_true n d v : has n d v = true <-> exists c, LV d c /\ vec n (clits d c) = v.
Proof.
  unfold has. rewrite existsb_exists. split.
  - intros (c & H1 & H2). apply andb_true_iff in H2. destruct H2 as (H2 & H3). apply veqb_eq in H3. exists c. split; auto. split; auto.
    apply negb_true_iff; auto.
  - intros (c & (H1 & H2) & H3). exists c. split; auto. rewrite H2. cbn. apply veqb_eq; auto.
Qed.
Definition live (n : nat) (d : db) : nat := length (filter (has n d) (vecs (2 * n))).
Definition most (n : nat) : nat := length (vecs (2 * n)).
Lemma live_most n d : live n d <= most n.
Proof. apply filter_max. Qed.
(** every live clause stays *)
Definition PR (d d' : db) : Prop := forall c, LV d c -> exists c', LV d' c' /\ forall l, In l (clits d' c') <-> In l (clits d c).
Lemma PR_refl d : PR d d.
Proof. intros c H. exists c. split; auto. tauto. Qed.
Lemma PR_trans d1 d2 d3 : PR d1 d2 -> PR d2 d3 -> PR d1 d3.
Proof.
  intros H1 H2 c Hc. destruct (H1 c Hc) as (c1 & A1 & A2). destruct (H2 c1 A1) as (c2 & B1 & B2). exists c2. split; auto. intros l. rewrite B2. auto.
Qed.
Lemma vec_ext n a b : (forall l, In l a <-> In l b) -> vec n a = vec n b.
Proof.
  intros H. apply map_ext. intros l. destruct (existsb (Nat.eqb l) a) eqn:E1; destruct (existsb (Nat.eqb l) b) eqn:E2; auto.
  - apply existsb_in, H, existsb_in in E1. congruence.
  - apply existsb_in, H, existsb_in in E2. congruence.
Qed.
Lemma PR_has n d d' v : PR d d' -> has n d v = true -> has n d' v = true.
Proof.
  intros H H1. apply has_true in H1. destruct H1 as (c & A1 & A2). destruct (H c A1) as (c' & B1 & B2). apply has_true. exists c'. split; auto.
  rewrite <- A2. apply vec_ext; auto.
Qed.
Lemma PR_live n d d' : PR d d' -> live n d <= live n d'.
Proof. intros H. apply filter_le. intros v. apply PR_has; auto. Qed.
Lemma PR_new n d d' c : PR d d' -> LV d' c -> wfc n (clits d' c) -> WFA n (arena d) ->
  (forall x, LV d x -> ~ (forall l, In l (clits d x) <-> In l (clits d' c))) -> live n d < live n d'.
Proof.
  intros H Hc Hw HW Hn. apply (filter_lt (has n d) (has n d') (vecs (2 * n)) (vec n (clits d' c))).
  - intros v. apply PR_has; auto.
  - apply vecs_in. unfold vec. rewrite map_length, seq_length. auto.
  - destruct (has n d (vec n (clits d' c))) eqn:E; auto. exfalso. apply has_true in E. destruct E as (x & X1 & X2). apply (Hn x X1).
    apply (vec_eq n); auto; [apply HW|apply Hw].
  - apply has_true. exists c. auto.
Qed.

Lemma PR_aperm d a : aperm (arena d) a -> PR d (with_arena d a).
Proof.
  intros HA c (H1 & H2). exists c. split.
  - split; auto. unfold isDeleted in *. replace (cwt (with_arena d a) c) with (cwt d c); auto. symmetry. apply HA.
  - intros l. symmetry. exact (aperm_in _ _ c l HA).
Qed.
Lemma PR_mstep n t d d' : DI n d -> mstep t d d' -> PR d d'.
Proof.
  intros HD HM c (H1 & H2). assert (Hlt := cls_lt _ _ _ HD H1). exists c. split.
  - split; [apply (ms_cls _ _ _ HM); auto|]. unfold isDeleted in *. rewrite (ms_wt _ _ _ HM); auto.
  - intros l. assert (X := ms_lits _ _ _ HM c Hlt). split; apply Permutation_in; auto. apply Permutation_sym; auto.
Qed.
Lemma PR_reorganize n d : DI n d -> PR d (reorganize d).
Proof.
  intros HD c (H1 & H2). destruct (reorganize_fields d) as (A & B & D & E). exists c. split.
  - split; [apply reorganize_cls; split; auto; apply (di_cls _ _ HD); auto|]. unfold isDeleted, cwt, cobj_at in *. rewrite A. auto.
  - intros l. unfold clits, cobj_at. rewrite A. tauto.
Qed.
Lemma PR_create n d ls lbd lem c d' : DI n d -> createClause ls lbd lem d = Ok (c, d') -> PR d d'.
Proof.
  intros HD E x (H1 & H2). assert (HC := createClause_created _ _ _ _ _ _ E). assert (Hlt := cls_lt _ _ _ HD H1).
  assert (El : cls d' = cls d ++ [c]) by apply HC. exists x. split.
  - split; [rewrite El; apply in_or_app; auto|]. unfold isDeleted in *. rewrite cwt_awt. rewrite (createClause_wt _ _ _ _ _ _ E).
    rewrite awt_app by auto. rewrite <- cwt_awt. auto.
  - intros l. rewrite (clits_old _ _ _ _ x HC) by auto. tauto.
Qed.
Lemma nodup_length {A} (eq : forall x y : A, {x = y} + {x <> y}) ls : length (nodup eq ls) <= length ls.
Proof. induction ls as [|x ls IH]; cbn; auto. destruct (in_dec eq x ls); cbn; lia. Qed.
Lemma lbd_length t ls : computeLBD t ls <= length ls.
Proof. rewrite computeLBD_spec. etransitivity; [apply nodup_length|]. rewrite map_length. auto. Qed.
Lemma wfc_length n ls : wfc n ls -> length ls <= n.
Proof.
  intros (H1 & H2). rewrite <- (map_length lvar ls). rewrite <- (seq_length n 0). apply NoDup_incl_length; auto.
  intros v Hv. apply in_map_iff in Hv. destruct Hv as (l & <- & Hl). apply in_seq. specialize (H2 l Hl). lia.
Qed.
Lemma small_wt n t ls : (N.of_nat n < 65535)%N -> wfc n ls -> (N.of_nat (computeLBD t ls) mod 65536 =? W_DELETED)%N = false.
Proof.
  intros Hn Hw. assert (H1 := lbd_length t ls). assert (H2 := wfc_length n ls Hw). apply N.eqb_neq. unfold W_DELETED. rewrite N.mod_small by lia. lia.
Qed.
Lemma reestimate_live n t cs : (N.of_nat n < 65535)%N -> forall d, WFA n (arena d) -> forall c, isDeleted d c = false -> isDeleted (reestimate t cs d) c = false.
Proof.
  intros Hn. induction cs as [|c cs IH]; intros d HW x Hx; cbn [reestimate]; auto. apply IH.
  - destruct (isLearnt d c); auto. cbn [with_arena arena]. intros y. rewrite alits_set_wt. apply HW.
  - destruct (isLearnt d c); auto. unfold isDeleted in *. rewrite cwt_awt. cbn [with_arena arena]. rewrite awt_set_wt.
    destruct (Nat.eqb_spec x c) as [->|_]; [|exact Hx]. destruct (Nat.ltb_spec c (length (arena d))).
    + apply (small_wt n); auto. apply HW.
    + cbn [andb]. exact Hx.
Qed.
Lemma PR_reestimate n t cs d : (N.of_nat n < 65535)%N -> WFA n (arena d) -> PR d (reestimate t cs d).
Proof.
  intros Hn HW c (H1 & H2). destruct (reestimate_fields t cs d) as (A1 & A2 & A3 & A4 & A5 & A6 & A7 & A8 & A9 & A10). exists c. split.
  - split; [rewrite A3; auto|]. apply (reestimate_live n); auto.
  - intros l. rewrite clits_alits, A9. tauto.
Qed.

(** ** A learnt clause is not in the database *)
Lemma learnt_new (Q : Prop) d w t c an : Q -> SConfQ Q d w t c -> UT0 d t -> NEmp d -> empt d = false -> 0 < dlevel t -> learnt_ok t an ->
  forall x, LV d x -> ~ (forall l, In l (clits d x) <-> In l an).
Proof.
  intros HQ HS HU HN He Hdl LO x (Hx & Hdel) Hsame. destruct HS as [HB Hf Hu Hlv HL HDn]. destruct HB as [HP HD HW HC HR].
  specialize (HDn HQ). assert (HT := pi_TI _ _ _ HP). destruct LO as (a & r & -> & Hwf & Hfal & Hla & Hlr).
  assert (Hall : forall m, In m (clits d x) -> value t m = Some false) by (intros m Hm; apply Hfal, Hsame; auto).
  assert (Hlow : forall m, In m (clits d x) -> m <> a -> exists i, i < pred (qh t) /\ nth_error (tr t) i = Some (lneg m)).
  { intros m Hm Hna. assert (Hin : In m r) by (apply Hsame in Hm; destruct Hm as [Hm|Hm]; auto; congruence).
    assert (Hl := Hlr m Hin). assert (Ht := proj1 (ti_val_false t m HT) (Hall m Hm)). apply In_nth_error in Ht. destruct Ht as (i & Hi). exists i. split; auto.
    assert (Hlt : i < nth (pred (dlevel t)) (lim t) 0).
    { apply (lim_ge_level t (pred (dlevel t)) i (lneg m) HT); auto; [lia|]. rewrite lvar_neg. lia. }
    assert (Hle : nth (pred (dlevel t)) (lim t) 0 <= pred (qh t)) by (apply HL, nth_In; unfold dlevel in *; lia). lia. }
  assert (Hnt : forall m, In m (clits d x) -> value t m = Some true -> False) by (intros m Hm Hv; rewrite (Hall m Hm) in Hv; discriminate).
  assert (Hnd := proj1 (di_WFA _ _ HD x)). change (alits (arena d) x) with (clits d x) in Hnd.
  assert (Hmf := di_cls _ _ HD x Hx).
  destruct (Nat.lt_ge_cases (length (clits d x)) 3) as [H3|H3].
  - destruct (clits d x) as [|y [|z [|]]] eqn:E; [exact (HN He x Hx E)| | |cbn in H3; lia].
    + destruct (HU x y (conj Hx Hdel) E) as (U1 & _). apply (Hnt y); [left; auto|]. apply (ti_val t HT); auto.
    + assert (Hw0 : cwt d x = 0%N).
      { destruct (di_small _ _ HD x Hmf) as [H|H]; auto; [rewrite E; cbn; lia|]. unfold isDeleted in Hdel. rewrite H in Hdel. discriminate. }
      assert (Hyz : y <> z) by (intros ->; cbn in Hnd; inversion Hnd as [|? ? Hn _]; apply Hn; cbn; auto).
      assert (Hm : exists m, In m [y; z] /\ m <> a) by (destruct (Nat.eq_dec y a) as [->|]; [exists z; cbn; auto|exists y; cbn; auto]).
      destruct Hm as (m & M1 & M2). destruct (Hlow m M1 M2) as (i & I1 & I2). destruct (HDn i _ I1 I2) as (_ & D2).
      destruct (di_cov2 _ _ HD x m Hx Hw0) as (o & Ho); [rewrite E; auto|rewrite E; auto|]. destruct (D2 x o Ho) as (V1 & _).
      apply (Hnt o); auto. rewrite <- E. apply (di_BW _ _ HD (lneg m) x o Ho o). auto.
  - destruct (HC x Hx H3) as (y & z & z' & rr & E & Wy & Wz). change (alits (arena d) x) with (clits d x) in E.
    assert (Hyz : y <> z) by (intros ->; rewrite E in Hnd; cbn in Hnd; inversion Hnd as [|? ? Hn _]; apply Hn; cbn; auto).
    assert (Hm : exists m, In m (clits d x) /\ m <> a /\ In x (map fst (wl w (lneg m)))).
    { destruct (Nat.eq_dec y a) as [->|]; [exists z; rewrite E; cbn; auto|exists y; rewrite E; cbn; auto]. }
    destruct Hm as (m & M1 & M2 & M3). destruct (Hlow m M1 M2) as (i & I1 & I2). destruct (HDn i _ I1 I2) as (D1 & _).
    apply in_map_iff in M3. destruct M3 as ((x' & b) & Eb & Hin). cbn in Eb. subst x'. destruct (D1 x b Hin) as (o & O1 & O2 & _).
    exact (Hnt o O1 O2).
Qed.
