(** Proofs of C48: the clauses made by a refinement strategy as a list of tags, one per assumption variable. *)
Require Import List Arith Bool Lia Permutation Sorted.
Require Import Verif.Base Verif.Outcome Verif.ApproxModel Verif.ApproxSpec Verif.ApproxLemmas Verif.ApproxProofs Verif.ApproxMore Verif.ApproxRefine.
Import ListNotations.

Inductive tag := TI (i : impl) | TB (l : lit).
Lemma tag_dec (a b : tag) : {a = b} + {a <> b}.
Proof. repeat decide equality. Defined.
Definition tags := list (tag * bool).
Definition clause_of (t : tag) (v : var) : clause := match t with TI i => encodeImplication i v | TB l => encodeBackbone l v end.
Fixpoint clauses_of (v : var) (T : tags) : list clause := match T with [] => [] | (t, _) :: r => clause_of t v :: clauses_of (S v) r end.
Fixpoint lits_of (v : var) (T : tags) : list lit := match T with [] => [] | (_, b) :: r => mkLit v (negb b) :: lits_of (S v) r end.

Lemma clauses_app a : forall v b, clauses_of v (a ++ b) = clauses_of v a ++ clauses_of (v + length a) b.
Proof.
  induction a as [|(t, x) a IH]; intros v b; simpl; [rewrite Nat.add_0_r; reflexivity|]. rewrite IH. replace (v + S (length a)) with (S v + length a) by lia. reflexivity.
Qed.
Lemma lits_app a : forall v b, lits_of v (a ++ b) = lits_of v a ++ lits_of (v + length a) b.
Proof.
  induction a as [|(t, x) a IH]; intros v b; simpl; [rewrite Nat.add_0_r; reflexivity|]. rewrite IH. replace (v + S (length a)) with (S v + length a) by lia. reflexivity.
Qed.
Lemma lits_length T : forall v, length (lits_of v T) = length T.
Proof. induction T as [|(t, x) a IH]; intros v; simpl; [reflexivity|]. rewrite IH. reflexivity. Qed.
Lemma clauses_length T : forall v, length (clauses_of v T) = length T.
Proof. induction T as [|(t, x) a IH]; intros v; simpl; [reflexivity|]. rewrite IH. reflexivity. Qed.
Lemma clauses_tags T : forall T' v, map fst T = map fst T' -> clauses_of v T = clauses_of v T'.
Proof.
  induction T as [|(t, x) a IH]; intros [|(t', x') a'] v H; simpl in *; try discriminate; [reflexivity|]. injection H as E H. rewrite E, (IH a' (S v) H). reflexivity.
Qed.

(** ** Deactivation *)
Fixpoint killat (k : nat) (T : tags) : tags :=
  match T, k with [], _ => [] | (t, _) :: r, 0 => (t, false) :: r | p :: r, S k' => p :: killat k' r end.
Lemma killat_fst T : forall k, map fst (killat k T) = map fst T.
Proof. induction T as [|(t, x) a IH]; intros [|k]; simpl; try reflexivity. rewrite IH. reflexivity. Qed.
Lemma deactivate_killat T : forall k v, k < length T -> deactivate k (lits_of v T) = Ok (lits_of v (killat k T)).
Proof.
  induction T as [|(t, x) a IH]; intros [|k] v H; simpl in *; try lia.
  - unfold deactivatedAssumptionLit. rewrite lvar_mk. reflexivity.
  - rewrite IH by lia. reflexivity.
Qed.
Lemma killat_in T : forall k t x b, NoDup (map fst T) -> nth_error T k = Some (t, x) ->
  forall u, In (u, b) (killat k T) <-> (u <> t /\ In (u, b) T) \/ (u = t /\ b = false).
Proof.
  induction T as [|(t0, x0) a IH]; intros [|k] t x b HN Hk u; simpl in *; try discriminate; inversion HN as [|? ? N1 N2]; subst.
  - injection Hk as <- <-. split.
    + intros [H|H]; [injection H as <- <-; auto|]. left. split; [|auto]. intros ->. apply N1. apply in_map_iff. exists (t0, b). auto.
    + intros [(H1 & [H|H])|(H1 & H2)]; [injection H as <- <-; tauto|auto|subst; auto].
  - assert (Ht : In t (map fst a)) by (apply in_map_iff; exists (t, x); split; [reflexivity|]; apply nth_error_In in Hk; exact Hk).
    rewrite (IH k t x b N2 Hk u). split.
    + intros [H|[H|H]]; [|tauto|tauto]. injection H as <- <-. left. split; [|auto]. intros ->. tauto.
    + intros [(H1 & [H|H])|H]; tauto.
Qed.
Definition pos_ok (s : strategy) (T : tags) : Prop := forall k t x, nth_error T k = Some (t, x) ->
  match t with TI i => idx_impl i (rs_impl s) = k | TB l => idx_bb l (rs_bb s) = k end.
Definition tag_pos (s : strategy) (t : tag) : nat := match t with TI i => idx_impl i (rs_impl s) | TB l => idx_bb l (rs_bb s) end.
Lemma pos_tags s T T' : map fst T = map fst T' -> pos_ok s T -> pos_ok s T'.
Proof.
  intros E H k t x Hk. assert (K : nth_error (map fst T) k = Some t) by (rewrite E, nth_error_map, Hk; reflexivity).
  rewrite nth_error_map in K. destruct (nth_error T k) as [(t', x')|] eqn:E'; [|discriminate]. injection K as ->. apply (H k t x' E').
Qed.
Lemma kill_all s v : forall ts T, NoDup (map fst T) -> pos_ok s T -> (forall t, In t ts -> In t (map fst T)) ->
  exists T', deactivate_all (map (tag_pos s) ts) (lits_of v T) = Ok (lits_of v T') /\ map fst T' = map fst T /\
    (forall t, In (t, true) T' <-> In (t, true) T /\ ~ In t ts) /\ (forall t, In (t, false) T' <-> In (t, false) T \/ In t ts).
Proof.
  induction ts as [|t ts IH]; intros T HN HP HT.
  - exists T. simpl. split; [reflexivity|]. split; [reflexivity|]. split; intros u; tauto.
  - assert (Ht : In t (map fst T)) by (apply HT; left; reflexivity). apply in_map_iff in Ht. destruct Ht as ((t', x) & Et & Ht). simpl in Et. subst t'.
    apply In_nth_error in Ht. destruct Ht as (k & Hk).
    assert (Ek : tag_pos s t = k) by (apply HP in Hk; destruct t; exact Hk).
    assert (Lk : k < length T) by (apply nth_error_Some; congruence).
    destruct (IH (killat k T)) as (T' & E & F & A & B).
    { rewrite killat_fst. exact HN. } { apply (pos_tags s T); [rewrite killat_fst; reflexivity|exact HP]. }
    { intros u Hu. rewrite killat_fst. apply HT. right. exact Hu. }
    exists T'. cbn [map deactivate_all]. rewrite Ek, (deactivate_killat T k v Lk). cbn [bind]. split; [exact E|].
    split; [rewrite F; apply killat_fst|]. split; intros u.
    + rewrite (A u), (killat_in T k t x true HN Hk u). split.
      * intros ([(H1 & H2)|(_ & H)] & H3); [|discriminate]. split; [exact H2|]. intros [H|H]; [congruence|tauto].
      * intros (H1 & H2). split; [|intros H; apply H2; right; exact H]. left. split; [|exact H1]. intros ->. apply H2. left. reflexivity.
    + rewrite (B u), (killat_in T k t x false HN Hk u). destruct (tag_dec u t) as [->|Hne].
      * split; [intros _; right; left; reflexivity|intros _; left; right; auto].
      * split; [intros [[(H1 & H2)|(H1 & _)]|H]; [auto|contradiction|right; right; exact H]|].
        intros [H|[H|H]]; [left; left; auto|congruence|auto].
Qed.

(** ** New clauses *)
Definition SB (start : var) (s : strategy) (T : tags) : Prop :=
  rs_next s = start + length T /\ rs_lits s = lits_of start T /\ NoDup (map fst T) /\ pos_ok s T.
Lemma impl_eqb_spec i j : impl_eqb i j = true <-> i = j.
Proof. unfold impl_eqb. destruct i, j. simpl. rewrite andb_true_iff, !Nat.eqb_eq. split; [intros (-> & ->); reflexivity|intros H; injection H as -> ->; auto]. Qed.
Lemma nth_snoc (T : tags) t b k u x : nth_error (T ++ [(t, b)]) k = Some (u, x) -> nth_error T k = Some (u, x) \/ (k = length T /\ u = t).
Proof.
  intros H. destruct (Nat.lt_ge_cases k (length T)) as [L|L]; [left; rewrite nth_error_app1 in H; auto|].
  rewrite nth_error_app2 in H by exact L. right. destruct (k - length T) as [|j] eqn:E; simpl in H; [injection H as -> _; split; [lia|reflexivity]|].
  destruct j; discriminate.
Qed.
Lemma nodup_snoc (T : tags) t b : NoDup (map fst T) -> ~ In t (map fst T) -> NoDup (map fst (T ++ [(t, b)])).
Proof.
  intros H1 H2. rewrite map_app. apply nodup_app; [exact H1|simpl; constructor; [intros []|constructor]|]. intros x Hx [<-|[]]. tauto.
Qed.
Lemma encode_one_ok start s T cs i : SB start s T -> ~ In (TI i) (map fst T) ->
  exists s', encode_one (s, cs) i = (s', cs ++ clauses_of (start + length T) [(TI i, true)]) /\ SB start s' (T ++ [(TI i, true)]) /\ rs_app s' = rs_app s.
Proof.
  intros (H1 & H2 & H3 & H4) Hi. unfold encode_one. cbn [fst snd]. rewrite H1, H2. eexists. split; [reflexivity|]. split; [|reflexivity].
  unfold SB. cbn [rs_next rs_lits rs_impl rs_bb]. rewrite app_length, lits_app. split; [simpl; lia|]. split; [reflexivity|]. split; [apply nodup_snoc; assumption|].
  intros k u x Hk. apply nth_snoc in Hk. cbn [rs_impl rs_bb]. destruct Hk as [Hk|(-> & ->)].
  - pose proof (H4 k u x Hk) as K. destruct u as [j|l]; [|exact K]. unfold idx_impl in *. cbn [find fst]. destruct (impl_eqb j i) eqn:E; [|exact K].
    apply impl_eqb_spec in E. subst j. exfalso. apply Hi. apply in_map_iff. exists (TI i, x). split; [reflexivity|]. apply nth_error_In in Hk. exact Hk.
  - unfold idx_impl. cbn [find fst]. rewrite (proj2 (impl_eqb_spec i i) eq_refl). cbn [snd]. apply lits_length.
Qed.
Lemma encode_bb_ok start s T cs l : SB start s T -> ~ In (TB l) (map fst T) ->
  exists s', encode_bb (s, cs) l = (s', cs ++ clauses_of (start + length T) [(TB l, true)]) /\ SB start s' (T ++ [(TB l, true)]) /\ rs_app s' = rs_app s.
Proof.
  intros (H1 & H2 & H3 & H4) Hi. unfold encode_bb. cbn [fst snd]. rewrite H1, H2. eexists. split; [reflexivity|]. split; [|reflexivity].
  unfold SB. cbn [rs_next rs_lits rs_impl rs_bb]. rewrite app_length, lits_app. split; [simpl; lia|]. split; [reflexivity|]. split; [apply nodup_snoc; assumption|].
  intros k u x Hk. apply nth_snoc in Hk. cbn [rs_impl rs_bb]. destruct Hk as [Hk|(-> & ->)].
  - pose proof (H4 k u x Hk) as K. destruct u as [j|l']; [exact K|]. unfold idx_bb in *. cbn [find fst]. destruct (Nat.eqb_spec l' l) as [E|E]; [|exact K].
    subst l'. exfalso. apply Hi. apply in_map_iff. exists (TB l, x). split; [reflexivity|]. apply nth_error_In in Hk. exact Hk.
  - unfold idx_bb. cbn [find fst]. rewrite Nat.eqb_refl. cbn [snd]. apply lits_length.
Qed.
Definition fresh_tags (ts : list tag) : tags := map (fun t => (t, true)) ts.
Lemma fresh_fst ts : map fst (fresh_tags ts) = ts.
Proof. unfold fresh_tags. rewrite map_map. apply map_id. Qed.
Lemma encode_impls_ok start : forall n s T cs, SB start s T -> NoDup n -> (forall i, In i n -> ~ In (TI i) (map fst T)) ->
  exists s', fold_left encode_one n (s, cs) = (s', cs ++ clauses_of (start + length T) (fresh_tags (map TI n))) /\ SB start s' (T ++ fresh_tags (map TI n)) /\ rs_app s' = rs_app s.
Proof.
  induction n as [|i n IH]; intros s T cs HS HN HT.
  - exists s. simpl. rewrite !app_nil_r. auto.
  - inversion HN as [|? ? N1 N2]; subst. destruct (encode_one_ok start s T cs i HS (HT i (or_introl eq_refl))) as (s1 & E1 & S1 & A1).
    destruct (IH s1 (T ++ [(TI i, true)]) (cs ++ clauses_of (start + length T) [(TI i, true)]) S1 N2) as (s2 & E2 & S2 & A2).
    { intros j Hj F. rewrite map_app in F. apply in_app_or in F. destruct F as [F|[F|[]]]; [apply (HT j (or_intror Hj) F)|]. injection F as ->. tauto. }
    exists s2. cbn [fold_left map]. rewrite E1, E2. rewrite <- app_assoc in S2. split; [|split; [exact S2|congruence]].
    f_equal. rewrite <- app_assoc. f_equal. rewrite app_length. simpl. replace (S (start + length T)) with (start + (length T + 1)) by lia. reflexivity.
Qed.
Lemma encode_bbs_ok start : forall n s T cs, SB start s T -> NoDup n -> (forall i, In i n -> ~ In (TB i) (map fst T)) ->
  exists s', fold_left encode_bb n (s, cs) = (s', cs ++ clauses_of (start + length T) (fresh_tags (map TB n))) /\ SB start s' (T ++ fresh_tags (map TB n)) /\ rs_app s' = rs_app s.
Proof.
  induction n as [|i n IH]; intros s T cs HS HN HT.
  - exists s. simpl. rewrite !app_nil_r. auto.
  - inversion HN as [|? ? N1 N2]; subst. destruct (encode_bb_ok start s T cs i HS (HT i (or_introl eq_refl))) as (s1 & E1 & S1 & A1).
    destruct (IH s1 (T ++ [(TB i, true)]) (cs ++ clauses_of (start + length T) [(TB i, true)]) S1 N2) as (s2 & E2 & S2 & A2).
    { intros j Hj F. rewrite map_app in F. apply in_app_or in F. destruct F as [F|[F|[]]]; [apply (HT j (or_intror Hj) F)|]. injection F as ->. tauto. }
    exists s2. cbn [fold_left map]. rewrite E1, E2. rewrite <- app_assoc in S2. split; [|split; [exact S2|congruence]].
    f_equal. rewrite <- app_assoc. f_equal. rewrite app_length. simpl. replace (S (start + length T)) with (start + (length T + 1)) by lia. reflexivity.
Qed.

(** ** Meaning *)
Definition tag_holds (a : assignment) (t : tag) : Prop := match t with TI i => impl_holds a i | TB l => lit_holds a l end.
Lemma lits_in T : forall v l, In l (lits_of v T) -> v <= lvar l < v + length T.
Proof.
  induction T as [|(t, x) T IH]; intros v l H; simpl in *; [destruct H|]. destruct H as [<-|H]; [rewrite lvar_mk; lia|]. apply IH in H. lia.
Qed.
Lemma holds_mk a v b : lit_holds a (mkLit v b) <-> a v = negb b.
Proof.
  unfold lit_holds, lit_val. rewrite lvar_mk, lsign_mk. destruct b, (a v); simpl; split; congruence.
Qed.
Lemma clause_of_sat a t v : sat_clause a (clause_of t v) <-> (a v = true -> tag_holds a t).
Proof.
  assert (D : lit_holds a (deactivatedAssumptionLit v) <-> a v = false) by (unfold deactivatedAssumptionLit; apply holds_mk).
  destruct t as [i|l]; cbn [clause_of tag_holds]; unfold encodeImplication, encodeBackbone; rewrite !sat_clause_cons.
  - unfold impl_holds. rewrite lit_holds_neg, D. assert (N : ~ sat_clause a []) by (intros (x & [] & _)).
    unfold lit_holds. destruct (a v), (lit_val a (fst i)), (lit_val a (snd i)); intuition congruence.
  - rewrite D. assert (N : ~ sat_clause a []) by (intros (x & [] & _)).
    unfold lit_holds. destruct (a v), (lit_val a l); intuition congruence.
Qed.
Lemma clauses_sat a T : forall v, sat a (clauses_of v T) <-> forall k t x, nth_error T k = Some (t, x) -> a (v + k) = true -> tag_holds a t.
Proof.
  induction T as [|(t, x) T IH]; intros v; simpl.
  - split; [intros _ [|k] t x H; discriminate|intros _ c []].
  - rewrite sat_cons, clause_of_sat, IH. split.
    + intros (H1 & H2) [|k] u y Hk; simpl in Hk; [injection Hk as <- <-; rewrite Nat.add_0_r; exact H1|].
      replace (v + S k) with (S v + k) by lia. apply (H2 k u y Hk).
    + intros H. split; [specialize (H 0 t x eq_refl); rewrite Nat.add_0_r in H; exact H|].
      intros k u y Hk. replace (S v + k) with (v + S k) by lia. apply (H (S k) u y Hk).
Qed.
Lemma lits_hold a T : forall v, (forall l, In l (lits_of v T) -> lit_holds a l) <-> forall k t x, nth_error T k = Some (t, x) -> a (v + k) = x.
Proof.
  induction T as [|(t, x) T IH]; intros v; simpl.
  - split; [intros _ [|k] t x H; discriminate|intros _ l []].
  - split.
    + intros H [|k] u y Hk; simpl in Hk.
      * injection Hk as <- <-. rewrite Nat.add_0_r. specialize (H _ (or_introl eq_refl)). apply holds_mk in H. rewrite negb_involutive in H. exact H.
      * replace (v + S k) with (S v + k) by lia. apply (proj1 (IH (S v)) (fun l Hl => H l (or_intror Hl)) k u y Hk).
    + intros H l [<-|Hl].
      * apply holds_mk. rewrite negb_involutive. specialize (H 0 t x eq_refl). rewrite Nat.add_0_r in H. exact H.
      * apply (proj2 (IH (S v))); [|exact Hl]. intros k u y Hk. replace (S v + k) with (v + S k) by lia. apply (H (S k) u y Hk).
Qed.
Lemma enabled_count T : forall v, length (filter isActive (lits_of v T)) = length (filter snd T).
Proof.
  induction T as [|(t, x) T IH]; intros v; simpl; [reflexivity|]. unfold isActive at 1. rewrite lsign_mk, negb_involutive. destruct x; simpl; rewrite IH; reflexivity.
Qed.
