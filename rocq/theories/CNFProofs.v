Require Import List Arith Bool Lia Sorted Permutation Verif.Base Verif.CNFModel Verif.CNFSpec.
Import ListNotations.

(** ** sort *)
Lemma insert_in x y l : In y (insert x l) <-> y = x \/ In y l.
Proof.
  induction l as [|z l IH]; simpl; [intuition|].
  destruct (x <=? z); simpl; intuition.
Qed.

Lemma insert_perm x l : Permutation (x :: l) (insert x l).
Proof.
  induction l as [|z l IH]; simpl; auto.
  destruct (x <=? z); auto. eapply perm_trans; [apply perm_swap|]. constructor; auto.
Qed.

Lemma sort_perm l : Permutation l (sort l).
Proof.
  induction l as [|x l IH]; simpl; auto.
  eapply perm_trans; [apply perm_skip, IH | apply insert_perm].
Qed.

Lemma sort_in y l : In y (sort l) <-> In y l.
Proof.
  split; apply Permutation_in; [apply Permutation_sym|]; apply sort_perm.
Qed.

Lemma insert_sorted x l : StronglySorted le l -> StronglySorted le (insert x l).
Proof.
  induction 1 as [|y l Hs IH Hf]; simpl.
  - repeat constructor.
  - destruct (x <=? y) eqn:E.
    + apply Nat.leb_le in E. constructor; [constructor; auto|].
      constructor; auto. eapply Forall_impl; [|exact Hf]. intros; simpl in *; lia.
    + apply Nat.leb_gt in E. constructor; auto.
      apply Forall_forall. intros z Hz. apply insert_in in Hz.
      rewrite Forall_forall in Hf. destruct Hz as [->|Hz]; [lia|auto].
Qed.

Lemma sort_sorted l : StronglySorted le (sort l).
Proof. induction l; simpl; [constructor | apply insert_sorted; auto]. Qed.

(** ** unique *)
Lemma unique_from_in_le k l y :
  StronglySorted le (k :: l) -> (In y (k :: unique_from Nat.eqb k l) <-> In y (k :: l)).
Proof.
  revert k. induction l as [|x l IH]; intros k Hs; [reflexivity|].
  simpl unique_from. destruct (k =? x) eqn:E.
  - apply Nat.eqb_eq in E. subst x. rewrite IH; [simpl; intuition|]. inversion Hs; auto.
  - assert (Hs' : StronglySorted le (x :: l)) by (inversion Hs; auto).
    specialize (IH x Hs'). simpl in *. intuition.
Qed.

Lemma unique_from_strict k l :
  StronglySorted le (k :: l) -> StronglySorted lt (k :: unique_from Nat.eqb k l).
Proof.
  revert k. induction l as [|x l IH]; intros k Hs; simpl.
  - repeat constructor.
  - inversion Hs as [|? ? Hs1 Hf]; subst. destruct (k =? x) eqn:E.
    + apply Nat.eqb_eq in E; subst x. apply IH. auto.
    + apply Nat.eqb_neq in E. pose proof (IH x Hs1) as Hx. constructor; auto.
      inversion Hf; subst. inversion Hx; subst. constructor; [lia|].
      eapply Forall_impl; [|eassumption]. intros; simpl in *; lia.
Qed.

Lemma unique_in l y : StronglySorted le l -> (In y (unique Nat.eqb l) <-> In y l).
Proof. destruct l; [reflexivity|]. apply unique_from_in_le. Qed.

Lemma unique_strict l : StronglySorted le l -> StronglySorted lt (unique Nat.eqb l).
Proof. destruct l; [constructor|]. apply unique_from_strict. Qed.

Lemma unique_from_len eq k l : length (unique_from eq k l) <= length l.
Proof.
  revert k; induction l as [|x l IH]; intros k; simpl; auto.
  destruct (eq k x); simpl; [specialize (IH k)|specialize (IH x)]; lia.
Qed.

Lemma div2_le a b : a <= b -> lvar a <= lvar b.
Proof. unfold lvar. rewrite !Nat.div2_div. intros. apply Nat.div_le_mono; lia. Qed.

Lemma same_var_adjacent x y z : x < y -> y <= z -> lvar x = lvar z -> y = z.
Proof.
  intros Hxy Hyz Hv.
  assert (Hv' : lvar y = lvar z).
  { pose proof (div2_le x y). pose proof (div2_le y z). lia. }
  destruct (same_var x z Hv) as [H|H]; [lia|].
  destruct (same_var y z Hv') as [H'|H']; [auto|]. subst. lia.
Qed.

(** On a strictly sorted list the second std::unique removes something iff two different
    literals of one variable occur. *)
Lemma unique_var_taut k l :
  StronglySorted lt (k :: l) ->
  (length (unique_from (fun a b => lvar a =? lvar b) k l) <> length l <->
   exists x y, In x (k :: l) /\ In y (k :: l) /\ x <> y /\ lvar x = lvar y).
Proof.
  revert k. induction l as [|x l IH]; intros k Hs.
  - simpl. split; [congruence|]. intros (x & y & [<-|[]] & [<-|[]] & H & _); congruence.
  - inversion Hs as [|? ? Hs1 Hf]; subst. inversion Hf; subst. simpl unique_from.
    destruct (lvar k =? lvar x) eqn:E.
    + apply Nat.eqb_eq in E. pose proof (unique_from_len (fun a b => lvar a =? lvar b) k l).
      simpl. split; [|lia]. intros _. exists k, x. simpl. repeat split; auto. lia.
    + apply Nat.eqb_neq in E. simpl length.
      assert (Hne : S (length (unique_from (fun a b => lvar a =? lvar b) x l)) <> S (length l) <->
                length (unique_from (fun a b => lvar a =? lvar b) x l) <> length l) by lia.
      rewrite Hne, (IH x Hs1). split.
      * intros (a & b & Ha & Hb & Hab & Hv). exists a, b. simpl in *. tauto.
      * intros (a & b & Ha & Hb & Hab & Hv).
        assert (Hk : forall c, In c (x :: l) -> lvar k <> lvar c).
        { intros c Hc He. assert (x <= c).
          { destruct Hc as [->|Hc]; [lia|]. destruct (StronglySorted_inv Hs1) as [_ Hf1].
            rewrite Forall_forall in Hf1. specialize (Hf1 _ Hc). lia. }
          assert (x = c) by (apply (same_var_adjacent k x c); auto).
          subst; congruence. }
        destruct Ha as [<-|Ha], Hb as [<-|Hb].
        -- congruence.
        -- exfalso; eapply Hk; eauto.
        -- exfalso; eapply Hk; eauto.
        -- exists a, b. auto.
Qed.

Lemma last_in (l : list nat) d : l <> [] -> In (last l d) l.
Proof.
  induction l as [|x [|y l] IH]; intros H; [congruence| left; reflexivity|].
  right. apply IH. discriminate.
Qed.

Lemma sorted_last_max l d : StronglySorted le l -> forall x, In x l -> x <= last l d.
Proof.
  induction 1 as [|y l Hs IH Hf]; intros x Hx; [destruct Hx|].
  destruct l as [|z l].
  - destruct Hx as [<-|[]]. simpl. lia.
  - change (last (y :: z :: l) d) with (last (z :: l) d).
    destruct Hx as [<-|Hx]; [|auto].
    rewrite Forall_forall in Hf. apply Nat.le_trans with z; [apply Hf; left; auto|].
    apply IH. left; auto.
Qed.


Lemma tautology_pair c :
  (exists x y, In x c /\ In y c /\ x <> y /\ lvar x = lvar y) <-> tautology c.
Proof.
  split.
  - intros (x & y & Hx & Hy & Hn & Hv). destruct (same_var x y Hv) as [|H]; [congruence|].
    exists x. split; auto. subst. rewrite lneg_invol. auto.
  - intros (l & Hl & Hn). exists l, (lneg l). repeat split; auto.
    + intros H; symmetry in H; apply lneg_neq in H; auto.
    + symmetry; apply lvar_neg.
Qed.

Lemma tautology_same c d : same_literals c d -> tautology c -> tautology d.
Proof. intros H (l & H1 & H2). exists l. split; apply H; auto. Qed.

Lemma readClause_spec p c :
  (tautology c /\ problem (readClause p c) = problem p \/
   ~ tautology c /\ exists u, problem (readClause p c) = problem p ++ [u] /\
                    same_literals c u /\ strictly_sorted u) /\
  variables (readClause p c) = fold_left (fun m l => max m (S (lvar l))) c (variables p).
Proof.
  destruct c as [|x c].
  - simpl. split; [|reflexivity]. right. split; [intros (l & [] & _)|].
    exists []. repeat split; auto; constructor.
  - unfold readClause. set (cc := x :: c). cbv zeta.
    pose proof (sort_sorted cc) as Hs.
    set (u := unique Nat.eqb (sort cc)).
    assert (Hu : strictly_sorted u) by (apply unique_strict; auto).
    assert (Hin : same_literals cc u).
    { intros l. unfold u. rewrite unique_in, sort_in by auto. reflexivity. }
    assert (Hvars : max (variables p) (lvar (last (sort cc) 0) + 1) =
                    fold_left (fun m l => max m (S (lvar l))) cc (variables p)).
    { assert (Hfold : forall ls m, (forall k, m <= k -> (forall l, In l ls -> S (lvar l) <= k) ->
                fold_left (fun m l => max m (S (lvar l))) ls m <= k) /\
                m <= fold_left (fun m l => max m (S (lvar l))) ls m /\
                (forall l, In l ls -> S (lvar l) <= fold_left (fun m l => max m (S (lvar l))) ls m)).
      { induction ls as [|l ls IH]; intros m; simpl.
        - repeat split; auto. intros l [].
        - destruct (IH (max m (S (lvar l)))) as (I1 & I2 & I3). repeat split.
          + intros k H1 H2. apply I1; [|auto]. specialize (H2 l). apply Nat.max_lub; auto.
          + lia.
          + intros l' [<-|Hl']; [lia|auto]. }
      destruct (Hfold cc (variables p)) as (F1 & F2 & F3).
      assert (Hlast : In (last (sort cc) 0) cc).
      { apply sort_in, last_in. intros H. assert (In x (sort cc)) by (apply sort_in; left; auto).
        rewrite H in H0; destruct H0. }
      pose proof (F3 _ Hlast). apply Nat.le_antisymm; [lia|].
      apply F1; [lia|]. intros l Hl. apply sort_in in Hl.
      pose proof (sorted_last_max _ 0 Hs l Hl). apply div2_le in H0. lia. }
    assert (Ht : negb (length (unique (fun l1 l2 => lvar l1 =? lvar l2) u) =? length u) = true <-> tautology cc).
    { rewrite negb_true_iff, Nat.eqb_neq.
      rewrite <- tautology_pair. clearbody u.
      destruct u as [|k u].
      - split; [simpl; congruence|]. intros (a & b & Ha & _). apply Hin in Ha. destruct Ha.
      - simpl length.
        assert (forall n m, S n <> S m <-> n <> m) as -> by lia.
        rewrite (unique_var_taut k u Hu). split; intros (a & b & Ha & Hb & H);
          exists a, b; split; try split; auto; apply Hin; auto. }
    destruct (negb _) eqn:E.
    + split; [left|]; simpl; auto. split; auto. apply Ht; auto.
    + split; [right|]; simpl; auto. split; [|exists u; auto].
      intros H. apply Ht in H. congruence.
Qed.

Definition nontaut_dec (c : clause) : {tautology c} + {~ tautology c}.
Proof.
  destruct (existsb (fun l => existsb (Nat.eqb (lneg l)) c) c) eqn:E.
  - left. apply existsb_exists in E. destruct E as (l & Hl & E). apply existsb_exists in E.
    destruct E as (l' & Hl' & E). apply Nat.eqb_eq in E. exists l. subst; auto.
  - right. intros (l & Hl & Hn).
    assert (existsb (fun l => existsb (Nat.eqb (lneg l)) c) c = true); [|congruence].
    apply existsb_exists. exists l. split; auto. apply existsb_exists. exists (lneg l).
    split; auto. apply Nat.eqb_refl.
Qed.

Lemma fold_max_ge (ls : clause) m :
  m <= fold_left (fun m l => max m (S (lvar l))) ls m /\
  (forall l, In l ls -> lvar l < fold_left (fun m l => max m (S (lvar l))) ls m) /\
  (fold_left (fun m l => max m (S (lvar l))) ls m = m \/
   exists l, In l ls /\ fold_left (fun m l => max m (S (lvar l))) ls m = S (lvar l)).
Proof.
  revert m. induction ls as [|l ls IH]; intros m; simpl.
  - repeat split; auto. intros l [].
  - destruct (IH (max m (S (lvar l)))) as (I1 & I2 & I3). repeat split.
    + lia.
    + intros l' [<-|Hl']; [lia|auto].
    + destruct I3 as [I3|(l' & Hl' & I3)].
      * rewrite I3. destruct (Nat.max_spec m (S (lvar l))) as [[H ->]|[H ->]]; eauto.
      * eauto.
Qed.

(** The stored problem: exactly one clause per non-tautological input clause, in input order,
    with the same literals, sorted and without duplicates. *)
Lemma readClauses_spec cs : forall p,
  (forall c, In c (problem p) -> strictly_sorted c /\ ~ tautology c) ->
  exists us, problem (readClauses p cs) = problem p ++ us /\
    Forall2 (fun c u => same_literals c u /\ strictly_sorted u)
      (filter (fun c => if nontaut_dec c then false else true) cs) us /\
    (variables p <= variables (readClauses p cs)) /\
    (forall c l, In c cs -> In l c -> lvar l < variables (readClauses p cs)) /\
    (variables (readClauses p cs) = variables p \/
     exists c l, In c cs /\ In l c /\ variables (readClauses p cs) = S (lvar l)).
Proof.
  induction cs as [|c cs IH]; intros p Hp.
  - exists []. simpl. rewrite app_nil_r. repeat split; auto. intros ? ? [].
  - destruct (readClause_spec p c) as (Hc & Hv).
    change (readClauses p (c :: cs)) with (readClauses (readClause p c) cs).
    destruct (fold_max_ge c (variables p)) as (V1 & V2 & V3). rewrite <- Hv in V1, V2, V3.
    assert (Hp' : forall d, In d (problem (readClause p c)) -> strictly_sorted d /\ ~ tautology d).
    { destruct Hc as [(Ht & ->)|(Ht & u & -> & Hs & Hu)]; auto.
      intros d Hd. apply in_app_iff in Hd. destruct Hd as [Hd|[<-|[]]]; auto.
      split; auto. intros H. apply Ht. eapply tautology_same; [|exact H].
      intros l; symmetry; apply Hs. }
    destruct (IH _ Hp') as (us & H1 & H2 & H3 & H4 & H5).
    assert (Hvar: variables p <= variables (readClauses (readClause p c) cs) /\
      (forall c0 l, In c0 (c :: cs) -> In l c0 -> lvar l < variables (readClauses (readClause p c) cs)) /\
      (variables (readClauses (readClause p c) cs) = variables p \/
       exists c0 l, In c0 (c :: cs) /\ In l c0 /\ variables (readClauses (readClause p c) cs) = S (lvar l))).
    { split; [lia|]. split.
      - intros d l [<-|Hd] Hl; [specialize (V2 l Hl); lia|eauto].
      - destruct H5 as [H5|(d & l & Hd & Hl & H5)].
        + destruct V3 as [V3|(l & Hl & V3)]; [left; congruence|].
          right. exists c, l. simpl. rewrite H5. auto.
        + right. exists d, l. simpl; auto. }
    simpl filter. destruct (nontaut_dec c) as [Ht|Ht].
    + destruct Hc as [(_ & Hc)|(Hn & _)]; [|contradiction].
      exists us. rewrite H1, Hc. auto.
    + destruct Hc as [(Hn & _)|(_ & u & Hc & Hs & Hu)]; [contradiction|].
      exists (u :: us). rewrite H1, Hc, <- app_assoc. simpl. repeat split; try apply Hvar; auto.
Qed.

Lemma same_literals_sat a c u : same_literals c u -> (sat_clause a c <-> sat_clause a u).
Proof. intros H. split; intros (l & Hl & Ha); exists l; split; auto; apply H; auto. Qed.

Lemma readClauses_models cs a :
  sat a (problem (readClauses cnf_empty cs)) <-> sat a cs.
Proof.
  destruct (readClauses_spec cs cnf_empty) as (us & -> & H & _); [intros c []|].
  simpl. revert us H. induction cs as [|c cs IH]; intros us H.
  - simpl in H. inversion H; subst. split; intros; apply sat_nil.
  - rewrite sat_cons. simpl in H. destruct (nontaut_dec c) as [Ht|Ht].
    + rewrite (IH _ H). split; [|tauto]. intros; split; auto. apply taut_sat; auto.
    + inversion H as [|? u ? us' [Hu _] Hr]; subst. rewrite sat_cons, (IH _ Hr).
      rewrite (same_literals_sat a _ _ Hu). reflexivity.
Qed.

Lemma readClauses_shape cs c :
  In c (problem (readClauses cnf_empty cs)) ->
  strictly_sorted c /\ ~ tautology c /\ exists d, In d cs /\ same_literals c d.
Proof.
  destruct (readClauses_spec cs cnf_empty) as (us & -> & H & _); [intros d []|].
  simpl. revert us H. induction cs as [|d cs IH]; intros us H Hc.
  - simpl in H. inversion H; subst. destruct Hc.
  - simpl in H. destruct (nontaut_dec d) as [Ht|Ht].
    + destruct (IH _ H Hc) as (? & ? & e & ? & ?). repeat split; auto. exists e; simpl; auto.
    + inversion H as [|? u ? us' [Hu Hsu] Hr]; subst. destruct Hc as [<-|Hc].
      * split; auto. split.
        -- intros Htu. apply Ht. eapply tautology_same; [|exact Htu]. intros l; symmetry; apply Hu.
        -- exists d. split; [left; auto|]. intros l; symmetry; apply Hu.
      * destruct (IH _ Hr Hc) as (? & ? & e & ? & ?). repeat split; auto. exists e; simpl; auto.
Qed.

(** ** results *)
Lemma set_nth_length {A} n (x : A) l : length (set_nth n x l) = length l.
Proof.
  unfold set_nth. rewrite app_length.
  destruct (skipn n l) eqn:E; simpl.
  - rewrite <- (firstn_skipn n l) at 2. rewrite app_length, E. simpl. lia.
  - rewrite <- (firstn_skipn n l) at 2. rewrite app_length, E. simpl. lia.
Qed.

Lemma set_nth_nth {A} n (x : A) l i :
  nth_error (set_nth n x l) i = if (i =? n) && (n <? length l) then Some x else nth_error l i.
Proof.
  revert l i. induction n as [|n IH]; intros l i; unfold set_nth in *; destruct l as [|y l]; simpl.
  - destruct i; reflexivity.
  - destruct i; reflexivity.
  - destruct i; simpl; auto. rewrite andb_false_r. reflexivity.
  - destruct i; simpl; auto. rewrite IH. reflexivity.
Qed.


Lemma satisfies_assigns m l : satisfies m l = true <-> assigns m l.
Proof.
  unfold satisfies, assigns. rewrite andb_true_iff, Nat.ltb_lt.
  destruct (nth_error m (lvar l)) as [o|] eqn:E.
  - rewrite (nth_error_nth _ _ None E).
    assert (lvar l < length m) by (apply nth_error_Some; congruence).
    destruct o as [[]|], (lsign l); simpl; intuition congruence.
  - apply nth_error_None in E. split; [lia|congruence].
Qed.

Lemma setModelValue_assigns m x l :
  assigns (setModelValue m x) l <-> l = x \/ (lvar l <> lvar x /\ assigns m l).
Proof.
  unfold assigns, setModelValue. rewrite set_nth_nth.
  set (m' := if length m <=? lvar x then m ++ repeat None (lvar x + 1 - length m) else m).
  assert (Hl : lvar x < length m').
  { unfold m'. destruct (length m <=? lvar x) eqn:E; [|apply Nat.leb_gt; auto].
    rewrite app_length, repeat_length. apply Nat.leb_le in E. lia. }
  assert (Hn : forall i b, nth_error m' i = Some (Some b) <-> nth_error m i = Some (Some b)).
  { intros i b. unfold m'. destruct (length m <=? lvar x) eqn:E; [|reflexivity].
    destruct (Nat.lt_ge_cases i (length m)).
    - rewrite nth_error_app1 by auto. reflexivity.
    - rewrite nth_error_app2 by auto. rewrite (proj2 (nth_error_None m i)) by auto.
      split; [|discriminate]. intros H1. apply nth_error_In in H1. apply repeat_spec in H1. discriminate. }
  apply Nat.ltb_lt in Hl. rewrite Hl, andb_true_r.
  destruct (lvar l =? lvar x) eqn:E.
  - apply Nat.eqb_eq in E. split.
    + intros H. left. rewrite (lit_eta l), (lit_eta x), E. inversion H.
      destruct (lsign l), (lsign x); simpl in *; congruence.
    + intros [->|[H _]]; congruence.
  - apply Nat.eqb_neq in E. rewrite Hn. split; [auto|].
    intros [->|[_ H]]; congruence.
Qed.

Lemma setModel_assigns m ls l :
  assigns (setModel m ls) l <->
  (exists pre post, ls = pre ++ l :: post /\ forall x, In x post -> lvar x = lvar l -> x = l) \/
  ((forall x, In x ls -> lvar x <> lvar l) /\ assigns m l).
Proof.
  revert m. induction ls as [|x ls IH]; intros m.
  - simpl. split; [intros; right; split; auto; intros ? [] |].
    intros [(pre & post & H & _)|[_ H]]; [destruct pre; discriminate|auto].
  - change (setModel m (x :: ls)) with (setModel (setModelValue m x) ls).
    rewrite IH, setModelValue_assigns. split.
    + intros [(pre & post & -> & H)|[H1 [->|[H2 H3]]]].
      * left. exists (x :: pre), post. auto.
      * left. exists [], ls. split; auto. intros y Hy Hv. exfalso; eapply H1; eauto.
      * right. split; auto. intros y [<-|Hy]; auto.
    + intros [(pre & post & Heq & H)|[H1 H2]].
      * destruct pre as [|y pre]; simpl in Heq; inversion Heq; subst.
        -- destruct (in_dec Nat.eq_dec l post) as [Hi|Hi].
           ++ left. apply in_split in Hi. destruct Hi as (p1 & p2 & ->).
              exists p1, p2. split; auto. intros z Hz. apply H. rewrite in_app_iff; simpl; auto.
           ++ right. split; auto. intros z Hz Hv. apply Hi. rewrite <- (H z); auto.
        -- left. exists pre, post. auto.
      * right. split; [intros; apply H1; right; auto|]. right. split; auto.
        intros Hv. apply (H1 x); simpl; auto.
Qed.

Lemma getModelLiterals_from_in v m l :
  In l (getModelLiterals_from v m) <-> v <= lvar l /\ nth_error m (lvar l - v) = Some (Some (negb (lsign l))).
Proof.
  revert v. induction m as [|o m IH]; intros v; simpl.
  - split; [intros []|]. intros [_ H]. destruct (lvar l - v); discriminate.
  - assert (Hrest : In l (getModelLiterals_from (S v) m) <->
      lvar l <> v /\ v <= lvar l /\ nth_error (o :: m) (lvar l - v) = Some (Some (negb (lsign l)))).
    { rewrite IH. split.
      - intros [H1 H2]. split; [lia|]. split; [lia|].
        replace (lvar l - v) with (S (lvar l - S v)) by lia. auto.
      - intros (H1 & H2 & H3). split; [lia|].
        replace (lvar l - v) with (S (lvar l - S v)) in H3 by lia. auto. }
    destruct o as [b|]; simpl In; rewrite ?Hrest.
    + split.
      * intros [<-|(_ & H)]; auto. rewrite lvar_mk, lsign_mk, Nat.sub_diag, negb_involutive. auto.
      * intros [H1 H2]. destruct (Nat.eq_dec (lvar l) v) as [<-|]; [|auto].
        left. rewrite Nat.sub_diag in H2. inversion H2. rewrite negb_involutive. symmetry; apply lit_eta.
    + split; [intros (_ & H); auto|]. intros [H1 H2]. split; auto.
      intros <-. rewrite Nat.sub_diag in H2. discriminate.
Qed.

Lemma getModelLiterals_in m l : In l (getModelLiterals m) <-> assigns m l.
Proof.
  unfold getModelLiterals, assigns. rewrite getModelLiterals_from_in, Nat.sub_0_r. intuition lia.
Qed.

Lemma checkResult_true f m :
  checkResult f m = Some true <-> forall c, In c f -> exists l, In l c /\ assigns m l.
Proof.
  induction f as [|c f IH]; simpl.
  - split; auto. intros _ c [].
  - destruct (existsb (satisfies m) c) eqn:E.
    + rewrite IH. apply existsb_exists in E. destruct E as (l & Hl & E). apply satisfies_assigns in E.
      split; [|auto]. intros H d [<-|Hd]; eauto.
    + assert (Hn : ~ exists l, In l c /\ assigns m l).
      { intros (l & Hl & Ha). apply satisfies_assigns in Ha.
        assert (existsb (satisfies m) c = true) by (apply existsb_exists; eauto). congruence. }
      destruct (forallb _ c); split; try congruence; intros H; exfalso; apply Hn, H; auto.
Qed.

Lemma checkResult_false f m :
  checkResult f m = Some false -> exists c, In c f /\ ~ exists l, In l c /\ assigns m l.
Proof.
  induction f as [|c f IH]; simpl; [discriminate|].
  destruct (existsb (satisfies m) c) eqn:E.
  - intros H. destruct (IH H) as (d & Hd & Hn). eauto.
  - intros _. exists c. split; auto. intros (l & Hl & Ha). apply satisfies_assigns in Ha.
    assert (existsb (satisfies m) c = true) by (apply existsb_exists; eauto). congruence.
Qed.

Lemma checkResult_defined f m :
  (forall c l, In c f -> In l c -> lvar l < length m) -> checkResult f m <> None.
Proof.
  induction f as [|c f IH]; simpl; [discriminate|]. intros H.
  destruct (existsb (satisfies m) c); [eauto|].
  replace (forallb _ c) with true; [discriminate|].
  symmetry. apply forallb_forall. intros l Hl. unfold value.
  specialize (H c l (or_introl eq_refl) Hl). apply nth_error_Some in H.
  destruct (nth_error m (lvar l)) as [[[]|]|]; congruence.
Qed.

Lemma checkResult_extends f m a :
  checkResult f m = Some true ->
  (forall l, assigns m l -> lit_holds a l) -> sat a f.
Proof.
  intros H Ha c Hc. rewrite checkResult_true in H. destruct (H c Hc) as (l & Hl & Hm). exists l; auto.
Qed.

(** ** normalizeVariableNames *)

Definition name_inv (st : names * nat) : Prop :=
  (forall v w, fst st v = Some w -> w < snd st) /\
  (forall v v' w, fst st v = Some w -> fst st v' = Some w -> v = v') /\
  (forall w, w < snd st -> exists v, fst st v = Some w).
Definition name_ext (st st' : names * nat) : Prop :=
  forall v w, fst st v = Some w -> fst st' v = Some w.
Definition of_names (st : names * nat) : var -> var :=
  fun v => match fst st v with Some w => w | None => 0 end.

Lemma norm_lit_spec st l st' l' :
  norm_lit st l = (st', l') -> name_inv st ->
  name_inv st' /\ name_ext st st' /\
  (forall v, fst st' v <> None <-> fst st v <> None \/ v = lvar l) /\
  fst st' (lvar l) = Some (lvar l') /\ lsign l' = lsign l.
Proof.
  destruct st as [nm mx]. unfold norm_lit, name_inv, name_ext. simpl.
  destruct (nm (lvar l)) as [w|] eqn:E; intros H (I1 & I2 & I3); inversion H; subst; clear H; simpl.
  - rewrite lvar_mk, lsign_mk. repeat split; auto.
    intros [H|H]; [auto | subst; congruence].
  - rewrite lvar_mk, lsign_mk, Nat.eqb_refl. repeat split; auto.
    + intros v w. destruct (v =? lvar l); intros H; [inversion H; lia | apply I1 in H; lia].
    + intros v v' w. destruct (v =? lvar l) eqn:Ev, (v' =? lvar l) eqn:Ev'; intros H H'.
      * apply Nat.eqb_eq in Ev, Ev'. congruence.
      * inversion H; subst. apply I1 in H'. lia.
      * inversion H'; subst. apply I1 in H. lia.
      * eauto.
    + intros w Hw. destruct (Nat.eq_dec w mx) as [->|].
      * exists (lvar l). rewrite Nat.eqb_refl. auto.
      * destruct (I3 w) as (v & Hv); [lia|]. exists v.
        destruct (v =? lvar l) eqn:Ev; auto. apply Nat.eqb_eq in Ev. subst; congruence.
    + intros v w H. destruct (v =? lvar l) eqn:Ev; auto. apply Nat.eqb_eq in Ev. subst; congruence.
    + intros H. destruct (v =? lvar l) eqn:Ev; [right; apply Nat.eqb_eq; auto | left; auto].
    + intros [H|H]; destruct (v =? lvar l) eqn:Ev; try congruence.
      apply Nat.eqb_neq in Ev. congruence.
Qed.

Lemma norm_clause_spec c : forall st st' c',
  norm_clause st c = (st', c') -> name_inv st ->
  name_inv st' /\ name_ext st st' /\
  (forall v, fst st' v <> None <-> fst st v <> None \/ occurs [c] v) /\
  c' = map (rename (of_names st')) c.
Proof.
  induction c as [|l c IH]; simpl; intros st st' c' H Hi.
  - inversion H; subst. split; [auto|]. split; [intros v w Hv; auto|]. split; [|reflexivity].
    intros v. split; [auto|]. intros [Hv|(? & ? & [<-|[]] & [] & _)]; auto.
  - destruct (norm_lit st l) as [st1 l'] eqn:E1. destruct (norm_clause st1 c) as [st2 r'] eqn:E2.
    inversion H; subst; clear H.
    destruct (norm_lit_spec _ _ _ _ E1 Hi) as (I1 & X1 & D1 & N1 & S1).
    destruct (IH _ _ _ E2 I1) as (I2 & X2 & D2 & ->).
    split; [exact I2|]. split; [intros v w Hv; auto|]. split.
    + intros v. rewrite D2, D1. split.
      * intros [[Hv| ->]|(d & x & [<-|[]] & Hx & Hv)]; auto.
        -- right. exists (l :: c), l. simpl; auto.
        -- right. exists (l :: c), x. simpl; auto.
      * intros [Hv|(d & x & [<-|[]] & [<-|Hx] & Hv)]; auto. right. exists c, x. simpl; auto.
    + f_equal. unfold rename, of_names. rewrite (X2 _ _ N1), <- S1. apply lit_eta.
Qed.

Lemma norm_clauses_spec f : forall st st' f',
  norm_clauses st f = (st', f') -> name_inv st ->
  name_inv st' /\ name_ext st st' /\
  (forall v, fst st' v <> None <-> fst st v <> None \/ occurs f v) /\
  f' = map (map (rename (of_names st'))) f.
Proof.
  induction f as [|c f IH]; simpl; intros st st' f' H Hi.
  - inversion H; subst. split; [auto|]. split; [intros v w Hv; auto|]. split; [|reflexivity].
    intros v. split; [auto|]. intros [Hv|(? & ? & [] & _)]; auto.
  - destruct (norm_clause st c) as [st1 c'] eqn:E1. destruct (norm_clauses st1 f) as [st2 r'] eqn:E2.
    inversion H; subst; clear H.
    destruct (norm_clause_spec _ _ _ _ E1 Hi) as (I1 & X1 & D1 & ->).
    destruct (IH _ _ _ E2 I1) as (I2 & X2 & D2 & ->).
    split; [exact I2|]. split; [intros v w Hv; auto|]. split.
    + intros v. rewrite D2, D1. unfold occurs. split.
      * intros [[Hv|(d & x & [<-|[]] & Hx & Hv)]|(d & x & Hd & Hx & Hv)]; auto.
        -- right. exists c, x. simpl; auto.
        -- right. exists d, x. simpl; auto.
      * intros [Hv|(d & x & [<-|Hd] & Hx & Hv)]; auto.
        -- left; right. exists c, x. simpl; auto.
        -- right. exists d, x. auto.
    + f_equal. apply map_ext_in. intros l Hl. unfold rename, of_names.
      assert (fst st1 (lvar l) <> None) as Hn.
      { apply D1. right. exists c, l. simpl; auto. }
      destruct (fst st1 (lvar l)) as [w|] eqn:Ew; [|congruence]. rewrite (X2 _ _ Ew). reflexivity.
Qed.

Lemma normalize_spec p :
  exists r : var -> var,
    problem (normalizeVariableNames p) = map (map (rename r)) (problem p) /\
    (forall v v', occurs (problem p) v -> occurs (problem p) v' -> r v = r v' -> v = v') /\
    (forall v, occurs (problem p) v -> r v < variables (normalizeVariableNames p)) /\
    (forall w, w < variables (normalizeVariableNames p) -> exists v, occurs (problem p) v /\ r v = w).
Proof.
  unfold normalizeVariableNames.
  destruct (norm_clauses (fun _ => None, 0) (problem p)) as [[nm mx] f'] eqn:E.
  destruct (norm_clauses_spec _ _ _ _ E) as (I & _ & D & ->).
  { repeat split; simpl; try discriminate. intros; lia. }
  simpl in *. exists (of_names (nm, mx)). split; auto.
  destruct I as (I1 & I2 & I3). simpl in *.
  assert (D' : forall v, occurs (problem p) v -> exists w, nm v = Some w).
  { intros v Hv. destruct (nm v) eqn:Ev; eauto. exfalso. apply (proj2 (D v)); auto. }
  unfold of_names; simpl. repeat split.
  - intros v v' Hv Hv' H. destruct (D' v Hv) as (w & Hw), (D' v' Hv') as (w' & Hw').
    rewrite Hw, Hw' in H. subst. eapply I2; eauto.
  - intros v Hv. destruct (D' v Hv) as (w & Hw). rewrite Hw. eauto.
  - intros w Hw. destruct (I3 w Hw) as (v & Hv). exists v. rewrite Hv. split; auto.
    assert (nm v <> None) as Hn by congruence. apply D in Hn. tauto.
Qed.

Lemma rename_val a r l : lit_val a (rename r l) = lit_val (fun v => a (r v)) l.
Proof. unfold lit_val, rename. rewrite lvar_mk, lsign_mk. reflexivity. Qed.

Lemma rename_sat a r f : sat a (map (map (rename r)) f) <-> sat (fun v => a (r v)) f.
Proof.
  unfold sat, sat_clause, lit_holds. split.
  - intros H c Hc. destruct (H (map (rename r) c)) as (l & Hl & Ha); [apply in_map; auto|].
    apply in_map_iff in Hl. destruct Hl as (x & <- & Hx). exists x. rewrite <- rename_val. auto.
  - intros H c Hc. apply in_map_iff in Hc. destruct Hc as (d & <- & Hd).
    destruct (H d Hd) as (l & Hl & Ha). exists (rename r l). rewrite rename_val. split; auto. apply in_map; auto.
Qed.

Lemma sat_agree a b f : (forall v, occurs f v -> a v = b v) -> sat a f -> sat b f.
Proof.
  intros H Hs c Hc. destruct (Hs c Hc) as (l & Hl & Ha). exists l. split; auto.
  unfold lit_holds, lit_val in *. rewrite <- H; auto. exists c, l; auto.
Qed.

Lemma normalize_models p :
  exists r : var -> var,
    (forall v v', occurs (problem p) v -> occurs (problem p) v' -> r v = r v' -> v = v') /\
    (forall a, sat a (problem (normalizeVariableNames p)) <-> sat (fun v => a (r v)) (problem p)) /\
    (forall b, sat b (problem p) -> exists a, sat a (problem (normalizeVariableNames p)) /\
                                     forall v, occurs (problem p) v -> a (r v) = b v).
Proof.
  destruct (normalize_spec p) as (r & Hp & Hinj & Hlt & Hsur). exists r. split; auto. split.
  - intros a. rewrite Hp. apply rename_sat.
  - intros b Hb. rewrite Hp.
    (* the inverse renaming, found by searching the occurring variables *)
    set (vs := map lvar (concat (problem p))).
    assert (Hvs : forall v, In v vs <-> occurs (problem p) v).
    { intros v. unfold vs, occurs. rewrite in_map_iff. split.
      - intros (l & <- & Hl). apply in_concat in Hl. destruct Hl as (c & Hc & Hl). eauto.
      - intros (c & l & Hc & Hl & <-). exists l. split; auto. apply in_concat; eauto. }
    set (a := fun w => match find (fun v => r v =? w) vs with Some v => b v | None => false end).
    assert (Ha : forall v, occurs (problem p) v -> a (r v) = b v).
    { intros v Hv. unfold a. destruct (find (fun v0 => r v0 =? r v) vs) as [v'|] eqn:E.
      - apply find_some in E. destruct E as [E1 E2]. apply Nat.eqb_eq in E2.
        rewrite (Hinj v' v); auto. apply Hvs; auto.
      - apply Hvs in Hv. apply (find_none _ _ E) in Hv. rewrite Nat.eqb_refl in Hv. discriminate. }
    exists a. split; auto. apply rename_sat. apply (sat_agree b); auto.
    intros v Hv. symmetry. auto.
Qed.

Lemma readClauses_stored cs c :
  In c cs -> ~ tautology c ->
  exists u, In u (problem (readClauses cnf_empty cs)) /\ same_literals c u.
Proof.
  destruct (readClauses_spec cs cnf_empty) as (us & -> & H & _); [intros d []|].
  simpl. revert us H. induction cs as [|d cs IH]; intros us H Hc Hn; [destruct Hc|].
  simpl in H. destruct (nontaut_dec d) as [Ht|Ht].
  - destruct Hc as [->|Hc]; [contradiction|auto].
  - inversion H as [|? u ? us' [Hu Hsu] Hr]; subst. destruct Hc as [->|Hc].
    + exists u. simpl; auto.
    + destruct (IH _ Hr Hc Hn) as (w & Hw & Hs). exists w; simpl; auto.
Qed.

Lemma readClauses_nvars cs :
  (forall v, occurs cs v -> v < variables (readClauses cnf_empty cs)) /\
  (variables (readClauses cnf_empty cs) = 0 \/
   exists v, occurs cs v /\ variables (readClauses cnf_empty cs) = S v).
Proof.
  destruct (readClauses_spec cs cnf_empty) as (us & _ & _ & _ & H1 & H2); [intros d []|].
  split.
  - intros v (c & l & Hc & Hl & <-). eauto.
  - destruct H2 as [H2|(c & l & Hc & Hl & H2)]; [left; auto|right].
    exists (lvar l). split; auto. exists c, l; auto.
Qed.
