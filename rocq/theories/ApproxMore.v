(** Proofs of C47: whole commits and histories of one equivalence class and of the backbones. *)
Require Import List Arith Bool Lia Permutation Sorted.
Require Import Verif.Base Verif.Outcome Verif.ApproxModel Verif.ApproxSpec Verif.ApproxLemmas Verif.ApproxProofs.
Import ListNotations.

(** ** Equivalence classes *)
Lemma loop_ok : forall fuel e c new rem, Rep (ei_ante e) (ei_succ e) c -> ssorted (ei_queue e) -> length (ei_queue e) <= fuel ->
  exists e' n r, commit_loop fuel e new rem = Ok (e', new ++ n, rem ++ r) /\ ei_queue e' = [] /\ ei_list e' = ei_list e /\
    (exists c', Rep (ei_ante e') (ei_succ e') c' /\ Permutation (ring (out_of (ei_queue e) c)) (ring c') /\ Permutation (ring c ++ n) (ring c' ++ r)) /\
    length n <= length r /\
    (forall i, In i r -> In (kfst i) (ei_queue e) \/ In (ksnd i) (ei_queue e)) /\
    (forall i, In i n -> ~ In (kfst i) (ei_queue e) /\ ~ In (ksnd i) (ei_queue e)).
Proof.
  induction fuel as [|k IH]; intros e c new rem HR HS HL.
  - destruct (ei_queue e) as [|v q] eqn:Eq; [|simpl in HL; lia]. exists e, [], []. cbn [commit_loop]. rewrite Eq, !app_nil_r.
    split; [reflexivity|]. split; [reflexivity|]. split; [reflexivity|]. split.
    + exists c. split; [exact HR|]. rewrite !app_nil_r. split; [|apply Permutation_refl]. unfold out_of. simpl.
      replace (filter (fun _ : lit => true) c) with c by (clear; induction c; simpl; congruence). apply Permutation_refl.
    + split; [simpl; lia|]. split; intros i [].
  - cbn [commit_loop]. destruct (ei_queue e) as [|v q] eqn:Eq.
    + exists e, [], []. rewrite !app_nil_r. split; [reflexivity|]. split; [exact Eq|]. split; [reflexivity|]. split.
      * exists c. split; [exact HR|]. rewrite !app_nil_r. split; [|apply Permutation_refl]. unfold out_of. simpl.
        replace (filter (fun _ : lit => true) c) with c by (clear; induction c; simpl; congruence). apply Permutation_refl.
      * split; [simpl; lia|]. split; intros i [].
    + rewrite <- Eq in *. destruct (step_ok e c v q HR HS Eq) as (e1 & n1 & r1 & E1 & c1 & S1 & S2 & S3 & S4 & S5 & S6 & S7 & S8 & S9 & S10 & S11).
      rewrite E1. cbn [bind]. destruct (IH e1 c1 (new ++ n1) (rem ++ r1) S1 S2) as (e2 & n2 & r2 & E2 & T1 & T2 & (c2 & T3 & T4 & T5) & T6 & T7 & T8); [lia|].
      exists e2, (n1 ++ n2), (r1 ++ r2). rewrite !app_assoc. split; [exact E2|]. split; [exact T1|]. split; [congruence|]. split; [|split; [|split]].
      * exists c2. split; [exact T3|]. split; [eapply Permutation_trans; [exact S10|exact T4]|].
        eapply Permutation_trans; [apply Permutation_app_tail; exact S6|].
        rewrite <- app_assoc. eapply Permutation_trans; [apply Permutation_app_head, Permutation_app_comm|].
        rewrite app_assoc. eapply Permutation_trans; [apply Permutation_app_tail; exact T5|].
        rewrite <- !app_assoc. apply Permutation_app_head. apply Permutation_app_comm.
      * rewrite !app_length. lia.
      * intros i Hi. apply in_app_or in Hi. destruct Hi as [Hi|Hi]; [apply S8; exact Hi|]. destruct (T7 i Hi) as [K|K]; [left|right]; apply S4; exact K.
      * intros i Hi. apply in_app_or in Hi. destruct Hi as [Hi|Hi]; [apply S9; exact Hi|]. destruct (T8 i Hi) as (K1 & K2).
        (* the literals of later patches were never queued *)
        assert (K : In i (ring c2)).
        { assert (K : In i (ring c2 ++ r2)) by (apply (Permutation_in _ T5); apply in_or_app; right; exact Hi).
          apply in_app_or in K. destruct K as [K|K]; [exact K|]. destruct (T7 i K); tauto. }
        assert (Hc1 : forall w, (w = fst i \/ w = snd i) -> In w c1).
        { intros w Hw.
          assert (P : Permutation (ring (out_of (ei_queue e1) c1)) (ring c2)) by exact T4.
          apply (Permutation_in _ (Permutation_sym P)) in K. apply ring_in in K. destruct K as (P1 & P2).
          unfold out_of in P1, P2. apply filter_In in P1. apply filter_In in P2. destruct Hw as [->| ->]; tauto. }
        split; intros F.
        -- apply K1. apply (S11 (fst i)); [apply Hc1; auto|exact F].
        -- apply K2. apply (S11 (snd i)); [apply Hc1; auto|exact F].
Qed.
Definition EI (e : eqi) (c : list lit) : Prop :=
  Rep (ei_ante e) (ei_succ e) c /\ ssorted (ei_queue e) /\ ei_list e = map snd (ei_ante e).
Lemma distinct_filter p ls : distinct_vars ls -> distinct_vars (filter p ls).
Proof.
  unfold distinct_vars. induction ls as [|a r IH]; simpl; intros H; [exact H|]. inversion H as [|? ? N1 N2]; subst.
  destruct (p a); simpl; [|apply IH; exact N2]. constructor; [|apply IH; exact N2].
  intros K. apply N1. apply in_map_iff in K. destruct K as (u & E & Hu). apply filter_In in Hu. rewrite <- E. apply in_map. tauto.
Qed.
Lemma ei_list_ring e c : EI e c -> Permutation (ei_list e) (ring c).
Proof. intros ((_ & H & _) & _ & E). rewrite E. apply (repm_values _ _ _ H). Qed.
Lemma commit_ok e c : EI e c -> exists e' n r, ei_commit e = Ok (e', n, r) /\ ei_queue e' = [] /\ EI e' (out_of (ei_queue e) c) /\
  Permutation (ei_list e ++ n) (ei_list e' ++ r) /\ length n <= length r /\
  (forall i, In i r -> In (kfst i) (ei_queue e) \/ In (ksnd i) (ei_queue e)) /\
  (forall i, In i n -> ~ In (kfst i) (ei_queue e) /\ ~ In (ksnd i) (ei_queue e)).
Proof.
  intros HE. pose proof HE as (HR & HS & HL). unfold ei_commit. destruct (ei_queue e) as [|v q] eqn:Eq.
  - exists e, [], []. split; [reflexivity|]. split; [exact Eq|]. split; [|rewrite !app_nil_r; split; [apply Permutation_refl|split; [simpl; lia|split; intros i []]]].
    unfold out_of. simpl. replace (filter (fun _ : lit => true) c) with c by (clear; induction c; simpl; congruence). exact HE.
  - rewrite <- Eq in *. destruct (loop_ok (length (ei_queue e)) e c [] [] HR HS (le_n _)) as (e' & n & r & E & T1 & T2 & (c' & T3 & T4 & T5) & T6 & T7 & T8).
    rewrite E. cbn [bind app]. exists (updateCache e'), n, r. split; [reflexivity|]. split; [exact T1|].
    assert (HE' : EI (updateCache e') (out_of (ei_queue e) c)).
    { split; [|split].
      - cbn [updateCache ei_ante ei_succ]. destruct T3 as (_ & A1 & A2). split; [apply distinct_filter; exact (proj1 HR)|].
        split; eapply repm_perm; eauto; apply Permutation_sym; exact T4.
      - cbn [updateCache ei_queue]. rewrite T1. constructor.
      - reflexivity. }
    split; [exact HE'|]. split; [|split; [exact T6|split; [exact T7|exact T8]]].
    pose proof (ei_list_ring _ _ HE) as P1. pose proof (ei_list_ring _ _ HE') as P2.
    eapply Permutation_trans; [apply Permutation_app_tail; exact P1|]. eapply Permutation_trans; [exact T5|].
    apply Permutation_app_tail. eapply Permutation_trans; [apply Permutation_sym; exact T4|]. apply Permutation_sym. exact P2.
Qed.

(** ** New classes *)
Lemma adds_ok : forall L e M, RepM (ei_ante e) kfst M -> RepM (ei_succ e) ksnd M -> NoDup (map kfst (M ++ L)) -> NoDup (map ksnd (M ++ L)) ->
  let e' := fold_left (fun e i => addImplication i e) L e in
  RepM (ei_ante e') kfst (M ++ L) /\ RepM (ei_succ e') ksnd (M ++ L) /\ ei_queue e' = ei_queue e.
Proof.
  induction L as [|i L IH]; intros e M H1 H2 N1 N2; simpl.
  - rewrite app_nil_r. auto.
  - assert (P : Permutation (M ++ [i]) (i :: M)) by (apply Permutation_sym, Permutation_cons_append).
    assert (K1 : ~ In (kfst i) (map kfst M)).
    { intros K. rewrite map_app in N1. apply (nodup_app_disj _ _ _ N1 K). left. reflexivity. }
    assert (K2 : ~ In (ksnd i) (map ksnd M)).
    { intros K. rewrite map_app in N2. apply (nodup_app_disj _ _ _ N2 K). left. reflexivity. }
    assert (E : M ++ i :: L = (M ++ [i]) ++ L) by (rewrite <- app_assoc; reflexivity). rewrite E in *.
    apply (IH (addImplication i e) (M ++ [i])); auto.
    + eapply repm_perm; [|apply Permutation_sym; exact P]. apply (repm_put _ kfst _ i H1 K1).
    + eapply repm_perm; [|apply Permutation_sym; exact P]. apply (repm_put _ ksnd _ i H2 K2).
Qed.
Lemma new_ok ls : distinct_vars ls -> EI (ei_new ls) ls /\ ei_queue (ei_new ls) = [].
Proof.
  intros HN. unfold ei_new. destruct ls as [|a [|b r]].
  - split; [|reflexivity]. split; [split; [exact HN|split; apply repm_nil]|]. split; [constructor|reflexivity].
  - split; [|reflexivity]. split; [split; [exact HN|split; apply repm_nil]|]. split; [constructor|reflexivity].
  - set (e0 := mkEqi [] [] [] []). set (ls := a :: b :: r) in *.
    assert (Er : ring ls = chain ls ++ [(last ls a, a)]).
    { unfold ls. rewrite ring_chain. destruct (exists_last (l := a :: b :: r)) as (p & u & Ep); [discriminate|].
      change (a :: b :: r ++ [a]) with ((a :: b :: r) ++ [a]). rewrite Ep. rewrite <- app_assoc. simpl app. rewrite chain_snoc. f_equal. f_equal. f_equal.
      symmetry. apply last_last. }
    pose proof (ring_nodup_fst ls HN) as N1. pose proof (ring_nodup_snd ls HN) as N2. rewrite Er in N1, N2.
    destruct (adds_ok (chain ls ++ [(last ls a, a)]) e0 [] (repm_nil _) (repm_nil _) N1 N2) as (A1 & A2 & A3).
    rewrite fold_left_app in A1, A2, A3. cbn [fold_left app] in A1, A2, A3.
    split; [|exact A3]. split; [|split; [|reflexivity]].
    + cbn [updateCache ei_ante ei_succ]. split; [exact HN|]. rewrite Er. split; [exact A1|exact A2].
    + cbn [updateCache ei_queue]. rewrite A3. constructor.
Qed.

(** ** Histories *)
Lemma out_of_out_of Q Q' ls : out_of Q' (out_of Q ls) = out_of (Q ++ Q') ls.
Proof.
  unfold out_of. induction ls as [|a r IH]; [reflexivity|]. cbn [filter].
  replace (smem (lvar a) (Q ++ Q')) with (smem (lvar a) Q || smem (lvar a) Q') by (symmetry; apply existsb_app).
  destruct (smem (lvar a) Q); simpl; [exact IH|]. destruct (smem (lvar a) Q'); simpl; [exact IH|]. rewrite IH. reflexivity.
Qed.
Lemma run_ok : forall h e c m, EI e c -> (forall v, In v (ei_queue e) <-> In v m) ->
  exists s, ei_run h e = Ok s /\ EI s (out_of (committed m h) c).
Proof.
  induction h as [|[v|] h IH]; intros e c m HE Hm; simpl.
  - exists e. split; [reflexivity|]. unfold out_of. simpl. replace (filter (fun _ : lit => true) c) with c by (clear; induction c; simpl; congruence). exact HE.
  - apply (IH (ei_mark e v) c (v :: m)).
    + destruct HE as (H1 & H2 & H3). split; [exact H1|]. split; [apply sput_sorted; exact H2|exact H3].
    + intros u. cbn [ei_mark ei_queue]. rewrite sput_in, Hm. simpl. intuition auto.
  - destruct (commit_ok e c HE) as (e' & n & r & E & Q & HE' & _). rewrite E. cbn [bind].
    destruct (IH e' (out_of (ei_queue e) c) []) as (s & Es & Hs); [exact HE'|intros u; rewrite Q; tauto|].
    exists s. split; [exact Es|]. rewrite out_of_out_of in Hs. replace (out_of (m ++ committed [] h) c) with (out_of (ei_queue e ++ committed [] h) c); [exact Hs|].
    apply out_of_ext. intros w _. apply smem_ext. rewrite !in_app_iff, Hm. tauto.
Qed.
Lemma class_reach ls h : distinct_vars ls -> exists s, ei_run h (ei_new ls) = Ok s /\ EI s (remaining h ls).
Proof.
  intros HN. destruct (new_ok ls HN) as (H1 & H2). apply (run_ok h (ei_new ls) ls []); [exact H1|]. intros v. rewrite H2. tauto.
Qed.
Lemma class_list ls h : distinct_vars ls -> exists s, ei_run h (ei_new ls) = Ok s /\ Permutation (ei_list s) (ring (remaining h ls)).
Proof. intros HN. destruct (class_reach ls h HN) as (s & E & H). exists s. split; [exact E|apply ei_list_ring; exact H]. Qed.
Lemma class_meaning ls h s a : distinct_vars ls -> ei_run h (ei_new ls) = Ok s ->
  (forall i, In i (ei_list s) -> impl_holds a i) <-> all_equal a (remaining h ls).
Proof.
  intros HN E. destruct (class_list ls h HN) as (s' & E' & P). rewrite E in E'. injection E' as <-. rewrite <- ring_meaning.
  split; intros H i Hi; apply H; [apply (Permutation_in _ (Permutation_sym P) Hi)|apply (Permutation_in _ P Hi)].
Qed.
Lemma commit_facts s c : EI s c -> exists s' n r, ei_commit s = Ok (s', n, r) /\ ei_queue s' = [] /\ EI s' (out_of (ei_queue s) c) /\
    Permutation (ei_list s ++ n) (ei_list s' ++ r) /\ length n <= length r /\
    (forall i, In i r -> In i (ei_list s) /\ ~ In i (ei_list s')) /\ (forall i, In i n -> In i (ei_list s') /\ ~ In i (ei_list s)) /\
    (forall i, In i r -> In (kfst i) (ei_queue s) \/ In (ksnd i) (ei_queue s)) /\ NoDup (ei_list s ++ n).
Proof.
  intros H. destruct (commit_ok s _ H) as (s' & n & r & Ec & Eq & H' & P & L & Hr & Hn). exists s', n, r.
  split; [exact Ec|]. split; [exact Eq|]. split; [exact H'|]. split; [exact P|]. split; [exact L|].
  assert (NL : NoDup (ei_list s)).
  { eapply Permutation_NoDup; [apply Permutation_sym, ei_list_ring; exact H|]. apply (NoDup_map_inv kfst), ring_nodup_fst. exact (proj1 (proj1 H)). }
  assert (NL' : NoDup (ei_list s')).
  { eapply Permutation_NoDup; [apply Permutation_sym, ei_list_ring; exact H'|]. apply (NoDup_map_inv kfst), ring_nodup_fst. exact (proj1 (proj1 H')). }
  assert (D : forall i, In i r -> In i (ei_list s') -> False).
  { intros i Hi Hj. apply (Permutation_in _ (ei_list_ring _ _ H')) in Hj. apply ring_in in Hj. destruct Hj as (J1 & J2).
    apply filter_In in J1. apply filter_In in J2. destruct J1 as (_ & J1), J2 as (_ & J2). apply negb_true_iff, smem_nin in J1, J2.
    destruct (Hr i Hi); tauto. }
  assert (N : NoDup (ei_list s' ++ r)).
  { apply nodup_app; [exact NL'| |intros x X1 X2; apply (D x X2 X1)].
    assert (Nr : forall x, In x r -> In x (ei_list s)).
    { intros x Hx. assert (K' : In x (ei_list s ++ n)) by (apply (Permutation_in _ (Permutation_sym P)); apply in_or_app; auto).
      apply in_app_or in K'. destruct K' as [K'|K']; [exact K'|]. destruct (Hn x K'). destruct (Hr x Hx); tauto. }
    (* r has no repetitions: count *)
    assert (dec : forall x y : impl, {x = y} + {x <> y}) by (decide equality; apply Nat.eq_dec).
    apply (NoDup_count_occ' dec). intros x Hx.
    assert (C : count_occ dec (ei_list s ++ n) x = count_occ dec (ei_list s' ++ r) x) by (apply Permutation_count_occ; exact P).
    rewrite !count_occ_app in C.
    assert (C1 : count_occ dec (ei_list s) x = 1) by (apply NoDup_count_occ'; [exact NL|apply Nr; exact Hx]).
    assert (C2 : count_occ dec n x = 0).
    { apply count_occ_not_In. intros K'. destruct (Hn x K'). destruct (Hr x Hx); tauto. }
    assert (C3 : count_occ dec (ei_list s') x = 0) by (apply count_occ_not_In; intros K'; apply (D x Hx K')). lia. }
  apply (Permutation_NoDup (Permutation_sym P)) in N.
  split; [|split; [|split; [exact Hr|exact N]]].
  - intros i Hi. split; [|intros K; apply (D i Hi K)]. assert (K : In i (ei_list s ++ n)) by (apply (Permutation_in _ (Permutation_sym P)); apply in_or_app; auto).
    apply in_app_or in K. destruct K as [K|K]; [exact K|]. destruct (Hn i K). destruct (Hr i Hi); tauto.
  - intros i Hi. assert (K : In i (ei_list s')).
    { assert (K : In i (ei_list s' ++ r)) by (apply (Permutation_in _ P); apply in_or_app; auto). apply in_app_or in K. destruct K as [K|K]; [exact K|].
      destruct (Hn i Hi). destruct (Hr i K); tauto. }
    split; [exact K|]. intros F.
    apply (nodup_app_disj _ _ i N F Hi).
Qed.
Lemma class_delta ls h s : distinct_vars ls -> ei_run h (ei_new ls) = Ok s ->
  exists s' n r, ei_commit s = Ok (s', n, r) /\ Permutation (ei_list s ++ n) (ei_list s' ++ r) /\ length n <= length r /\
    (forall i, In i r -> In i (ei_list s) /\ ~ In i (ei_list s')) /\ (forall i, In i n -> In i (ei_list s') /\ ~ In i (ei_list s)).
Proof.
  intros HN E. destruct (class_reach ls h HN) as (s1 & E1 & H). rewrite E in E1. injection E1 as <-.
  destruct (commit_facts s _ H) as (s' & n & r & Ec & _ & _ & P & L & Hr & Hn & _). exists s', n, r. auto.
Qed.

(** ** Backbones *)
Lemma lit_cases x : x = mkLit (lvar x) false \/ x = mkLit (lvar x) true.
Proof. rewrite (lit_eta x) at 1 3. destruct (lsign x); auto. Qed.
Lemma sorted_perm_del k s : ssorted s -> In k s -> Permutation s (k :: sdel k s).
Proof.
  intros H Hk. apply NoDup_Permutation.
  - apply sorted_nodup. exact H.
  - constructor; [rewrite sdel_in; tauto|]. apply sorted_nodup, sdel_sorted. exact H.
  - intros x. simpl. rewrite sdel_in. split; [|intros [<-|K]; tauto]. intros Hx. destruct (Nat.eq_dec k x); [left; exact e|right; split; [exact Hx|congruence]].
Qed.
Lemma bb_step_ok v (s rm : list lit) : ssorted s -> distinct_vars s ->
  exists s' d : list lit, bb_step (s, rm) v = (s', rm ++ d) /\ ssorted s' /\ (forall x, In x s' <-> In x s /\ lvar x <> v) /\ Permutation s (d ++ s').
Proof.
  intros HS HN. unfold bb_step. cbn [fst snd]. rewrite lneg_mk. cbn [negb].
  destruct (smem (mkLit v false) s) eqn:E1.
  - rewrite E1. apply smem_in in E1. exists (sdel (mkLit v false) s), [mkLit v false]. split; [reflexivity|]. split; [apply sdel_sorted; exact HS|].
    split; [|apply sorted_perm_del; assumption]. intros x. rewrite sdel_in. split; intros (H1 & H2); split; auto.
    + intros F. apply H2. apply (distinct_lvar_eq s x (mkLit v false) HN H1 E1). rewrite lvar_mk. exact F.
    + intros F. subst. apply H2. apply lvar_mk.
  - destruct (smem (mkLit v true) s) eqn:E2.
    + apply smem_in in E2. exists (sdel (mkLit v true) s), [mkLit v true]. split; [reflexivity|]. split; [apply sdel_sorted; exact HS|].
      split; [|apply sorted_perm_del; assumption]. intros x. rewrite sdel_in. split; intros (H1 & H2); split; auto.
      * intros F. apply H2. apply (distinct_lvar_eq s x (mkLit v true) HN H1 E2). rewrite lvar_mk. exact F.
      * intros F. subst. apply H2. apply lvar_mk.
    + exists s, []. rewrite app_nil_r. split; [reflexivity|]. split; [exact HS|]. split; [|apply Permutation_refl].
      intros x. split; [|tauto]. intros Hx. split; [exact Hx|]. intros F. apply smem_nin in E1, E2.
      destruct (lit_cases x) as [K|K]; rewrite F in K; rewrite <- K in *; tauto.
Qed.
Lemma distinct_sub s s' : NoDup s' -> (forall x, In x s' -> In x s) -> distinct_vars s -> distinct_vars s'.
Proof.
  unfold distinct_vars. intros N. induction N as [|a r N1 N2 IH]; intros H HN; simpl; [constructor|]. constructor.
  - intros K. apply in_map_iff in K. destruct K as (u & E & Hu). apply N1. replace a with u; [exact Hu|].
    apply (distinct_lvar_eq s u a HN); [apply H; right; exact Hu|apply H; left; reflexivity|exact E].
  - apply IH; [intros x Hx; apply H; right; exact Hx|exact HN].
Qed.
Lemma bb_fold_ok : forall q (s rm : list lit), ssorted s -> distinct_vars s ->
  exists s' d : list lit, fold_left bb_step q (s, rm) = (s', rm ++ d) /\ ssorted s' /\ (forall x, In x s' <-> In x s /\ ~ In (lvar x) q) /\ Permutation s (d ++ s').
Proof.
  induction q as [|v q IH]; intros s rm HS HN; simpl.
  - exists s, []. rewrite app_nil_r. split; [reflexivity|]. split; [exact HS|]. split; [intros x; tauto|apply Permutation_refl].
  - destruct (bb_step_ok v s rm HS HN) as (s1 & d1 & E1 & S1 & M1 & P1). rewrite E1.
    destruct (IH s1 (rm ++ d1) S1) as (s2 & d2 & E2 & S2 & M2 & P2).
    { apply (distinct_sub s s1); [apply sorted_nodup; exact S1|intros x Hx; apply M1; exact Hx|exact HN]. }
    exists s2, (d1 ++ d2). rewrite app_assoc. split; [exact E2|]. split; [exact S2|]. split.
    + intros x. rewrite M2, M1. split; [intros ((H1 & H2) & H3); split; [exact H1|intros [K|K]; [apply H2; symmetry; exact K|tauto]]|].
      intros (H1 & H2). split; [split; [exact H1|intros K; apply H2; left; symmetry; exact K]|tauto].
    + eapply Permutation_trans; [exact P1|]. rewrite <- app_assoc. apply Permutation_app_head. exact P2.
Qed.
Definition BI (b : bbs) (ls : list lit) : Prop :=
  distinct_vars ls /\ ssorted (bb_set b) /\ (forall x, In x (bb_set b) <-> In x ls) /\ Permutation (bb_list b) ls.
Lemma bi_commit b ls : BI b ls -> let '(b', d) := bb_commit b in
  BI b' (out_of (bb_queue b) ls) /\ bb_queue b' = [] /\ Permutation (bb_list b) (bb_list b' ++ d).
Proof.
  intros (HN & HS & HM & HP). unfold bb_commit.
  assert (HN' : distinct_vars (bb_set b)) by (apply (distinct_sub ls); [apply sorted_nodup; exact HS|intros x Hx; apply HM; exact Hx|exact HN]).
  destruct (bb_fold_ok (bb_queue b) (bb_set b) [] HS HN') as (s' & d & E & S' & M' & P'). rewrite E. cbn [fst snd app].
  assert (PO : Permutation s' (out_of (bb_queue b) ls)).
  { apply NoDup_Permutation; [apply sorted_nodup; exact S'| |].
    - apply NoDup_filter. unfold distinct_vars in HN. apply NoDup_map_inv in HN. exact HN.
    - intros x. rewrite M', HM. unfold out_of. rewrite filter_In, negb_true_iff, smem_nin. tauto. }
  split; [|split; [reflexivity|]].
  - split; [apply distinct_filter; exact HN|]. split; [exact S'|]. split; [|exact PO]. intros x. cbn [bb_set].
    split; intros H; [apply (Permutation_in _ PO H)|apply (Permutation_in _ (Permutation_sym PO) H)].
  - cbn [bb_list]. eapply Permutation_trans; [|eapply Permutation_trans; [exact P'|apply Permutation_app_comm]].
    eapply Permutation_trans; [exact HP|]. apply NoDup_Permutation; [unfold distinct_vars in HN; apply NoDup_map_inv in HN; exact HN|apply sorted_nodup; exact HS|].
    intros x. rewrite HM. tauto.
Qed.
Lemma bb_new_ok ls : distinct_vars ls -> BI (bb_new ls) ls.
Proof.
  intros HN. unfold bb_new. cbn. split; [exact HN|]. cbn [bb_set bb_list].
  assert (K : forall l s, ssorted s -> ssorted (fold_left (fun s l => sput l s) l s) /\ forall x, In x (fold_left (fun s l => sput l s) l s) <-> In x s \/ In x l).
  { induction l as [|a l IH]; intros s H; simpl; [tauto|]. destruct (IH (sput a s) (sput_sorted a s H)) as (H1 & H2). split; [exact H1|].
    intros x. rewrite H2, sput_in. intuition auto. }
  destruct (K ls []) as (K1 & K2); [constructor|]. split; [exact K1|]. split; [|apply Permutation_refl]. intros x. rewrite K2. simpl. tauto.
Qed.
Lemma bb_run_ok : forall h b ls m, BI b ls -> (forall v, In v (bb_queue b) <-> In v m) -> BI (bb_run h b) (out_of (committed m h) ls).
Proof.
  induction h as [|[v|] h IH]; intros b ls m HB Hm; cbn [bb_run committed].
  - unfold out_of. simpl. replace (filter (fun _ : lit => true) ls) with ls by (clear; induction ls; simpl; congruence). exact HB.
  - apply (IH (bb_mark b v) ls (v :: m) HB). intros u. cbn [bb_mark bb_queue]. rewrite sput_in, Hm. simpl. intuition auto.
  - pose proof (bi_commit b ls HB) as K. destruct (bb_commit b) as (b' & d). destruct K as (HB' & Q & _). cbn [fst].
    replace (out_of (m ++ committed [] h) ls) with (out_of (committed [] h) (out_of (bb_queue b) ls)).
    + apply (IH b' (out_of (bb_queue b) ls) [] HB'). intros u. rewrite Q. tauto.
    + rewrite out_of_out_of. apply out_of_ext. intros w _. apply smem_ext. rewrite !in_app_iff, Hm. tauto.
Qed.
Lemma backbones_list ls h : distinct_vars ls -> Permutation (bb_list (bb_run h (bb_new ls))) (remaining h ls).
Proof.
  intros HN. assert (H : BI (bb_run h (bb_new ls)) (remaining h ls)) by (apply (bb_run_ok h (bb_new ls) ls []); [apply bb_new_ok; exact HN|intros v; simpl; tauto]).
  exact (proj2 (proj2 (proj2 H))).
Qed.
Lemma backbones_delta ls h : distinct_vars ls -> let b := bb_run h (bb_new ls) in
  Permutation (bb_list b) (bb_list (fst (bb_commit b)) ++ snd (bb_commit b)).
Proof.
  intros HN b. assert (H : BI b (remaining h ls)) by (apply (bb_run_ok h (bb_new ls) ls []); [apply bb_new_ok; exact HN|intros v; simpl; tauto]).
  pose proof (bi_commit b _ H) as K. destruct (bb_commit b) as (b' & d). cbn [fst snd]. apply K.
Qed.
