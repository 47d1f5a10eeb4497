(** Proofs of C48: the clauses and assumption literals of a refinement strategy. *)
Require Import List Arith Bool Lia Permutation Sorted.
Require Import Verif.Base Verif.Outcome Verif.ApproxModel Verif.ApproxSpec Verif.ApproxLemmas Verif.ApproxProofs Verif.ApproxMore.
Import ListNotations.

(** ** All classes *)
Definition impls (es : list eqi) : list impl := flat_map ei_list es.
Definition idle (e : eqi) : Prop := ei_queue e = [].
Lemma ei_in e c i : EI e c -> In i (ei_list e) -> In (fst i) c /\ In (snd i) c.
Proof. intros H Hi. apply (Permutation_in _ (ei_list_ring _ _ H)) in Hi. apply ring_in in Hi. exact Hi. Qed.
Lemma impls_in es : forall cs i, Forall2 EI es cs -> In i (impls es) -> In (fst i) (concat cs) /\ In (snd i) (concat cs).
Proof.
  intros cs i H. induction H as [|e c es cs H1 H2 IH]; simpl; intros Hi; [destruct Hi|]. apply in_app_or in Hi. rewrite !in_app_iff.
  destruct Hi as [Hi|Hi]; [destruct (ei_in e c i H1 Hi); auto|destruct (IH Hi); auto].
Qed.
Lemma distinct_app a b : distinct_vars (a ++ b) -> distinct_vars a /\ distinct_vars b /\ forall x, In x a -> In x b -> False.
Proof.
  unfold distinct_vars. rewrite map_app. intros H. split; [apply (nodup_app_l _ _ H)|]. split; [apply (nodup_app_r _ _ H)|].
  intros x Ha Hb. apply (nodup_app_disj _ _ (lvar x) H); apply in_map; assumption.
Qed.
Lemma impls_nodup es : forall cs, Forall2 EI es cs -> distinct_vars (concat cs) -> NoDup (impls es).
Proof.
  intros cs H. induction H as [|e c es cs H1 H2 IH]; simpl; intros HN; [constructor|]. apply distinct_app in HN. destruct HN as (N1 & N2 & N3).
  apply nodup_app; [|apply IH; exact N2|].
  - eapply Permutation_NoDup; [apply Permutation_sym, ei_list_ring; exact H1|]. apply (NoDup_map_inv kfst), ring_nodup_fst. exact N1.
  - intros i Hi Hj. apply (ei_in e c i H1) in Hi. apply (impls_in es cs i H2) in Hj. apply (N3 (fst i)); tauto.
Qed.
Fixpoint keep_all (es : list eqi) (cs : list (list lit)) : list (list lit) :=
  match es, cs with e :: es', c :: cs' => out_of (ei_queue e) c :: keep_all es' cs' | _, _ => [] end.
Lemma keep_all_sub es : forall cs l, In l (concat (keep_all es cs)) -> In l (concat cs).
Proof.
  induction es as [|e es IH]; intros [|c cs] l H; simpl in *; try tauto. rewrite in_app_iff in *. destruct H as [H|H]; [|right; apply (IH cs); exact H].
  left. apply filter_In in H. tauto.
Qed.
Lemma commit_all_ok es : forall cs, Forall2 EI es cs -> distinct_vars (concat cs) ->
  exists es' n m, commit_all es = Ok (es', n, m) /\ Forall2 EI es' (keep_all es cs) /\ Forall idle es' /\ distinct_vars (concat (keep_all es cs)) /\
    (forall i, In i (impls es') <-> (In i (impls es) /\ ~ In i m) \/ In i n) /\ (forall i, In i m -> In i (impls es)) /\
    (forall i, In i m -> ~ (In (fst i) (concat (keep_all es cs)) /\ In (snd i) (concat (keep_all es cs)))) /\
    NoDup (impls es ++ n) /\ length n <= length m.
Proof.
  intros cs H. induction H as [|e c es cs H1 H2 IH]; intros HN.
  - exists [], [], []. split; [reflexivity|]. split; [constructor|]. split; [constructor|]. split; [constructor|]. simpl. split; [tauto|].
    split; [tauto|]. split; [tauto|]. split; [constructor|lia].
  - simpl in HN. pose proof HN as HN0. apply distinct_app in HN. destruct HN as (N1 & N2 & N3). destruct (IH N2) as (es' & n & m & E & I1 & I2 & I3 & I4 & I5 & I6 & I7 & I8).
    destruct (commit_facts e c H1) as (e' & n1 & m1 & E1 & Q1 & J1 & J2 & J3 & J4 & J5 & J6 & J7).
    exists (e' :: es'), (n1 ++ n), (m1 ++ m). cbn [commit_all keep_all]. rewrite E1. cbn [bind]. rewrite E. cbn [bind]. split; [reflexivity|].
    assert (Hsub : forall l, In l (out_of (ei_queue e) c) -> In l c) by (intros l Hl; apply filter_In in Hl; tauto).
    (* head implications have their literals in c, the others in the rest *)
    assert (Hn1 : forall i, In i n1 -> In (fst i) c /\ In (snd i) c).
    { intros i Hi. destruct (J5 i Hi) as (K & _). apply (ei_in e' _ i J1) in K. split; apply Hsub; tauto. }
    assert (Hn : forall i, In i n -> In (fst i) (concat cs) /\ In (snd i) (concat cs)).
    { intros i Hi. assert (K : In i (impls es')) by (apply I4; auto). apply (impls_in es' _ i I1) in K. split; apply (keep_all_sub es cs); tauto. }
    assert (He : forall i, In i (ei_list e) -> In (fst i) c) by (intros i Hi; apply (ei_in e c i H1 Hi)).
    assert (Hes : forall i, In i (impls es) -> In (fst i) (concat cs)) by (intros i Hi; apply (impls_in es cs i H2 Hi)).
    split; [constructor; assumption|]. split; [constructor; assumption|]. split; [|split; [|split; [|split; [|split]]]].
    + simpl. unfold distinct_vars in *. rewrite map_app. apply nodup_app; [apply distinct_filter; exact N1|exact I3|].
      intros v Hv1 Hv2. apply in_map_iff in Hv1, Hv2. destruct Hv1 as (x & Ex & Hx), Hv2 as (y & Ey & Hy). apply keep_all_sub in Hy. apply Hsub in Hx.
      apply (nodup_app_disj (map lvar c) (map lvar (concat cs)) v); [rewrite <- map_app; exact HN0|rewrite <- Ex; apply in_map; exact Hx|rewrite <- Ey; apply in_map; exact Hy].
    + intros i. simpl. rewrite !in_app_iff, I4.
      assert (K : In i (ei_list e') <-> (In i (ei_list e) /\ ~ In i m1) \/ In i n1).
      { split.
        - intros Hi. assert (Hj : In i (ei_list e ++ n1)) by (apply (Permutation_in _ (Permutation_sym J2)); apply in_or_app; auto).
          apply in_app_or in Hj. destruct Hj as [Hj|Hj]; [left|right; exact Hj]. split; [exact Hj|]. intros Hm. destruct (J4 i Hm). tauto.
        - intros [(Hi & Hm)|Hi]; [|apply (J5 i Hi)]. assert (Hj : In i (ei_list e' ++ m1)) by (apply (Permutation_in _ J2); apply in_or_app; auto).
          apply in_app_or in Hj. tauto. }
      rewrite K. split.
      * intros [[(A & B)|A]|[(A & B)|A]].
        -- left. split; [auto|]. intros [F|F]; [tauto|]. apply I5 in F. apply (N3 (fst i)); [apply He; exact A|apply Hes; exact F].
        -- right. auto.
        -- left. split; [auto|]. intros [F|F]; [|tauto]. destruct (J4 i F) as (F1 & _). apply (N3 (fst i)); [apply He; exact F1|apply Hes; exact A].
        -- right. auto.
      * intros [([A|A] & B)|[A|A]]; tauto.
    + intros i Hi. simpl. apply in_or_app. apply in_app_or in Hi. destruct Hi as [Hi|Hi]; [left; apply (J4 i Hi)|right; apply I5; exact Hi].
    + intros i Hi (F1 & F2). simpl in F1, F2. apply in_app_or in Hi. rewrite in_app_iff in F1, F2. destruct Hi as [Hi|Hi].
      * destruct (J4 i Hi) as (K & _). apply (ei_in e c i H1) in K. destruct K as (K1 & K2).
        destruct F1 as [F1|F1]; [|apply keep_all_sub in F1; apply (N3 _ K1 F1)]. destruct F2 as [F2|F2]; [|apply keep_all_sub in F2; apply (N3 _ K2 F2)].
        apply filter_In in F1. apply filter_In in F2. destruct F1 as (_ & F1), F2 as (_ & F2). apply negb_true_iff, smem_nin in F1, F2.
        destruct (J6 i Hi); tauto.
      * pose proof (I5 i Hi) as K. apply (impls_in es cs i H2) in K. destruct K as (K1 & K2).
        apply (I6 i Hi). split; [destruct F1 as [F1|F1]; [exfalso; apply Hsub in F1; apply (N3 _ F1 K1)|exact F1]|destruct F2 as [F2|F2]; [exfalso; apply Hsub in F2; apply (N3 _ F2 K2)|exact F2]].
    + simpl. apply (Permutation_NoDup (l := (ei_list e ++ n1) ++ impls es ++ n)).
      * rewrite <- !app_assoc. apply Permutation_app_head. rewrite !app_assoc. apply Permutation_app_tail. apply Permutation_app_comm.
      * apply nodup_app; [exact J7|exact I7|]. intros i Hi Hj. apply in_app_or in Hi, Hj.
        assert (A : In (fst i) c) by (destruct Hi as [Hi|Hi]; [apply He; exact Hi|apply (Hn1 i Hi)]).
        assert (B : In (fst i) (concat cs)) by (destruct Hj as [Hj|Hj]; [apply Hes; exact Hj|apply (Hn i Hj)]).
        apply (N3 _ A B).
    + rewrite !app_length. lia.
Qed.
