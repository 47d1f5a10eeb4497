(** Lemmas for C47: maps, sets, rings. *)
Require Import List Arith Bool Lia Permutation Sorted.
Require Import Verif.Base Verif.Outcome Verif.ApproxModel Verif.ApproxSpec.
Import ListNotations.

(** ** Sorted maps *)
Definition msorted (m : list (var * impl)) : Prop := StronglySorted lt (map fst m).
Lemma mput_keys k v m x : In x (map fst (mput k v m)) <-> x = k \/ In x (map fst m).
Proof.
  induction m as [|[k' v'] r IH]; simpl; [intuition auto|].
  destruct (Nat.ltb_spec k k'); simpl; [intuition auto|].
  destruct (Nat.eqb_spec k k'); simpl; [subst; intuition auto|]. rewrite IH. intuition auto.
Qed.
Lemma mput_sorted k v m : msorted m -> msorted (mput k v m).
Proof.
  unfold msorted. induction m as [|[k' v'] r IH]; simpl; intros H; [repeat constructor|].
  inversion H as [|? ? H1 H2]; subst. destruct (Nat.ltb_spec k k'); simpl.
  - constructor; [exact H|]. constructor; [auto|]. eapply Forall_impl; [|exact H2]. intros; lia.
  - destruct (Nat.eqb_spec k k') as [E|E]; simpl; [subst; exact H|].
    constructor; [apply IH; exact H1|]. apply Forall_forall. intros x Hx. apply mput_keys in Hx.
    destruct Hx as [Hx|Hx]; [lia|]. rewrite Forall_forall in H2. apply H2. exact Hx.
Qed.
Lemma mfind_put k v m x : mfind x (mput k v m) = if x =? k then Some v else mfind x m.
Proof.
  induction m as [|[k' v'] r IH]; simpl; [reflexivity|].
  destruct (Nat.ltb_spec k k'); simpl; [reflexivity|].
  destruct (Nat.eqb_spec k k') as [E|E]; simpl.
  - subst. destruct (Nat.eqb_spec x k'); reflexivity.
  - rewrite IH. destruct (Nat.eqb_spec x k'), (Nat.eqb_spec x k); subst; try reflexivity; lia.
Qed.
Lemma mfind_del k m x : mfind x (mdel k m) = if x =? k then None else mfind x m.
Proof.
  unfold mdel. induction m as [|[k' v'] r IH]; simpl; [destruct (x =? k); reflexivity|].
  destruct (Nat.eqb_spec k k') as [E|E]; simpl.
  - rewrite IH. subst. destruct (Nat.eqb_spec x k'); reflexivity.
  - rewrite IH. destruct (Nat.eqb_spec x k'), (Nat.eqb_spec x k); subst; try reflexivity; lia.
Qed.
Lemma filter_sorted {A} (f : A -> nat) (p : A -> bool) l : StronglySorted lt (map f l) -> StronglySorted lt (map f (filter p l)).
Proof.
  induction l as [|a r IH]; simpl; intros H; [exact H|]. inversion H as [|? ? H1 H2]; subst.
  destruct (p a); simpl; [|apply IH; exact H1]. constructor; [apply IH; exact H1|].
  apply Forall_forall. intros x Hx. rewrite Forall_forall in H2. apply H2.
  apply in_map_iff in Hx. destruct Hx as (y & E & Hy). apply filter_In in Hy. apply in_map_iff. exists y. tauto.
Qed.
Lemma mdel_sorted k m : msorted m -> msorted (mdel k m).
Proof. apply filter_sorted. Qed.
Lemma mfind_in m x v : mfind x m = Some v -> In (x, v) m.
Proof.
  induction m as [|[k' v'] r IH]; simpl; [discriminate|]. destruct (Nat.eqb_spec x k').
  - intros E. inversion E. subst. left. reflexivity.
  - intros E. right. apply IH. exact E.
Qed.
Lemma in_mfind m x v : msorted m -> In (x, v) m -> mfind x m = Some v.
Proof.
  unfold msorted. induction m as [|[k' v'] r IH]; simpl; intros H Hi; [tauto|].
  inversion H as [|? ? H1 H2]; subst. destruct Hi as [E|Hi].
  - inversion E. subst. rewrite Nat.eqb_refl. reflexivity.
  - destruct (Nat.eqb_spec x k') as [E|E]; [|apply IH; assumption].
    subst. rewrite Forall_forall in H2. specialize (H2 k' (in_map fst _ _ Hi)). lia.
Qed.
Lemma sorted_nodup l : StronglySorted lt l -> NoDup l.
Proof.
  induction l as [|a r IH]; intros H; [constructor|]. inversion H as [|? ? H1 H2]; subst.
  constructor; [|apply IH; exact H1]. intros Hi. rewrite Forall_forall in H2. specialize (H2 a Hi). lia.
Qed.

(** a map that holds the implications [L] under the keys [kf] *)
Definition RepM (m : list (var * impl)) (kf : impl -> var) (L : list impl) : Prop :=
  msorted m /\ NoDup (map kf L) /\ forall v i, mfind v m = Some i <-> In i L /\ kf i = v.
Lemma repm_nil kf : RepM [] kf [].
Proof. split; [constructor|]. split; [constructor|]. simpl. intuition discriminate. Qed.
Lemma repm_perm m kf L L' : RepM m kf L -> Permutation L L' -> RepM m kf L'.
Proof.
  intros (H1 & H2 & H3) P. split; [exact H1|]. split; [apply (Permutation_NoDup (Permutation_map kf P) H2)|].
  intros v i. rewrite H3. split; intros (H & E); split; auto; [apply (Permutation_in _ P H)|apply (Permutation_in _ (Permutation_sym P) H)].
Qed.
Lemma repm_put m kf L i : RepM m kf L -> ~ In (kf i) (map kf L) -> RepM (mput (kf i) i m) kf (i :: L).
Proof.
  intros (H1 & H2 & H3) N. split; [apply mput_sorted; exact H1|]. split; [constructor; assumption|].
  intros v j. rewrite mfind_put. destruct (Nat.eqb_spec v (kf i)) as [E|E].
  - split.
    + intros F. injection F as <-. split; [left; reflexivity|auto].
    + intros ([<-|Hj] & Ej); [reflexivity|]. exfalso. apply N. rewrite <- E, <- Ej. apply in_map. exact Hj.
  - rewrite H3. split.
    + intros (Hj & Ej). split; [right; exact Hj|exact Ej].
    + intros ([<-|Hj] & Ej); [congruence|]. split; assumption.
Qed.
Lemma nodup_app_l {A} (a b : list A) : NoDup (a ++ b) -> NoDup a.
Proof. induction a; simpl; intros H; [constructor|]. inversion H; subst. constructor; [|auto]. intros Hi. apply H2. apply in_or_app. auto. Qed.
Lemma nodup_app_r {A} (a b : list A) : NoDup (a ++ b) -> NoDup b.
Proof. induction a; simpl; intros H; [exact H|]. inversion H; subst; auto. Qed.
Lemma nodup_app_disj {A} (a b : list A) x : NoDup (a ++ b) -> In x a -> In x b -> False.
Proof.
  induction a; simpl; intros H Ha Hb; [tauto|]. inversion H; subst. destruct Ha as [->|Ha]; [|auto].
  apply H2. apply in_or_app. auto.
Qed.
Lemma nodup_app {A} (a b : list A) : NoDup a -> NoDup b -> (forall x, In x a -> In x b -> False) -> NoDup (a ++ b).
Proof.
  induction a; simpl; intros Ha Hb D; [exact Hb|]. inversion Ha; subst. constructor.
  - intros Hi. apply in_app_or in Hi. destruct Hi as [Hi|Hi]; [tauto|]. apply (D a); auto.
  - apply IHa; auto. intros x H H'. apply (D x); auto.
Qed.
Lemma repm_del m kf i L : RepM m kf (i :: L) -> RepM (mdel (kf i) m) kf L.
Proof.
  intros (H1 & H2 & H3). inversion H2 as [|? ? N1 N2]; subst. split; [apply mdel_sorted; exact H1|]. split; [exact N2|].
  intros v j. rewrite mfind_del. destruct (Nat.eqb_spec v (kf i)) as [E|E].
  - split; [discriminate|]. intros (Hj & Ej). exfalso. apply N1. rewrite <- E, <- Ej. apply in_map. exact Hj.
  - rewrite H3. split.
    + intros ([<-|Hj] & Ej); [congruence|]. auto.
    + intros (Hj & Ej). split; [right; exact Hj|exact Ej].
Qed.
Lemma repm_del_all kf q : forall m L, RepM m kf (q ++ L) -> RepM (fold_left (fun m i => mdel (kf i) m) q m) kf L.
Proof. induction q as [|i q IH]; intros m L H; [exact H|]. simpl. apply IH. apply repm_del. exact H. Qed.
Lemma repm_values m kf L : RepM m kf L -> Permutation (map snd m) L.
Proof.
  intros (H1 & H2 & H3). apply NoDup_Permutation.
  - assert (K : forall e, In e m -> fst e = kf (snd e)).
    { intros [k v] Hi. simpl. apply (in_mfind m k v H1) in Hi. apply H3 in Hi. destruct Hi as (_ & E). auto. }
    pose proof (sorted_nodup _ H1) as N. clear H1 H2 H3. induction m as [|[k v] r IH]; simpl; [constructor|].
    inversion N as [|? ? N1 N2]; subst. constructor.
    + intros Hi. apply N1. apply in_map_iff in Hi. destruct Hi as ([k' v'] & E & Hi). simpl in E. subst.
      pose proof (K _ (or_introl eq_refl)) as K1. pose proof (K _ (or_intror Hi)) as K2. simpl in K1, K2.
      rewrite K1, <- K2. apply (in_map fst _ _ Hi).
    + apply IH; [|exact N2]. intros e He. apply K. right. exact He.
  - apply NoDup_map_inv in H2. exact H2.
  - intros i. split.
    + intros Hi. apply in_map_iff in Hi. destruct Hi as ([k v] & E & Hi). simpl in E. subst.
      apply (in_mfind m k i H1) in Hi. apply H3 in Hi. tauto.
    + intros Hi. apply in_map_iff. exists (kf i, i). split; [reflexivity|]. apply mfind_in. apply H3. auto.
Qed.
Lemma repm_length m kf L : RepM m kf L -> length m = length L.
Proof. intros H. apply repm_values in H. apply Permutation_length in H. rewrite map_length in H. exact H. Qed.

(** ** Sets *)
Definition ssorted (s : list nat) : Prop := StronglySorted lt s.
Lemma smem_in k s : smem k s = true <-> In k s.
Proof.
  unfold smem. rewrite existsb_exists. split.
  - intros (x & Hx & E). apply Nat.eqb_eq in E. subst. exact Hx.
  - intros H. exists k. split; [exact H|apply Nat.eqb_refl].
Qed.
Lemma smem_nin k s : smem k s = false <-> ~ In k s.
Proof. rewrite <- smem_in. destruct (smem k s); split; intros; try discriminate; try tauto; congruence. Qed.
Lemma sput_in k s x : In x (sput k s) <-> x = k \/ In x s.
Proof.
  induction s as [|a r IH]; simpl; [intuition auto|]. destruct (Nat.ltb_spec k a); simpl; [intuition auto|].
  destruct (Nat.eqb_spec k a); simpl; [subst; intuition auto|]. rewrite IH. intuition auto.
Qed.
Lemma sput_sorted k s : ssorted s -> ssorted (sput k s).
Proof.
  unfold ssorted. induction s as [|a r IH]; simpl; intros H; [repeat constructor|].
  inversion H as [|? ? H1 H2]; subst. destruct (Nat.ltb_spec k a).
  - constructor; [exact H|]. constructor; [auto|]. eapply Forall_impl; [|exact H2]. intros; lia.
  - destruct (Nat.eqb_spec k a) as [E|E]; simpl; [exact H|].
    constructor; [apply IH; exact H1|]. apply Forall_forall. intros x Hx. apply sput_in in Hx.
    destruct Hx as [Hx|Hx]; [lia|]. rewrite Forall_forall in H2. apply H2. exact Hx.
Qed.
Lemma sdel_in k s x : In x (sdel k s) <-> In x s /\ x <> k.
Proof.
  unfold sdel. rewrite filter_In. destruct (Nat.eqb_spec k x) as [E|E]; simpl; split; intros [H1 H2]; split; auto; try discriminate.
Qed.
Lemma sdel_sorted k s : ssorted s -> ssorted (sdel k s).
Proof. intros H. unfold ssorted, sdel in *. rewrite <- map_id in H. apply (filter_sorted (fun x => x) (fun x => negb (k =? x))) in H. rewrite map_id in H. exact H. Qed.
Lemma sdel_length_le k s : length (sdel k s) <= length s.
Proof. unfold sdel. induction s as [|a r IH]; simpl; [lia|]. destruct (negb (k =? a)); simpl; lia. Qed.
Lemma sdel_length k s : In k s -> length (sdel k s) < length s.
Proof.
  unfold sdel. induction s as [|a r IH]; simpl; intros H; [tauto|]. destruct (Nat.eqb_spec k a) as [E|E]; simpl.
  - pose proof (sdel_length_le k r). unfold sdel in H0. lia.
  - destruct H as [H|H]; [congruence|]. specialize (IH H). lia.
Qed.

(** ** Chains and rings *)
Lemma chain_cons2 a b r : chain (a :: b :: r) = (a, b) :: chain (b :: r).
Proof. reflexivity. Qed.
Lemma chain_app a x b : chain (a ++ x :: b) = chain (a ++ [x]) ++ chain (x :: b).
Proof.
  induction a as [|y a IH]; [reflexivity|]. destruct a as [|z a]; [reflexivity|].
  change (chain (y :: z :: (a ++ x :: b)) = chain (y :: z :: (a ++ [x])) ++ chain (x :: b)).
  rewrite !chain_cons2. rewrite <- app_comm_cons. f_equal. exact IH.
Qed.
Lemma chain_combine b : forall a x, combine (a :: b) (b ++ [x]) = chain (a :: b ++ [x]).
Proof. induction b as [|y b IH]; intros a x; [reflexivity|]. simpl app. rewrite chain_cons2, <- IH. reflexivity. Qed.
Lemma ring_chain a b r : ring (a :: b :: r) = chain (a :: b :: r ++ [a]).
Proof. unfold ring. simpl length. change (S (S (length r)) <? 2) with false. cbn iota. cbn [tl hd]. exact (chain_combine (b :: r) a a). Qed.
Lemma ring_chain' a r : r <> [] -> ring (a :: r) = chain (a :: r ++ [a]).
Proof. intros H. destruct r as [|b r]; [congruence|]. apply ring_chain. Qed.
Lemma ring_small ls : length ls < 2 -> ring ls = [].
Proof. intros H. unfold ring. apply Nat.ltb_lt in H. rewrite H. reflexivity. Qed.
Lemma ring_rot a b : Permutation (ring (a ++ b)) (ring (b ++ a)).
Proof.
  destruct a as [|x a]; [rewrite app_nil_r; apply Permutation_refl|].
  destruct b as [|y b]; [rewrite app_nil_r; apply Permutation_refl|].
  assert (N : a ++ y :: b <> [] /\ b ++ x :: a <> []) by (split; intros H; destruct (app_cons_not_nil _ _ _ (eq_sym H))).
  destruct N as (N1 & N2). simpl app. rewrite (ring_chain' x _ N1), (ring_chain' y _ N2).
  replace (x :: (a ++ y :: b) ++ [x]) with ((x :: a) ++ y :: (b ++ [x])) by (simpl; rewrite <- app_assoc; reflexivity).
  replace (y :: (b ++ x :: a) ++ [y]) with ((y :: b) ++ x :: (a ++ [y])) by (simpl; rewrite <- app_assoc; reflexivity).
  rewrite (chain_app (x :: a) y), (chain_app (y :: b) x).
  apply Permutation_app_comm.
Qed.
Lemma map_fst_combine {A B} (l : list A) : forall (l' : list B), length l = length l' -> map fst (combine l l') = l.
Proof. induction l; intros [|b l'] H; simpl in *; try discriminate; [reflexivity|]. f_equal. apply IHl. lia. Qed.
Lemma map_snd_combine {A B} (l : list A) : forall (l' : list B), length l = length l' -> map snd (combine l l') = l'.
Proof. induction l; intros [|b l'] H; simpl in *; try discriminate; [reflexivity|]. f_equal. apply IHl. lia. Qed.
Lemma ring_fst ls : 2 <= length ls -> map fst (ring ls) = ls.
Proof.
  intros H. unfold ring. destruct (Nat.ltb_spec (length ls) 2); [lia|]. apply map_fst_combine.
  destruct ls; simpl in *; [lia|]. rewrite app_length. simpl. lia.
Qed.
Lemma ring_snd ls : 2 <= length ls -> map snd (ring ls) = tl ls ++ [hd 0 ls].
Proof.
  intros H. unfold ring. destruct (Nat.ltb_spec (length ls) 2); [lia|]. apply map_snd_combine.
  destruct ls; simpl in *; [lia|]. rewrite app_length. simpl. lia.
Qed.
Definition kfst (i : impl) : var := lvar (fst i).
Definition ksnd (i : impl) : var := lvar (snd i).
Lemma ring_nodup_fst ls : distinct_vars ls -> NoDup (map kfst (ring ls)).
Proof.
  intros H. destruct (le_lt_dec 2 (length ls)) as [L|L]; [|rewrite (ring_small ls L); constructor].
  replace (map kfst (ring ls)) with (map lvar (map fst (ring ls))) by (rewrite map_map; reflexivity). rewrite (ring_fst ls L). exact H.
Qed.
Lemma ring_nodup_snd ls : distinct_vars ls -> NoDup (map ksnd (ring ls)).
Proof.
  intros H. destruct (le_lt_dec 2 (length ls)) as [L|L]; [|rewrite (ring_small ls L); constructor].
  replace (map ksnd (ring ls)) with (map lvar (map snd (ring ls))) by (rewrite map_map; reflexivity). rewrite (ring_snd ls L). destruct ls as [|a r]; [simpl in L; lia|]. cbn [tl hd].
  unfold distinct_vars in H. rewrite map_app. eapply Permutation_NoDup; [|exact H]. simpl. apply Permutation_cons_append.
Qed.
Lemma ring_in ls i : In i (ring ls) -> In (fst i) ls /\ In (snd i) ls.
Proof.
  intros H. destruct (le_lt_dec 2 (length ls)) as [L|L]; [|rewrite (ring_small ls L) in H; destruct H].
  split.
  - rewrite <- (ring_fst ls L). apply in_map. exact H.
  - assert (K : In (snd i) (tl ls ++ [hd 0 ls])) by (rewrite <- (ring_snd ls L); apply in_map; exact H).
    destruct ls as [|a r]; [simpl in L; lia|]. cbn [tl hd] in K. apply in_app_or in K. destruct K as [K|[<-|[]]]; [right; exact K|left; reflexivity].
Qed.
Lemma ring_has_fst ls l : 2 <= length ls -> In l ls -> exists x, In (l, x) (ring ls).
Proof.
  intros L H. rewrite <- (ring_fst ls L) in H. apply in_map_iff in H. destruct H as ([a x] & E & H). simpl in E. subst. exists x. exact H.
Qed.

(** meaning of a ring *)
Lemma chain_mono a : forall ls x y, (forall i, In i (chain ls) -> impl_holds a i) -> forall p q r, ls = p ++ x :: q ++ y :: r -> lit_holds a x -> lit_holds a y.
Proof.
  intros ls x y. revert x. remember (length ls) as n eqn:En. intros x H p q. revert p x. induction q as [|z q IH]; intros p x r E Hx.
  - subst ls. change (p ++ x :: [] ++ y :: r) with (p ++ x :: y :: r) in H. rewrite chain_app in H.
    apply (H (x, y)); [|exact Hx]. apply in_or_app. right. rewrite chain_cons2. left. reflexivity.
  - assert (Hz : lit_holds a z).
    { subst ls. simpl in H. rewrite chain_app in H. apply (H (x, z)); [|exact Hx]. apply in_or_app. right. rewrite chain_cons2. left. reflexivity. }
    apply (IH (p ++ [x]) z r); [|exact Hz]. rewrite <- app_assoc. exact E.
Qed.
Lemma ring_meaning a ls : (forall i, In i (ring ls) -> impl_holds a i) <-> all_equal a ls.
Proof.
  destruct (le_lt_dec 2 (length ls)) as [L|L].
  - split.
    + intros H. assert (K : forall x y, In x ls -> In y ls -> lit_holds a x -> lit_holds a y).
      { intros x y Hx Hy Hh. apply in_split in Hx. destruct Hx as (p & q & E).
        assert (H' : forall i, In i (ring ((x :: q) ++ p)) -> impl_holds a i).
        { intros i Hi. apply H. rewrite E. apply (Permutation_in i (ring_rot (x :: q) p)). exact Hi. }
        simpl app in H'. destruct (q ++ p) as [|z w] eqn:Eqp.
        - apply app_eq_nil in Eqp. destruct Eqp. subst. simpl in L. lia.
        - rewrite ring_chain in H'. assert (Hy' : In y (x :: z :: w)).
          { rewrite <- Eqp. subst ls. apply in_app_or in Hy. simpl in *. destruct Hy as [Hy|[Hy|Hy]]; [|left; exact Hy|];
              right; apply in_or_app; auto. }
          destruct Hy' as [<-|Hy']; [exact Hh|]. apply in_split in Hy'. destruct Hy' as (s & t & Es).
          apply (chain_mono a (x :: z :: w ++ [x]) x y H' [] s (t ++ [x])); [|exact Hh].
          simpl. f_equal. change (z :: w ++ [x]) with ((z :: w) ++ [x]). rewrite Es. rewrite <- app_assoc. reflexivity. }
      intros x y Hx Hy. unfold lit_holds in K. pose proof (K x y Hx Hy). pose proof (K y x Hy Hx).
      destruct (lit_val a x), (lit_val a y); auto. symmetry. auto.
    + intros H i Hi Hh. apply ring_in in Hi. destruct Hi as (H1 & H2). unfold lit_holds in *. rewrite <- (H _ _ H1 H2). exact Hh.
  - rewrite (ring_small ls L). split; [|intros _ i []]. intros _ x y Hx Hy.
    destruct ls as [|u [|w r]]; [destruct Hx| |simpl in L; lia]. destruct Hx as [<-|[]], Hy as [<-|[]]. reflexivity.
Qed.
