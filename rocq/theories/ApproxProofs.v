(** Proofs of C47: commits of one equivalence class and of the backbones. *)
Require Import List Arith Bool Lia Permutation Sorted.
Require Import Verif.Base Verif.Outcome Verif.ApproxModel Verif.ApproxSpec Verif.ApproxLemmas.
Import ListNotations.

(** the maps hold the ring of [c] *)
Definition Rep (A S : list (var * impl)) (c : list lit) : Prop :=
  distinct_vars c /\ RepM A kfst (ring c) /\ RepM S ksnd (ring c).
Lemma rep_rot A S a b : Rep A S (a ++ b) -> Rep A S (b ++ a).
Proof.
  intros (H1 & H2 & H3). split.
  - unfold distinct_vars in *. rewrite map_app in *. apply (Permutation_NoDup (Permutation_app_comm _ _) H1).
  - split; eapply repm_perm; eauto; apply ring_rot.
Qed.
Lemma distinct_app_inv (l : list lit) x p q p' q' : distinct_vars l -> l = p ++ x :: q -> l = p' ++ x :: q' -> p = p' /\ q = q'.
Proof.
  unfold distinct_vars. intros N. revert l N p'. induction p as [|a p IH]; intros l N p' E E'.
  - destruct p' as [|b p']; simpl in *; subst; [injection E'; auto|]. injection E' as -> Er. subst.
    exfalso. simpl in N. inversion N as [|? ? N1 _]; subst. apply N1. rewrite map_app. apply in_or_app. right. left. reflexivity.
  - destruct p' as [|b p']; simpl in *; subst.
    + injection E' as -> Er. subst. exfalso. simpl in N. inversion N as [|? ? N1 _]; subst. apply N1. rewrite map_app. apply in_or_app. right. left. reflexivity.
    + injection E' as <- Er. simpl in N. inversion N as [|? ? _ N2]; subst. destruct (IH (p ++ x :: q) N2 p' eq_refl Er) as (-> & ->). auto.
Qed.
Lemma distinct_lvar_eq ls x y : distinct_vars ls -> In x ls -> In y ls -> lvar x = lvar y -> x = y.
Proof.
  unfold distinct_vars. induction ls as [|a r IH]; simpl; intros N Hx Hy E; [tauto|]. inversion N as [|? ? N1 N2]; subst.
  destruct Hx as [<-|Hx], Hy as [<-|Hy]; auto.
  - exfalso. apply N1. rewrite E. apply in_map. exact Hy.
  - exfalso. apply N1. rewrite <- E. apply in_map. exact Hx.
Qed.
Lemma back_succ_app q i : back_succ (q ++ [i]) = snd i.
Proof. unfold back_succ. rewrite rev_app_distr. reflexivity. Qed.
Lemma back_succ_chain p x y : back_succ (chain (p ++ [x; y])) = y.
Proof. change [x; y] with (x :: [y]). rewrite chain_app. simpl. rewrite back_succ_app. reflexivity. Qed.
Lemma chain_snoc p x y : chain (p ++ [x; y]) = chain (p ++ [x]) ++ [(x, y)].
Proof. change [x; y] with (x :: [y]). rewrite chain_app. reflexivity. Qed.

Section Step.
Variables (A S : list (var * impl)) (l : lit) (r : list lit) (Q : list var) (z : lit).
Hypothesis HR : Rep A S (l :: r).
Hypothesis Hz : exists r0, r = r0 ++ [z].

Lemma HN : distinct_vars (l :: r).
Proof. exact (proj1 HR). Qed.
Lemma rne : r <> [].
Proof. destruct Hz as (r0 & E0). intros E. rewrite E in E0. apply app_cons_not_nil in E0. exact E0. Qed.
Lemma ante_next p x y q : l :: r ++ [l] = p ++ x :: y :: q -> mread (lvar x) A = Ok (x, y).
Proof.
  intros E. destruct HR as (_ & (_ & _ & H) & _). unfold mread.
  assert (F : mfind (lvar x) A = Some (x, y)).
  { apply H. split; [|reflexivity]. rewrite (ring_chain' l r rne). change (l :: r ++ [l]) with ((l :: r) ++ [l]) in E. simpl in E. rewrite E.
    rewrite chain_app. apply in_or_app. right. rewrite chain_cons2. left. reflexivity. }
  rewrite F. reflexivity.
Qed.
Lemma succ_prev p x y q : l :: r ++ [l] = p ++ x :: y :: q -> mread (lvar y) S = Ok (x, y).
Proof.
  intros E. destruct HR as (_ & _ & (_ & _ & H)). unfold mread.
  assert (F : mfind (lvar y) S = Some (x, y)).
  { apply H. split; [|reflexivity]. rewrite (ring_chain' l r rne). simpl in E. rewrite E.
    rewrite chain_app. apply in_or_app. right. rewrite chain_cons2. left. reflexivity. }
  rewrite F. reflexivity.
Qed.
Lemma r_not_l x : In x r -> lvar x <> lvar l.
Proof. intros Hx E. pose proof HN as N. unfold distinct_vars in N. simpl in N. inversion N as [|? ? N1 _]; subst. apply N1. rewrite <- E. apply in_map. exact Hx. Qed.
Lemma r_last x f r' : r = f ++ x :: r' -> (z =? x) = true <-> r' = [].
Proof.
  intros E. destruct Hz as (r0 & E0). rewrite Nat.eqb_eq. split.
  - intros F. rewrite <- F in E. assert (N : distinct_vars r) by (pose proof HN as N; unfold distinct_vars in *; simpl in N; inversion N; assumption).
    destruct (distinct_app_inv r z f r' r0 [] N E E0) as (_ & ->). reflexivity.
  - intros ->. rewrite E0 in E. apply app_inj_tail in E. apply E.
Qed.

Lemma forward_ok : forall r' fuel f0 x, r = f0 ++ x :: r' -> length r' < fuel -> (forall y, In y f0 -> smem (lvar y) Q = true) ->
  exists f x' r'', r = f ++ x' :: r'' /\ (forall y, In y f -> smem (lvar y) Q = true) /\ (r'' = [] \/ smem (lvar x') Q = false) /\
    forward fuel A Q (lvar l) (lvar x) ((z, l) :: chain (l :: f0 ++ [x])) = Ok ((z, l) :: chain (l :: f ++ [x'])).
Proof.
  induction r' as [|y r' IH]; intros fuel f0 x E Hf HQ.
  - destruct fuel as [|k]; [lia|]. exists f0, x, []. split; [exact E|]. split; [exact HQ|]. split; [auto|].
    cbn [forward]. assert (B : back_succ ((z, l) :: chain (l :: f0 ++ [x])) = x).
    { destruct (exists_last (l := l :: f0)) as (p & u & Ep); [discriminate|].
      change (l :: f0 ++ [x]) with ((l :: f0) ++ [x]). rewrite Ep. rewrite <- app_assoc. simpl app. rewrite chain_snoc, app_comm_cons, back_succ_app. reflexivity. }
    rewrite B. cbn [front_ante fst]. apply (r_last x f0 []) in E. destruct E as [_ E]. rewrite (E eq_refl). rewrite andb_false_r. reflexivity.
  - destruct fuel as [|k]; [lia|]. cbn [forward].
    assert (Hin : In x r) by (rewrite E; apply in_or_app; right; left; reflexivity).
    assert (B : back_succ ((z, l) :: chain (l :: f0 ++ [x])) = x).
    { destruct (exists_last (l := l :: f0)) as (p & u & Ep); [discriminate|].
      change (l :: f0 ++ [x]) with ((l :: f0) ++ [x]). rewrite Ep. rewrite <- app_assoc. simpl app. rewrite chain_snoc, app_comm_cons, back_succ_app. reflexivity. }
    rewrite B. cbn [front_ante fst].
    assert (Ezx : (z =? x) = false).
    { destruct (z =? x) eqn:F; [|reflexivity]. apply (r_last x f0 (y :: r') E) in F. discriminate. }
    rewrite Ezx. assert (En : (lvar x =? lvar l) = false) by (apply Nat.eqb_neq; apply r_not_l; exact Hin).
    rewrite En. cbn [negb andb]. rewrite andb_true_r. destruct (smem (lvar x) Q) eqn:Eq.
    + rewrite (ante_next (l :: f0) x y (r' ++ [l])) by (rewrite E; rewrite <- app_assoc; reflexivity). cbn [bind snd].
      assert (E' : r = (f0 ++ [x]) ++ y :: r') by (rewrite <- app_assoc; exact E).
      destruct (IH k (f0 ++ [x]) y E') as (f & x' & r'' & I1 & I2 & I3 & I4); [simpl in Hf; lia| |].
      * intros w Hw. apply in_app_or in Hw. destruct Hw as [Hw|[<-|[]]]; [apply HQ; exact Hw|exact Eq].
      * exists f, x', r''. split; [exact I1|]. split; [exact I2|]. split; [exact I3|]. rewrite <- I4. f_equal.
        rewrite <- app_comm_cons. f_equal. rewrite <- app_assoc. simpl app.
        change (l :: f0 ++ [x; y]) with ((l :: f0) ++ [x; y]). rewrite chain_snoc. reflexivity.
    + exists f0, x, (y :: r'). split; [exact E|]. split; [exact HQ|]. split; [right; exact Eq|]. reflexivity.
Qed.

Lemma front_chain y q : q <> [] -> front_ante (chain (y :: q)) = y.
Proof. intros H. destruct q; [congruence|]. reflexivity. Qed.
Lemma backward_ok f x' r'' : r = f ++ x' :: r'' -> smem (lvar x') Q = false ->
  forall g0 fuel y b0, x' :: r'' = g0 ++ y :: b0 -> length g0 < fuel -> (forall w, In w b0 -> smem (lvar w) Q = true) ->
  exists g y' b, x' :: r'' = g ++ y' :: b /\ (forall w, In w b -> smem (lvar w) Q = true) /\ smem (lvar y') Q = false /\
    backward fuel S Q (lvar l) (lvar y) (chain (y :: b0 ++ l :: f ++ [x'])) = Ok (chain (y' :: b ++ l :: f ++ [x'])).
Proof.
  intros E Hx'. induction g0 as [|z0 g0 IH] using rev_ind; intros fuel y b0 Eg Hf HQ.
  - simpl in Eg. injection Eg as <- <-. destruct fuel as [|k]; [lia|]. exists [], x', r''. split; [reflexivity|]. split; [exact HQ|]. split; [exact Hx'|].
    cbn [backward]. rewrite Hx'. rewrite andb_false_r. reflexivity.
  - destruct fuel as [|k]; [lia|]. cbn [backward].
    assert (Hin : In y r).
    { rewrite E. apply in_or_app. right. rewrite Eg. apply in_or_app. right. left. reflexivity. }
    assert (En : (lvar y =? lvar l) = false) by (apply Nat.eqb_neq; apply r_not_l; exact Hin).
    rewrite En. cbn [negb andb].
    destruct (smem (lvar y) Q) eqn:Eq.
    + assert (B : back_succ (chain (y :: b0 ++ l :: f ++ [x'])) = x').
      { destruct (exists_last (l := y :: b0 ++ l :: f)) as (p & u & Ep); [discriminate|].
        replace (y :: b0 ++ l :: f ++ [x']) with ((y :: b0 ++ l :: f) ++ [x']) by (simpl; rewrite <- app_assoc; reflexivity).
        rewrite Ep, <- app_assoc. simpl app. apply back_succ_chain. }
      rewrite B. rewrite front_chain by (intros F; symmetry in F; apply app_cons_not_nil in F; exact F).
      assert (Eyx : (y =? x') = false) by (apply Nat.eqb_neq; intros F; rewrite F in Eq; congruence).
      rewrite Eyx. cbn [negb andb].
      rewrite (succ_prev (l :: f ++ g0) z0 y (b0 ++ [l])).
      2:{ rewrite E, Eg. simpl. rewrite <- !app_assoc. reflexivity. }
      cbn [bind fst].
      assert (Eg' : x' :: r'' = g0 ++ z0 :: (y :: b0)) by (rewrite Eg, <- app_assoc; reflexivity).
      rewrite app_length in Hf. simpl in Hf.
      destruct (IH k z0 (y :: b0) Eg') as (g & y' & b & I1 & I2 & I3 & I4); [lia| |].
      * intros w [<-|Hw]; [exact Eq|apply HQ; exact Hw].
      * exists g, y', b. split; [exact I1|]. split; [exact I2|]. split; [exact I3|]. rewrite <- I4. reflexivity.
    + exists (g0 ++ [z0]), y, b0. split; [exact Eg|]. split; [exact HQ|]. split; [exact Eq|]. reflexivity.
Qed.
End Step.

(** ** One step of a commit *)
Lemma filter_length_le {A} (p : A -> bool) ls : length (filter p ls) <= length ls.
Proof. induction ls as [|a r IH]; simpl; [lia|]. destruct (p a); simpl; lia. Qed.
Definition out_of (Q : list var) (ls : list lit) : list lit := filter (fun l => negb (smem (lvar l) Q)) ls.
Lemma chain_mem : forall ls i, In i (chain ls) -> In (fst i) ls /\ In (snd i) ls.
Proof.
  induction ls as [|a r IH]; intros i H; [destruct H|]. destruct r as [|b r]; [destruct H|]. rewrite chain_cons2 in H.
  destruct H as [<-|H]; [simpl; auto|]. destruct (IH i H). split; right; assumption.
Qed.
Lemma chain_inner y x : forall m i, m <> [] -> In i (chain (y :: m ++ [x])) -> In (fst i) m \/ In (snd i) m.
Proof.
  intros m. revert y. induction m as [|a m IH]; intros y i H Hi; [congruence|]. simpl app in Hi. rewrite chain_cons2 in Hi.
  destruct Hi as [<-|Hi]; [right; left; reflexivity|]. destruct m as [|b m].
  - simpl in Hi. destruct Hi as [<-|[]]. left. left. reflexivity.
  - destruct (IH a i) as [K|K]; [discriminate|exact Hi|left; right; exact K|right; right; exact K].
Qed.
Lemma chain_covers : forall ls x, 2 <= length ls -> In x ls -> exists i, In i (chain ls) /\ (fst i = x \/ snd i = x).
Proof.
  induction ls as [|a r IH]; intros x L H; [destruct H|]. destruct r as [|b r]; [simpl in L; lia|].
  destruct H as [<-|H]; [exists (a, b); split; [left; reflexivity|left; reflexivity]|].
  destruct r as [|c r].
  - destruct H as [<-|[]]. exists (a, b). split; [left; reflexivity|right; reflexivity].
  - destruct (IH x) as (i & Hi & E); [simpl; lia|exact H|]. exists i. split; [rewrite chain_cons2; right; exact Hi|exact E].
Qed.
Lemma drop_in q : forall s v, In v (fold_left (fun s i => sdel (lvar (snd i)) (sdel (lvar (fst i)) s)) q s) <->
  In v s /\ forall i : impl, In i q -> lvar (fst i) <> v /\ lvar (snd i) <> v.
Proof.
  induction q as [|i q IH]; intros s v; simpl; [intuition auto|]. rewrite IH, !sdel_in. split.
  - intros (((H1 & H2) & H3) & H4). split; [exact H1|]. intros j [<-|Hj]; [split; auto|apply H4; exact Hj].
  - intros (H1 & H2). pose proof (H2 i (or_introl eq_refl)) as (H3 & H4). split; [|intros j Hj; apply H2; right; exact Hj].
    split; [split; auto|auto].
Qed.
Lemma drop_sorted (q : list impl) : forall s, ssorted s -> ssorted (fold_left (fun s i => sdel (lvar (snd i)) (sdel (lvar (fst i)) s)) q s).
Proof. induction q as [|i q IH]; intros s H; [exact H|]. apply IH. apply sdel_sorted, sdel_sorted. exact H. Qed.
Lemma sorted_sub_length (s t : list nat) x : ssorted s -> (forall v, In v s -> In v t) -> In x t -> ~ In x s -> length s < length t.
Proof.
  intros H1 H2 H3 H4. pose proof (sorted_nodup s H1) as N. assert (K : length (x :: s) <= length t); [|simpl in K; lia].
  apply NoDup_incl_length; [constructor; assumption|]. intros v [<-|Hv]; auto.
Qed.
Lemma remove_all_maps q : forall e, ei_ante (fold_left removeImplication q e) = fold_left (fun m i => mdel (kfst i) m) q (ei_ante e) /\
  ei_succ (fold_left removeImplication q e) = fold_left (fun m i => mdel (ksnd i) m) q (ei_succ e) /\
  ei_list (fold_left removeImplication q e) = ei_list e.
Proof. induction q as [|i q IH]; intros e; [auto|]. simpl. destruct (IH (removeImplication e i)) as (H1 & H2 & H3). rewrite H1, H2, H3. auto. Qed.
Lemma out_of_app Q a b : out_of Q (a ++ b) = out_of Q a ++ out_of Q b.
Proof. apply filter_app. Qed.
Lemma out_of_all Q ls : (forall w, In w ls -> smem (lvar w) Q = true) -> out_of Q ls = [].
Proof. induction ls as [|a r IH]; intros H; [reflexivity|]. simpl. rewrite (H a (or_introl eq_refl)). apply IH. intros w Hw. apply H. right. exact Hw. Qed.
Lemma out_of_ext Q Q' ls : (forall w, In w ls -> smem (lvar w) Q = smem (lvar w) Q') -> out_of Q ls = out_of Q' ls.
Proof. intros H. apply filter_ext_in. intros w Hw. rewrite (H w Hw). reflexivity. Qed.
Lemma smem_ext k Q Q' : (In k Q <-> In k Q') -> smem k Q = smem k Q'.
Proof. intros H. destruct (smem k Q') eqn:E; [apply smem_in, H, smem_in; exact E|apply smem_nin; rewrite H; apply smem_nin; exact E]. Qed.
Lemma ring_split l f x' g y' b r'' : x' :: r'' = g ++ y' :: b ->
  Permutation (ring (l :: f ++ x' :: r'')) (chain (y' :: b ++ l :: f ++ [x']) ++ chain (g ++ [y'])).
Proof.
  intros E. rewrite ring_chain' by (intros F; symmetry in F; apply app_cons_not_nil in F; exact F).
  replace (l :: (f ++ x' :: r'') ++ [l]) with ((l :: f) ++ x' :: (r'' ++ [l])) by (simpl; rewrite <- app_assoc; reflexivity).
  rewrite chain_app. replace (x' :: r'' ++ [l]) with (g ++ y' :: (b ++ [l])) by (change (x' :: r'' ++ [l]) with ((x' :: r'') ++ [l]); rewrite E, <- app_assoc; reflexivity).
  rewrite (chain_app g y').
  replace (y' :: b ++ l :: f ++ [x']) with ((y' :: b) ++ l :: (f ++ [x'])) by reflexivity. rewrite (chain_app (y' :: b) l).
  change ((l :: f) ++ [x']) with (l :: f ++ [x']). change ((y' :: b) ++ [l]) with (y' :: b ++ [l]).
  eapply Permutation_trans; [apply Permutation_app_comm|]. rewrite <- app_assoc.
  eapply Permutation_trans; [apply Permutation_app_comm|]. rewrite <- app_assoc. apply Permutation_refl.
Qed.

Definition StepOut (e e' : eqi) (c : list lit) (n rm : list impl) : Prop := exists c',
  Rep (ei_ante e') (ei_succ e') c' /\ ssorted (ei_queue e') /\ length (ei_queue e') < length (ei_queue e) /\
  (forall v, In v (ei_queue e') -> In v (ei_queue e)) /\ ei_list e' = ei_list e /\
  Permutation (ring c ++ n) (ring c' ++ rm) /\ length n <= length rm /\
  (forall i, In i rm -> In (kfst i) (ei_queue e) \/ In (ksnd i) (ei_queue e)) /\
  (forall i, In i n -> ~ In (kfst i) (ei_queue e) /\ ~ In (ksnd i) (ei_queue e)) /\
  Permutation (ring (out_of (ei_queue e) c)) (ring (out_of (ei_queue e') c')) /\
  (forall w, In w c' -> In w c /\ (In (lvar w) (ei_queue e) -> In (lvar w) (ei_queue e'))).

Lemma step_ok e c first q0 : Rep (ei_ante e) (ei_succ e) c -> ssorted (ei_queue e) -> ei_queue e = first :: q0 ->
  exists e' n rm, commit_step e first = Ok (e', n, rm) /\ StepOut e e' c n rm.
Proof.
  intros HR HS HQ. assert (Hfirst : In first (ei_queue e)) by (rewrite HQ; left; reflexivity). unfold commit_step.
  destruct (mfind first (ei_ante e)) as [[l0 x0]|] eqn:Ef.
  2:{ (* no implication of this variable *)
    eexists. eexists. eexists. split; [reflexivity|]. pose proof HR as (HN & (_ & _ & HA) & HSU).
    exists (filter (fun w => negb (first =? lvar w)) c).
    assert (Er : ring (filter (fun w => negb (first =? lvar w)) c) = ring c).
    { destruct (le_lt_dec 2 (length c)) as [L|L].
      - f_equal. rewrite (filter_ext_in _ (fun _ => true)); [clear; induction c; simpl; congruence|].
        intros w Hw. destruct (Nat.eqb_spec first (lvar w)) as [E|E]; [|reflexivity]. exfalso.
        destruct (ring_has_fst c w L Hw) as (u & Hu). assert (K : mfind first (ei_ante e) = Some (w, u)) by (apply HA; split; [exact Hu|symmetry; exact E]).
        congruence.
      - rewrite (ring_small c L). apply ring_small. pose proof (filter_length_le (fun w => negb (first =? lvar w)) c). lia. }
    cbn [ei_ante ei_succ ei_queue ei_list]. rewrite Er. split; [|split; [|split; [|split; [|split; [|split; [|split; [|split; [|split; [|split]]]]]]]]].
    - split; [|rewrite Er; split; [exact (proj1 (proj2 HR))|exact HSU]].
      unfold distinct_vars in *. clear -HN. induction c as [|a r IH]; simpl; [constructor|]. simpl in HN. inversion HN as [|? ? N1 N2]; subst.
      destruct (negb (first =? lvar a)); simpl; [|apply IH; exact N2]. constructor; [|apply IH; exact N2].
      intros K. apply N1. apply in_map_iff in K. destruct K as (u & E & Hu). apply filter_In in Hu. rewrite <- E. apply in_map. tauto.
    - apply sdel_sorted. exact HS.
    - apply sdel_length. exact Hfirst.
    - intros v Hv. apply sdel_in in Hv. tauto.
    - reflexivity.
    - apply Permutation_refl.
    - simpl. lia.
    - intros i [].
    - intros i [].
    - assert (E : out_of (sdel first (ei_queue e)) (filter (fun w => negb (first =? lvar w)) c) = out_of (ei_queue e) c); [|rewrite E; apply Permutation_refl].
      clear -Hfirst. unfold out_of. induction c as [|a r IH]; [reflexivity|]. cbn [filter].
      destruct (Nat.eqb_spec first (lvar a)) as [E|E]; cbn [negb].
      + rewrite <- E. destruct (smem first (ei_queue e)) eqn:F; [|apply smem_nin in F; tauto]. cbn [negb]. exact IH.
      + cbn [filter]. replace (smem (lvar a) (sdel first (ei_queue e))) with (smem (lvar a) (ei_queue e)); [rewrite IH; reflexivity|].
        apply smem_ext. rewrite sdel_in. split; [intros H; split; [exact H|congruence]|tauto].
    - intros w Hw. apply filter_In in Hw. destruct Hw as (H1 & H2). split; [exact H1|]. intros H3. apply sdel_in. split; [exact H3|].
      intros F. rewrite F, Nat.eqb_refl in H2. discriminate. }
  (* rotate the class to start with the removed literal *)
  assert (Hl : In (l0, x0) (ring c) /\ lvar l0 = first) by (apply (proj1 (proj2 HR)); exact Ef). destruct Hl as (Hl & El).
  destruct (ring_in _ _ Hl) as (Hl0 & _). cbn [fst] in Hl0. assert (L2 : 2 <= length c).
  { destruct (le_lt_dec 2 (length c)) as [L|L]; [exact L|]. rewrite (ring_small c L) in Hl. destruct Hl. }
  apply in_split in Hl0. destruct Hl0 as (ca & cb & Ec). subst first.
  set (r := cb ++ ca). assert (HR' : Rep (ei_ante e) (ei_succ e) (l0 :: r)).
  { unfold r. change (l0 :: cb ++ ca) with ((l0 :: cb) ++ ca). apply rep_rot. rewrite <- Ec. exact HR. }
  assert (Hrc : Permutation (ring c) (ring (l0 :: r))) by (rewrite Ec; apply (ring_rot ca (l0 :: cb))).
  assert (Hro : Permutation (ring (out_of (ei_queue e) c)) (ring (out_of (ei_queue e) (l0 :: r)))).
  { rewrite Ec. unfold r. change (l0 :: cb ++ ca) with ((l0 :: cb) ++ ca). rewrite !out_of_app. apply ring_rot. }
  assert (Hne : r <> []).
  { unfold r. intros F. apply app_eq_nil in F. destruct F as (-> & ->). rewrite Ec in L2. simpl in L2. lia. }
  assert (Hlen : length (ring (l0 :: r)) = length (l0 :: r)).
  { transitivity (length (map fst (ring (l0 :: r)))); [symmetry; apply map_length|]. f_equal. apply ring_fst. destruct r; [congruence|simpl; lia]. }
  destruct (exists_last Hne) as (r0 & z & Erz). assert (Hz : exists r0, r = r0 ++ [z]) by (exists r0; exact Erz).
  assert (Hmem : forall w, In w (l0 :: r) -> In w c).
  { intros w Hw. unfold r in Hw. rewrite Ec. simpl in Hw. repeat rewrite in_app_iff in *. simpl. tauto. }
  clearbody r. clear Hl Ec ca cb L2.
  assert (Es : mread (lvar l0) (ei_succ e) = Ok (z, l0)).
  { apply (succ_prev (ei_ante e) (ei_succ e) l0 r z HR' Hz (l0 :: r0) z l0 []). rewrite Erz. rewrite <- app_assoc. reflexivity. }
  rewrite Es. cbn [bind snd fst]. destruct r as [|x r1] eqn:Er; [congruence|].
  assert (Ex : x = x0).
  { assert (K : mread (lvar l0) (ei_ante e) = Ok (l0, x)) by (apply (ante_next (ei_ante e) (ei_succ e) l0 (x :: r1) z HR' Hz [] l0 x (r1 ++ [l0])); reflexivity).
    unfold mread in K. rewrite Ef in K. congruence. }
  subst x0.
  assert (LA : length (ei_ante e) = length (l0 :: x :: r1)) by (rewrite (repm_length _ _ _ (proj1 (proj2 HR'))); exact Hlen).
  assert (LS : length (ei_succ e) = length (l0 :: x :: r1)) by (rewrite (repm_length _ _ _ (proj2 (proj2 HR'))); exact Hlen).
  destruct (forward_ok (ei_ante e) (ei_succ e) l0 (x :: r1) (ei_queue e) z HR' Hz r1 (S (length (ei_ante e))) [] x) as (f & x' & r'' & F1 & F2 & F3 & F4).
  { reflexivity. } { rewrite LA. simpl. lia. } { intros y []. }
  change ((z, l0) :: chain (l0 :: [] ++ [x])) with (@cons impl (z, l0) (@cons impl (l0, x) (@nil impl))) in F4. rewrite F4. cbn [bind].
  assert (HB : exists g y' b, x' :: r'' = g ++ y' :: b /\ (forall w, In w b -> smem (lvar w) (ei_queue e) = true) /\
    (g = [] \/ (smem (lvar y') (ei_queue e) = false /\ smem (lvar x') (ei_queue e) = false)) /\
    backward (S (length (ei_succ e))) (ei_succ e) (ei_queue e) (lvar l0) (lvar z) ((z, l0) :: chain (l0 :: f ++ [x'])) = Ok (chain (y' :: b ++ l0 :: f ++ [x']))).
  { destruct r'' as [|w r''].
    - assert (z = x') by (rewrite Erz in F1; apply app_inj_tail in F1; apply F1). subst z.
      exists [], x', []. split; [reflexivity|]. split; [intros w []|]. split; [auto|]. cbn [backward].
      assert (B : back_succ ((x', l0) :: chain (l0 :: f ++ [x'])) = x').
      { destruct (exists_last (l := l0 :: f)) as (p & u & Ep); [discriminate|].
        change (l0 :: f ++ [x']) with ((l0 :: f) ++ [x']). rewrite Ep. rewrite <- app_assoc. simpl app. rewrite chain_snoc, app_comm_cons, back_succ_app. reflexivity. }
      rewrite B. cbn [front_ante fst]. rewrite Nat.eqb_refl. cbn [negb]. rewrite !andb_false_r. reflexivity.
    - destruct F3 as [F3|F3]; [discriminate|].
      assert (Ez : exists g0, x' :: w :: r'' = g0 ++ [z]).
      { destruct (exists_last (l := x' :: w :: r'')) as (g0 & u & Eu); [discriminate|]. exists g0. rewrite Eu. f_equal. f_equal.
        rewrite Eu, app_assoc, Erz in F1. apply app_inj_tail in F1. symmetry. apply F1. }
      destruct Ez as (g0 & Ez).
      destruct (backward_ok (ei_ante e) (ei_succ e) l0 (x :: r1) (ei_queue e) z HR' Hz f x' (w :: r'') F1 F3 g0 (S (length (ei_succ e))) z [] Ez) as (g & y' & b & B1 & B2 & B3 & B4).
      { rewrite LS. apply (f_equal (@length lit)) in Ez. rewrite F1. simpl in *. rewrite !app_length in *. simpl in *. lia. }
      { intros u []. }
      exists g, y', b. split; [exact B1|]. split; [exact B2|]. split; [right; split; assumption|]. exact B4. }
  destruct HB as (g & y' & b & B1 & B2 & B3 & B4). rewrite B4. cbn [bind].
  assert (EF : front_ante (chain (y' :: b ++ l0 :: f ++ [x'])) = y') by (apply front_chain; intros F; symmetry in F; apply app_cons_not_nil in F; exact F).
  assert (EB : back_succ (chain (y' :: b ++ l0 :: f ++ [x'])) = x').
  { destruct (exists_last (l := y' :: b ++ l0 :: f)) as (p & u & Ep); [discriminate|].
    replace (y' :: b ++ l0 :: f ++ [x']) with ((y' :: b ++ l0 :: f) ++ [x']) by (simpl; rewrite <- app_assoc; reflexivity).
    rewrite Ep, <- app_assoc. simpl app. apply back_succ_chain. }
  rewrite EF, EB. clear EF EB Es F4 B4 LA LS Hlen.
  set (q2 := chain (y' :: b ++ l0 :: f ++ [x'])) in *.
  assert (HP : Permutation (ring (l0 :: x :: r1)) (q2 ++ chain (g ++ [y']))) by (rewrite F1; apply ring_split; exact B1).
  destruct (remove_all_maps q2 e) as (M1 & M2 & M3).
  assert (R1 : RepM (ei_ante (fold_left removeImplication q2 e)) kfst (chain (g ++ [y']))).
  { rewrite M1. apply repm_del_all. apply (repm_perm _ _ _ _ (proj1 (proj2 HR')) HP). }
  assert (R2 : RepM (ei_succ (fold_left removeImplication q2 e)) ksnd (chain (g ++ [y']))).
  { rewrite M2. apply repm_del_all. apply (repm_perm _ _ _ _ (proj2 (proj2 HR')) HP). }
  pose proof (proj1 HR') as HN.
  assert (Hr1 : x :: r1 = f ++ g ++ y' :: b) by (rewrite F1, B1; reflexivity).
  assert (Hin1 : In (lvar l0) (ei_queue e)) by exact Hfirst.
  set (Q' := fold_left (fun s i => sdel (lvar (snd i)) (sdel (lvar (fst i)) s)) q2 (ei_queue e)).
  assert (HQ' : forall v, In v Q' <-> In v (ei_queue e) /\ forall u, In u (y' :: b ++ l0 :: f ++ [x']) -> lvar u <> v).
  { intros v. unfold Q'. rewrite drop_in. split; intros (H1 & H2); split; auto.
    - intros u Hu. destruct (chain_covers (y' :: b ++ l0 :: f ++ [x']) u) as (i & Hi & [E|E]); [simpl; rewrite app_length; simpl; lia|exact Hu| |];
        rewrite <- E; apply (H2 i Hi).
    - intros i Hi. apply chain_mem in Hi. destruct Hi. split; apply H2; assumption. }
  assert (HQs : ssorted Q') by (apply drop_sorted; exact HS).
  assert (HQl : length Q' < length (ei_queue e)).
  { apply (sorted_sub_length Q' (ei_queue e) (lvar l0)); [exact HQs|intros v Hv; apply HQ' in Hv; tauto|exact Hfirst|].
    intros K. apply HQ' in K. destruct K as (_ & K). apply (K l0); [|reflexivity]. right. apply in_or_app. right. left. reflexivity. }
  assert (Hrm : forall i, In i q2 -> In (kfst i) (ei_queue e) \/ In (ksnd i) (ei_queue e)).
  { intros i Hi. unfold q2 in Hi. replace (y' :: b ++ l0 :: f ++ [x']) with (y' :: (b ++ l0 :: f) ++ [x']) in Hi by (rewrite <- app_assoc; reflexivity).
    assert (K : forall u, In u (b ++ l0 :: f) -> In (lvar u) (ei_queue e)).
    { intros u Hu. apply in_app_or in Hu. destruct Hu as [Hu|[<-|Hu]]; [apply smem_in, B2; exact Hu|exact Hfirst|apply smem_in, F2; exact Hu]. }
    apply chain_inner in Hi; [|intros F; symmetry in F; apply app_cons_not_nil in F; exact F]. destruct Hi as [Hi|Hi]; [left|right]; apply K; exact Hi. }
  assert (Hl2 : 1 <= length q2).
  { unfold q2. destruct (b ++ l0 :: f ++ [x']) eqn:Eq; [symmetry in Eq; apply app_cons_not_nil in Eq; tauto|]. rewrite chain_cons2. simpl. lia. }
  assert (Hout : out_of (ei_queue e) (l0 :: x :: r1) = out_of (ei_queue e) (g ++ [y'])).
  { rewrite Hr1. change (l0 :: f ++ g ++ y' :: b) with ((l0 :: f) ++ g ++ y' :: b). replace (g ++ y' :: b) with ((g ++ [y']) ++ b) by (rewrite <- app_assoc; reflexivity).
    rewrite !out_of_app. rewrite (out_of_all _ (l0 :: f)), (out_of_all _ b B2), app_nil_r; [reflexivity|].
    intros w [<-|Hw]; [apply smem_in; exact Hfirst|apply F2; exact Hw]. }
  assert (HNs : distinct_vars (g ++ [y'])).
  { unfold distinct_vars in *. rewrite Hr1 in HN. simpl in HN. inversion HN as [|? ? _ N2]; subst. rewrite map_app in N2. apply nodup_app_r in N2.
    replace (g ++ y' :: b) with ((g ++ [y']) ++ b) in N2 by (rewrite <- app_assoc; reflexivity). rewrite map_app in N2. apply nodup_app_l in N2. exact N2. }
  destruct g as [|g1 g].
  - (* nothing but one literal is left *)
    simpl in B1. injection B1 as -> ->. rewrite Nat.eqb_refl. cbn [negb andb].
    eexists. eexists. eexists. split; [reflexivity|]. exists (out_of (ei_queue e) [y']).
    assert (Es : ring (out_of (ei_queue e) [y']) = []) by (apply ring_small; simpl; destruct (negb (smem (lvar y') (ei_queue e))); simpl; lia).
    cbn [ei_ante ei_succ ei_queue ei_list]. rewrite Es. split; [|split; [|split; [|split; [|split; [|split; [|split; [|split; [|split; [|split]]]]]]]]].
    + split; [|rewrite Es; split; [exact R1|exact R2]]. unfold distinct_vars, out_of. simpl. destruct (negb (smem (lvar y') (ei_queue e))); simpl; repeat constructor; auto.
    + exact HQs.
    + exact HQl.
    + intros v Hv. apply HQ' in Hv. tauto.
    + exact M3.
    + simpl. rewrite app_nil_r. eapply Permutation_trans; [exact Hrc|]. eapply Permutation_trans; [exact HP|]. simpl. rewrite app_nil_r. apply Permutation_refl.
    + simpl. lia.
    + exact Hrm.
    + intros i [].
    + eapply Permutation_trans; [exact Hro|]. rewrite Hout. simpl app. rewrite Es.
      assert (K : length (out_of Q' (out_of (ei_queue e) [y'])) < 2).
      { unfold out_of. eapply Nat.le_lt_trans; [apply filter_length_le|]. eapply Nat.le_lt_trans; [apply filter_length_le|]. simpl. lia. }
      rewrite (ring_small _ K). constructor.
    + intros w Hw. apply filter_In in Hw. destruct Hw as ([<-|[]] & Hw). split.
      * apply Hmem. rewrite Hr1. right. apply in_or_app. right. left. reflexivity.
      * intros K. apply smem_in in K. rewrite K in Hw. discriminate.
  - destruct B3 as [B3|(B3 & B3')]; [discriminate|]. simpl in B1. injection B1 as <- B1.
    assert (Hyx : y' <> x').
    { intros ->. unfold distinct_vars in HNs. simpl in HNs. inversion HNs as [|? ? N1 _]; subst. apply N1. rewrite map_app. apply in_or_app. right. left. reflexivity. }
    assert (Eyx : (y' =? x') = false) by (apply Nat.eqb_neq; exact Hyx).
    rewrite Eyx. change (negb false) with true. rewrite B3, B3'. cbn [negb andb].
    assert (HK : forall w, In w (x' :: g ++ [y']) -> In (lvar w) (ei_queue e) -> In (lvar w) Q').
    { intros w Hw Hwq. rewrite HQ'. split; [exact Hwq|]. intros u Hu Euw.
      assert (Hu' : In u (l0 :: x :: r1)).
      { rewrite Hr1. simpl in Hu |- *. repeat rewrite in_app_iff in *. simpl in *. repeat rewrite in_app_iff in *. simpl in *. tauto. }
      assert (Hw' : In w (l0 :: x :: r1)).
      { rewrite Hr1. simpl in Hw |- *. repeat rewrite in_app_iff in *. simpl in *. repeat rewrite in_app_iff in *. simpl in *. tauto. }
      assert (u = w) by (apply (distinct_lvar_eq _ u w HN Hu' Hw' Euw)). subst u.
      (* w is one of the kept literals and one of the segment *)
      assert (K : w = x' \/ w = y').
      { assert (HNd : NoDup (l0 :: f ++ (x' :: g) ++ y' :: b)).
        { rewrite <- Hr1. unfold distinct_vars in HN. apply NoDup_map_inv in HN. exact HN. }
        change (x' :: g ++ [y']) with ((x' :: g) ++ [y']) in Hw. apply in_app_or in Hw. destruct Hw as [[Hw|Hw]|[Hw|[]]]; auto.
        assert (Hg : In w ((x' :: g) ++ y' :: b)) by (apply in_or_app; left; right; exact Hw).
        simpl in Hu. destruct Hu as [Hu|Hu]; [auto|]. apply in_app_or in Hu. destruct Hu as [Hu|[Hu|Hu]].
        - exfalso. inversion HNd as [|? ? _ N2]; subst. apply nodup_app_r in N2.
          apply (nodup_app_disj (x' :: g) (y' :: b) w N2); right; assumption.
        - exfalso. inversion HNd as [|? ? N1 _]; subst. apply N1. apply in_or_app. right. exact Hg.
        - apply in_app_or in Hu. destruct Hu as [Hu|[Hu|[]]]; [|auto]. exfalso. inversion HNd as [|? ? _ N2]; subst.
          apply (nodup_app_disj f _ w N2 Hu Hg). }
      apply smem_in in Hwq. destruct K as [-> | ->]; congruence. }
    eexists. eexists. eexists. split; [reflexivity|]. exists ((x' :: g) ++ [y']).
    assert (Er2 : Permutation (ring ((x' :: g) ++ [y'])) ((y', x') :: chain ((x' :: g) ++ [y']))).
    { simpl app. rewrite ring_chain' by (intros F; symmetry in F; apply app_cons_not_nil in F; exact F).
      replace (x' :: (g ++ [y']) ++ [x']) with ((x' :: g) ++ [y'; x']) by (simpl; rewrite <- app_assoc; reflexivity). rewrite chain_snoc.
      apply Permutation_sym, Permutation_cons_append. }
    cbn [ei_ante ei_succ ei_queue ei_list addImplication fst snd].
    split; [|split; [|split; [|split; [|split; [|split; [|split; [|split; [|split; [|split]]]]]]]]].
    + split; [exact HNs|].
      pose proof (ring_nodup_fst _ HNs) as N1. pose proof (ring_nodup_snd _ HNs) as N2.
      apply (Permutation_NoDup (Permutation_map kfst Er2)) in N1. apply (Permutation_NoDup (Permutation_map ksnd Er2)) in N2.
      split.
      * eapply repm_perm; [|apply Permutation_sym; exact Er2]. apply (repm_put _ kfst _ (y', x') R1). simpl in N1. inversion N1. assumption.
      * eapply repm_perm; [|apply Permutation_sym; exact Er2]. apply (repm_put _ ksnd _ (y', x') R2). simpl in N2. inversion N2. assumption.
    + exact HQs.
    + exact HQl.
    + intros v Hv. apply HQ' in Hv. tauto.
    + exact M3.
    + eapply Permutation_trans; [apply Permutation_app_tail; exact Hrc|]. eapply Permutation_trans; [apply Permutation_app_tail; exact HP|].
      eapply Permutation_trans; [|apply Permutation_app_tail, Permutation_sym; exact Er2]. 
      eapply Permutation_trans; [apply Permutation_app_comm|]. simpl. apply perm_skip. apply Permutation_app_comm.
    + simpl. lia.
    + exact Hrm.
    + intros i [<-|[]]. unfold kfst, ksnd. cbn [fst snd]. split; apply smem_nin; assumption.
    + eapply Permutation_trans; [exact Hro|]. rewrite Hout. simpl app.
      assert (K : out_of (ei_queue e) (x' :: g ++ [y']) = out_of Q' (x' :: g ++ [y'])); [|rewrite K; apply Permutation_refl].
      apply out_of_ext. intros w Hw. apply smem_ext. split; [apply HK; exact Hw|]. intros K. apply HQ' in K. tauto.
    + intros w Hw. split; [|apply HK; exact Hw]. apply Hmem. rewrite Hr1. right. apply in_or_app. right.
      change ((x' :: g) ++ [y']) with (x' :: g ++ [y']) in Hw. change ((x' :: g) ++ y' :: b) with (x' :: g ++ y' :: b).
      destruct Hw as [Hw|Hw]; [left; exact Hw|right]. apply in_app_or in Hw. apply in_or_app. destruct Hw as [Hw|[Hw|[]]]; [left; exact Hw|right; left; exact Hw].
Qed.
