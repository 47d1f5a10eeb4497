(** The database, watch lists and occurence lists of the proof checker. *)
Require Import List Arith Bool NArith Lia Permutation.
From Coq Require Import ZifyBool ZifyNat ZifyN.
Require Import Verif.Base Verif.CNFModel Verif.CNFProofs Verif.Outcome Verif.TrailModel Verif.TrailProofs Verif.DbModel Verif.PropModel Verif.PropProofs
  Verif.DbProofs Verif.DRATModel Verif.DRATLemmas.
Import ListNotations.

Definition alive (d : db) (c : cid) : Prop := In c (cls d) /\ isDeleted d c = false.
Definition sat_live (x : assignment) (d : db) : Prop := forall c, alive d c -> sat_clause x (clits d c).

Record DBi (d : db) : Prop := {
  b_rng : range (nv d) (arena d);
  b_bs : forall p c o, In (c, o) (wl (bw d) p) -> alive d c /\ length (clits d c) = 2 /\ In (lneg p) (clits d c) /\ In o (clits d c) /\
    forall m, In m (clits d c) -> m = lneg p \/ m = o;
  b_bl : forall l, lvar l < nv d -> l < length (bw d);
  b_ids : forall c, In c (cls d) \/ In c (mem d ++ facts d) -> c < length (arena d);
  b_nd : NoDup (mem d ++ facts d);
  b_cnd : NoDup (cls d);
  b_mf : forall c, isDeleted d c = false -> (In c (cls d) <-> In c (mem d ++ facts d)) }.
Record WOi (d : db) (w : watches) (occ : list (list cid)) : Prop := {
  w_len : length w = 2 * nv d + 1;
  w_ws : WS (arena d) w;
  w_al : forall c q, In c (map fst (wl w q)) -> alive d c /\ 2 < length (clits d c);
  w_ol : length occ = 2 * nv d;
  w_oc : forall c l, alive d c -> In l (clits d c) -> In c (nth l occ []) }.

Lemma isDeleted_awt d c : isDeleted d c = (awt (arena d) c =? W_DELETED)%N. Proof. reflexivity. Qed.

(** ** Permuting the literals of clauses *)
Lemma perm_alive d a c : aperm (arena d) a -> alive (with_arena d a) c <-> alive d c.
Proof. intros (_ & H). unfold alive. rewrite !isDeleted_awt. cbn [with_arena arena cls]. rewrite (proj2 (H c)). tauto. Qed.
Lemma perm_live x d a : aperm (arena d) a -> sat_live x (with_arena d a) <-> sat_live x d.
Proof.
  intros H. unfold sat_live. split; intros HS c Hc.
  - apply (sat_perm x (arena d) a c H). apply (HS c). apply perm_alive; auto.
  - apply (sat_perm x (arena d) a c H). apply (HS c). apply (perm_alive d a); auto.
Qed.
Lemma perm_DBi d a : aperm (arena d) a -> DBi d -> DBi (with_arena d a).
Proof.
  intros HP [H1 H2 H3 H4 H5 H6 H7]. constructor; cbn [with_arena nv bw cls mem facts arena]; auto.
  - apply (range_perm _ (arena d)); auto.
  - intros p c o Hi. destruct (H2 p c o Hi) as (A1 & A2 & A3 & A4 & A5). split; [apply perm_alive; auto|].
    change (clits (with_arena d a) c) with (alits a c). change (clits d c) with (alits (arena d) c) in *. rewrite <- (aperm_len (arena d) a c HP).
    split; auto. split; [apply (aperm_in _ a c _ HP); auto|]. split; [apply (aperm_in _ a c _ HP); auto|]. intros m Hm. apply A5. apply (aperm_in _ a c _ HP); auto.
  - intros c. rewrite (proj1 HP). apply H4.
  - intros c. rewrite isDeleted_awt. cbn [with_arena arena]. rewrite (proj2 (proj2 HP c)). apply H7.
Qed.
Lemma perm_WOi d a w w' occ : aperm (arena d) a -> WOi d w occ -> length w' = length w -> WS a w' ->
  (forall c q, In c (map fst (wl w' q)) -> exists q', In c (map fst (wl w q'))) -> WOi (with_arena d a) w' occ.
Proof.
  intros HP [H1 H2 H3 H4 H5] HL HW HI. constructor; cbn [with_arena nv arena]; auto; try congruence.
  - intros c q Hc. destruct (HI c q Hc) as (q' & Hq). destruct (H3 c q' Hq) as (A1 & A2). split; [apply perm_alive; auto|].
    change (clits (with_arena d a) c) with (alits a c). rewrite <- (aperm_len (arena d) a c HP). auto.
  - intros c l Hc Hl. apply (H5 c l); [apply (perm_alive d a); auto|]. apply (aperm_in (arena d) a c l HP). auto.
Qed.
Lemma pin_of d w occ t : DBi d -> WOi d w occ -> TI t -> nvt t = nv d -> pin d w t.
Proof.
  intros [H1 H2 H3 H4 H5 H6 H7] [W1 W2 W3 W4 W5] HT HN. constructor; auto.
  - rewrite HN. auto.
  - rewrite HN, W1. intros l Hl. assert (HL := lit_lt_double l _ Hl). lia.
  - intros p c o Hi. destruct (H2 p c o Hi) as (_ & _ & _ & A & B). auto.
Qed.
Lemma listed_alive d w occ c : DBi d -> WOi d w occ -> listed d w c -> alive d c.
Proof.
  intros HD HW (q & [Hq|Hq]); [apply (w_al _ _ _ HW c q Hq)|]. apply in_map_iff in Hq. destruct Hq as ((c', o) & E & Hi). cbn in E. subst c'.
  apply (b_bs _ HD q c o Hi).
Qed.

(** ** Creating clauses *)
Record newc (d : db) (ls : list lit) (c : cid) (d' : db) : Prop := {
  n_c : c = length (arena d);
  n_ar : exists w, arena d' = arena d ++ [mkC ls w] /\ w <> W_DELETED;
  n_cls : cls d' = cls d ++ [c];
  n_nv : nv d' = nv d;
  n_bw : bw d' = watch_binary c ls (bw d);
  n_mf : Permutation (mem d' ++ facts d') (c :: mem d ++ facts d);
  n_e : empt d' = (if length ls =? 0 then true else empt d) }.
Lemma create_newc ls lem d c d' : createClause ls 0 lem d = Ok (c, d') -> newc d ls c d'.
Proof.
  unfold createClause. destruct (65536 <=? _)%N; [discriminate|]. intros E. injection E as <- <-. constructor; auto.
  - eexists. split; [reflexivity|]. destruct (length ls <? 3); discriminate.
  - cbn [mem facts]. destruct (length ls =? 1).
    + rewrite app_assoc. apply Permutation_sym. apply Permutation_cons_append.
    + rewrite <- app_assoc. cbn [app]. apply Permutation_sym. apply Permutation_middle.
Qed.
Lemma newc_old d ls c d' : newc d ls c d' -> forall k, k < length (arena d) -> clits d' k = clits d k /\ isDeleted d' k = isDeleted d k.
Proof.
  intros [_ (w & E & _) _ _ _ _ _] k Hk. unfold clits, isDeleted, cwt, cobj_at. rewrite E, app_nth1 by auto. auto.
Qed.
Lemma newc_new d ls c d' : newc d ls c d' -> clits d' c = ls /\ isDeleted d' c = false.
Proof.
  intros [-> (w & E & Hw) _ _ _ _ _]. unfold clits, isDeleted, cwt, cobj_at. rewrite E, app_nth2, Nat.sub_diag by auto. cbn. split; auto. apply N.eqb_neq. auto.
Qed.
Lemma newc_alive d ls c d' : DBi d -> newc d ls c d' -> forall k, alive d' k <-> k = c \/ alive d k.
Proof.
  intros HD HN k. unfold alive. rewrite (n_cls _ _ _ _ HN). split.
  - intros (H1 & H2). apply in_app_or in H1. destruct H1 as [H1|[<-|[]]]; auto. right. split; auto. rewrite <- (proj2 (newc_old _ _ _ _ HN k (b_ids _ HD k (or_introl H1)))). auto.
  - intros [->|(H1 & H2)].
    + split; [apply in_or_app; cbn; auto|apply (newc_new _ _ _ _ HN)].
    + split; [apply in_or_app; auto|]. rewrite (proj2 (newc_old _ _ _ _ HN k (b_ids _ HD k (or_introl H1)))). auto.
Qed.
Lemma watch_binary_in c ls b p c' o : In (c', o) (wl (watch_binary c ls b) p) -> In (c', o) (wl b p) \/
  (c' = c /\ exists x y, ls = [x; y] /\ (p = lneg x /\ o = y \/ p = lneg y /\ o = x)).
Proof.
  destruct ls as [|x [|y [|z r]]]; cbn [watch_binary]; auto. intros H. apply wl_push_in in H. destruct H as [H|(-> & H)].
  - apply wl_push_in in H. destruct H as [H|(-> & H)]; auto. injection H as -> ->. right. split; auto. exists x, y. auto.
  - injection H as -> ->. right. split; auto. exists x, y. auto.
Qed.
Lemma watch_binary_len c ls b : length (watch_binary c ls b) = length b.
Proof. destruct ls as [|x [|y [|z r]]]; cbn [watch_binary]; auto. rewrite !push_at_length. auto. Qed.
Lemma newc_DBi d ls c d' : DBi d -> (forall l, In l ls -> lvar l < nv d) -> newc d ls c d' -> DBi d'.
Proof.
  intros HD HL HN. assert (HA := newc_alive d ls c d' HD HN). assert (HO := newc_old d ls c d' HN). assert (HW := newc_new d ls c d' HN).
  assert (Hc := n_c _ _ _ _ HN). destruct (n_ar _ _ _ _ HN) as (wt & EA & _).
  assert (HLn : length (arena d') = S (length (arena d))) by (rewrite EA, app_length; cbn; lia).
  assert (HD0 := HD). destruct HD0 as [H1 H2 H3 H4 H5 H6 H7]. constructor.
  - rewrite (n_nv _ _ _ _ HN). intros k l Hl. destruct (Nat.lt_ge_cases k (length (arena d))) as [Hk|Hk].
    + apply (H1 k). change (alits (arena d') k) with (clits d' k) in Hl. rewrite (proj1 (HO k Hk)) in Hl. auto.
    + destruct (Nat.eq_dec k c) as [->|Hn]; [change (alits (arena d') c) with (clits d' c) in Hl; rewrite (proj1 HW) in Hl; auto|]. apply alits_lt in Hl. lia.
  - intros p k o Hi. rewrite (n_bw _ _ _ _ HN) in Hi. apply watch_binary_in in Hi. destruct Hi as [Hi|(-> & x & y & E & Ho)].
    + destruct (H2 p k o Hi) as (A1 & A2). split; [apply HA; auto|]. rewrite (proj1 (HO k (H4 k (or_introl (proj1 A1))))). auto.
    + split; [apply HA; auto|]. rewrite (proj1 HW), E. split; auto. destruct Ho as [(-> & ->)|(-> & ->)]; rewrite lneg_invol; cbn; intuition.
  - rewrite (n_nv _ _ _ _ HN), (n_bw _ _ _ _ HN), watch_binary_len. auto.
  - intros k Hk. rewrite HLn. destruct Hk as [Hk|Hk].
    + rewrite (n_cls _ _ _ _ HN) in Hk. apply in_app_or in Hk. destruct Hk as [Hk|[<-|[]]]; [specialize (H4 k (or_introl Hk)); lia|lia].
    + apply (Permutation_in _ (n_mf _ _ _ _ HN)) in Hk. destruct Hk as [<-|Hk]; [lia|]. specialize (H4 k (or_intror Hk)). lia.
  - apply (Permutation_NoDup (Permutation_sym (n_mf _ _ _ _ HN))). constructor; auto. intros Hk. specialize (H4 c (or_intror Hk)). lia.
  - rewrite (n_cls _ _ _ _ HN). apply (Permutation_NoDup (Permutation_cons_append (cls d) c)). constructor; auto. intros Hk. specialize (H4 c (or_introl Hk)). lia.
  - intros k Hk. destruct (Nat.eq_dec k c) as [->|Hn].
    + split; intros _; [apply (Permutation_in _ (Permutation_sym (n_mf _ _ _ _ HN))); cbn; auto|rewrite (n_cls _ _ _ _ HN); apply in_or_app; cbn; auto].
    + destruct (Nat.lt_ge_cases k (length (arena d))) as [Hl|Hl].
      * rewrite (proj2 (HO k Hl)) in Hk. specialize (H7 k Hk). rewrite (n_cls _ _ _ _ HN). split; intros Hi.
        -- apply in_app_or in Hi. destruct Hi as [Hi|[->|[]]]; [|congruence]. apply (Permutation_in _ (Permutation_sym (n_mf _ _ _ _ HN))). cbn. right. apply H7. auto.
        -- apply (Permutation_in _ (n_mf _ _ _ _ HN)) in Hi. destruct Hi as [->|Hi]; [congruence|]. apply in_or_app. left. apply H7. auto.
      * split; intros Hi; exfalso.
        -- rewrite (n_cls _ _ _ _ HN) in Hi. apply in_app_or in Hi. destruct Hi as [Hi|[->|[]]]; [|congruence]. specialize (H4 k (or_introl Hi)). lia.
        -- apply (Permutation_in _ (n_mf _ _ _ _ HN)) in Hi. destruct Hi as [->|Hi]; [congruence|]. specialize (H4 k (or_intror Hi)). lia.
Qed.

Lemma set_nth_oob {A} n (x : A) l : length l <= n -> set_nth n x l = l.
Proof. intros H. unfold set_nth. rewrite skipn_all2, firstn_all2 by auto. apply app_nil_r. Qed.

(** ** Occurence lists and watch lists *)
Lemma push_nth_old {A} i (x : A) o j y : In y (nth j o []) -> In y (nth j (push_at i x o) []).
Proof. intros H. unfold push_at. rewrite nth_set_nth. destruct (Nat.eqb_spec j i) as [->|]; cbn [andb]; auto. destruct (i <? length o); auto. apply in_or_app. auto. Qed.
Lemma occ_add_old d o c l k : In k (nth l o []) -> In k (nth l (occ_add d o c) []).
Proof. unfold occ_add. revert o. induction (clits d c) as [|x r IH]; intros o H; cbn [fold_left]; auto. apply IH. apply push_nth_old. auto. Qed.
Lemma occ_add_len d o c : length (occ_add d o c) = length o.
Proof. unfold occ_add. revert o. induction (clits d c) as [|x r IH]; intros o; cbn [fold_left]; auto. rewrite IH. apply push_at_length. Qed.
Lemma occ_add_new d o c l : In l (clits d c) -> l < length o -> In c (nth l (occ_add d o c) []).
Proof.
  unfold occ_add. revert o. induction (clits d c) as [|x r IH]; intros o Hl Ho; [destruct Hl|]. cbn [fold_left].
  destruct Hl as [->|Hl]; [|apply IH; auto; rewrite push_at_length; auto].
  assert (H : In c (nth l (push_at l c o) [])).
  { unfold push_at. rewrite nth_set_nth_same by auto. apply in_or_app. cbn. auto. }
  revert H. generalize (push_at l c o). clear. induction r as [|y r IH]; intros o H; cbn [fold_left]; auto. apply IH. apply push_nth_old. auto.
Qed.
Lemma occ_all_ok d cs : forall o, (forall c l, In c cs -> In l (clits d c) -> l < length o) ->
  length (fold_left (occ_add d) cs o) = length o /\ (forall c l, In c (nth l o []) -> In c (nth l (fold_left (occ_add d) cs o) [])) /\
  forall c l, In c cs -> In l (clits d c) -> In c (nth l (fold_left (occ_add d) cs o) []).
Proof.
  induction cs as [|c cs IH]; intros o H; cbn [fold_left]; [split; auto; split; auto; intros c l []|].
  destruct (IH (occ_add d o c)) as (A & B & C); [intros; rewrite occ_add_len; apply (H c0); cbn; auto|]. rewrite occ_add_len in A. split; auto. split.
  - intros k l Hk. apply B. apply occ_add_old. auto.
  - intros k l [<-|Hk] Hl; auto. apply B. apply occ_add_new; auto. apply (H c l); cbn; auto.
Qed.

Lemma attach_in d c w k q : In k (map fst (wl (attachClause d c w) q)) -> k = c \/ In k (map fst (wl w q)).
Proof.
  unfold attachClause. destruct (clits d c) as [|x [|y r]]; auto. intros H. apply in_map_iff in H. destruct H as ((c', b) & E & H). cbn in E. subst c'.
  apply wl_push_in in H. destruct H as [H|(_ & H)]; [|injection H as -> _; auto]. apply wl_push_in in H. destruct H as [H|(_ & H)]; [|injection H as -> _; auto].
  right. apply in_map_iff. exists (k, b). auto.
Qed.
Lemma attach_len d c w : length (attachClause d c w) = length w.
Proof. unfold attachClause. destruct (clits d c) as [|x [|y r]]; auto. rewrite !push_at_length. auto. Qed.
Lemma attach_WS d c w : (forall q, ~ In c (map fst (wl w q))) -> WS (arena d) w -> WS (arena d) (attachClause d c w).
Proof.
  intros HN HW p k. unfold attachClause. destruct (clits d c) as [|x [|y r]] eqn:E; auto.
  assert (H0 : forall q, cnt c (wl w q) = 0).
  { intros q. destruct (Nat.eq_dec (cnt c (wl w q)) 0) as [|Hn]; auto. exfalso. apply (HN q). apply cnt_in. lia. }
  assert (HP : forall b q z k, cnt k (wl (push_at q z b) p) <= cnt k (wl b p) + (if p =? q then eqn (fst z) k else 0)).
  { intros b q z k0. destruct (Nat.lt_ge_cases q (length b)) as [Hq|Hq].
    - rewrite push_wl by auto. destruct (Nat.eqb_spec p q) as [->|]; [|lia]. rewrite cnt_app. destruct z as (z1, z2). rewrite cnt_cons. change (cnt k0 []) with 0. cbn [fst]. lia.
    - unfold push_at. rewrite set_nth_oob by auto. lia. }
  assert (A := HP (push_at (lneg x) (c, y) w) (lneg y) (c, x) k). assert (B := HP w (lneg x) (c, y) k). cbn [fst] in *.
  destruct (Nat.eq_dec k c) as [->|Hk].
  - rewrite H0 in B. unfold pos2. change (alits (arena d) c) with (clits d c). rewrite E. rewrite eqn_refl in *. unfold eqn.
    assert (X : (p =? lneg x) = true -> (x =? lneg p) = true) by (intros Hx; apply Nat.eqb_eq in Hx; apply Nat.eqb_eq; rewrite Hx, lneg_invol; auto).
    assert (Y : (p =? lneg y) = true -> (y =? lneg p) = true) by (intros Hx; apply Nat.eqb_eq in Hx; apply Nat.eqb_eq; rewrite Hx, lneg_invol; auto).
    destruct (p =? lneg y); [rewrite Y by auto|]; (destruct (p =? lneg x); [rewrite X by auto|]); lia.
  - specialize (HW p k). rewrite (eqn_neq c k) in * by auto. destruct (p =? lneg y), (p =? lneg x); lia.
Qed.
Lemma init_fold d cs : forall w, NoDup cs -> (forall c q, In c cs -> ~ In c (map fst (wl w q))) -> WS (arena d) w ->
  let w' := fold_left (fun w c => if 2 <? length (clits d c) then attachClause d c w else w) cs w in
  length w' = length w /\ WS (arena d) w' /\ forall k q, In k (map fst (wl w' q)) -> In k (map fst (wl w q)) \/ (In k cs /\ 2 < length (clits d k)).
Proof.
  induction cs as [|c cs IH]; intros w HN HF HW; cbn [fold_left]; [auto|]. inversion HN as [|? ? Hc HN']; subst.
  destruct (Nat.ltb_spec 2 (length (clits d c))) as [H2|H2].
  - destruct (IH (attachClause d c w)) as (A & B & C); auto.
    + intros k q Hk Hi. apply attach_in in Hi. destruct Hi as [->|Hi]; auto. apply (HF k q); cbn; auto.
    + apply attach_WS; auto. intros q. apply HF. cbn. auto.
    + rewrite attach_len in A. split; auto. split; auto. intros k q Hi. destruct (C k q Hi) as [Hk|(Hk & Hk2)]; [|cbn; auto].
      apply attach_in in Hk. destruct Hk as [->|Hk]; cbn; auto.
  - destruct (IH w HN') as (A & B & C); auto; [intros; apply HF; cbn; auto|]. split; auto. split; auto. intros k q Hi. destruct (C k q Hi) as [Hk|(Hk & Hk2)]; cbn; auto.
Qed.
Lemma wl_repeat n q : wl (repeat [] n) q = [].
Proof. unfold wl. apply nth_repeat. Qed.
Lemma nth_repeat_nil {A} n q : nth q (repeat (@nil A) n) [] = [].
Proof. apply nth_repeat. Qed.
Lemma rebuild d : DBi d -> (forall c, In c (cls d) -> isDeleted d c = false) -> WOi d (prop_init d []) (occ_all d).
Proof.
  intros HD HA. assert (HD0 := HD). destruct HD0 as [H1 H2 H3 H4 H5 H6 H7].
  assert (ER : resize (2 * nv d + 1) [] ([] : watches) = repeat [] (2 * nv d + 1)) by (unfold resize; rewrite firstn_nil; cbn [app length]; rewrite Nat.sub_0_r; reflexivity).
  unfold prop_init. rewrite ER. destruct (init_fold d (cls d) (repeat [] (2 * nv d + 1)) H6) as (A & B & C).
  { intros c q _. rewrite wl_repeat. auto. }
  { intros p c. rewrite wl_repeat. cbn. lia. }
  destruct (occ_all_ok d (cls d) (repeat [] (2 * nv d))) as (A' & B' & C').
  { intros c l Hc Hl. rewrite repeat_length. apply lit_lt_double. apply (H1 c). auto. }
  rewrite repeat_length in *. constructor; auto.
  - intros c q Hc. destruct (C c q Hc) as [Hi|(Hi & H)]; [rewrite wl_repeat in Hi; destruct Hi|]. split; auto. split; auto.
  - intros c l (Hc & _) Hl. apply C'; auto.
Qed.

(** ** Removing clauses *)
Lemma remove_old c d k : clits (removeClause c d) k = clits d k.
Proof. unfold removeClause. exact (alits_set_wt c W_DELETED (arena d) k). Qed.
Lemma remove_alive c d k : c < length (arena d) -> alive (removeClause c d) k <-> alive d k /\ k <> c.
Proof.
  intros Hc. unfold alive. rewrite !isDeleted_awt. cbn [removeClause arena cls]. rewrite awt_set_wt. destruct (Nat.ltb_spec c (length (arena d))); [|lia].
  rewrite andb_true_r. destruct (Nat.eqb_spec k c) as [->|Hn]; [|tauto]. rewrite N.eqb_refl. split; [intros (_ & H2); discriminate|tauto].
Qed.
Lemma filter_at_len {A} i (f : A -> bool) t : length (filter_at i f t) = length t.
Proof. apply set_nth_length. Qed.
Lemma remove_DBi c d : DBi d -> c < length (arena d) -> 2 <= length (clits d c) -> DBi (removeClause c d).
Proof.
  intros HD Hc Hl. assert (HA := fun k => remove_alive c d k Hc). assert (HD0 := HD). destruct HD0 as [H1 H2 H3 H4 H5 H6 H7]. constructor; cbn [removeClause nv cls mem facts arena bw]; auto.
  - intros k l Hk. apply (H1 k). rewrite alits_set_wt in Hk. auto.
  - intros p k o Hi. rewrite remove_old.
    assert (HB : In (k, o) (wl (bw d) p) /\ k <> c).
    { destruct (clits d c) as [|x [|y [|z r]]] eqn:E; cbn [length] in Hl; try lia.
      - apply wl_filter_in in Hi. destruct Hi as (Hi & N1). apply wl_filter_in in Hi. destruct Hi as (Hi & N2). split; auto. intros ->.
        destruct (H2 p c o Hi) as (_ & _ & A & _). rewrite E in A. destruct A as [A|[A|[]]].
        + specialize (N2 (eq_sym (eq_trans (f_equal lneg A) (lneg_invol p)))). unfold not_clause in N2. cbn [fst] in N2. rewrite Nat.eqb_refl in N2. discriminate.
        + specialize (N1 (eq_sym (eq_trans (f_equal lneg A) (lneg_invol p)))). unfold not_clause in N1. cbn [fst] in N1. rewrite Nat.eqb_refl in N1. discriminate.
      - split; auto. intros ->. destruct (H2 p c o Hi) as (_ & A & _). rewrite E in A. cbn in A. lia. }
    destruct HB as (HB & Hn). destruct (H2 p k o HB) as (A1 & A2). split; auto. apply HA. auto.
  - intros l Hl'. specialize (H3 l Hl'). destruct (clits d c) as [|x [|y [|z r]]]; auto. rewrite !filter_at_len. auto.
  - intros k Hk. unfold set_wt. rewrite set_nth_length. auto.
  - intros k Hk. apply H7. rewrite isDeleted_awt in *. cbn [removeClause arena] in Hk. rewrite awt_set_wt in Hk. destruct ((k =? c) && _); [rewrite N.eqb_refl in Hk; discriminate|auto].
Qed.
Lemma detach_in d c w k q : In k (map fst (wl (detachClause d c w) q)) -> In k (map fst (wl w q)).
Proof.
  unfold detachClause. destruct (clits d c) as [|x [|y r]]; auto. intros H. apply in_map_iff in H. destruct H as ((c', b) & E & H). cbn in E. subst c'.
  apply wl_filter_in in H. destruct H as (H & _). apply wl_filter_in in H. destruct H as (H & _). apply in_map_iff. exists (k, b). auto.
Qed.
Lemma detach_gone d c w q : WS (arena d) w -> ~ In c (map fst (wl (detachClause d c w) q)).
Proof.
  intros HW H. assert (H' := detach_in _ _ _ _ _ H). apply cnt_in in H'. specialize (HW q c). unfold pos2 in HW. change (alits (arena d) c) with (clits d c) in HW.
  unfold detachClause in H. destruct (clits d c) as [|x [|y r]]; try lia. apply in_map_iff in H. destruct H as ((c', b) & E & H). cbn in E. subst c'.
  apply wl_filter_in in H. destruct H as (H & N1). apply wl_filter_in in H. destruct H as (H & N2). unfold not_clause in *. cbn [fst] in *. rewrite Nat.eqb_refl in *. cbn in *.
  unfold eqn in HW. destruct (Nat.eqb_spec x (lneg q)) as [->|]; [rewrite lneg_invol in N2; specialize (N2 eq_refl); discriminate|].
  destruct (Nat.eqb_spec y (lneg q)) as [->|]; [rewrite lneg_invol in N1; specialize (N1 eq_refl); discriminate|]. lia.
Qed.
Lemma filter_at_cnt w i f q c : cnt c (wl (filter_at i f w) q) <= cnt c (wl w q).
Proof.
  unfold filter_at, wl. rewrite nth_set_nth. destruct (Nat.eqb_spec q i) as [->|]; cbn [andb]; auto. destruct (i <? length w); auto.
  induction (nth i w []) as [|(k, b) r IH]; cbn [filter]; auto. destruct (f (k, b)); rewrite ?cnt_cons; lia.
Qed.
Lemma detach_WS d c w : WS (arena d) w -> WS (arena d) (detachClause d c w).
Proof.
  intros HW q k. unfold detachClause. destruct (clits d c) as [|x [|y r]]; auto. eapply Nat.le_trans; [apply filter_at_cnt|]. eapply Nat.le_trans; [apply filter_at_cnt|]. apply HW.
Qed.
Lemma detach_len d c w : length (detachClause d c w) = length w.
Proof. unfold detachClause. destruct (clits d c) as [|x [|y r]]; auto. rewrite !filter_at_len. auto. Qed.
Lemma WS_ext a a' w : (forall c, alits a' c = alits a c) -> WS a w -> WS a' w.
Proof. intros H HW p c. unfold pos2. rewrite H. apply HW. Qed.
Lemma remove_WOi c d w occ : DBi d -> WOi d w occ -> c < length (arena d) -> 2 <= length (clits d c) ->
  let d' := removeClause c d in WOi d' (if 2 <? length (clits d' c) then detachClause d' c w else w) occ.
Proof.
  intros HD [W1 W2 W3 W4 W5] Hc Hl d'. assert (HA := fun k => remove_alive c d k Hc). assert (HO := remove_old c d). fold d' in HA, HO.
  assert (HW' : WS (arena d') w) by (apply (WS_ext (arena d)); auto; intros k; apply HO).
  rewrite HO. constructor.
  - destruct (2 <? _); rewrite ?detach_len; auto.
  - destruct (2 <? _); auto. apply detach_WS. auto.
  - intros k q Hk. rewrite HO. destruct (Nat.ltb_spec 2 (length (clits d c))) as [H2|H2].
    + assert (Hk' := detach_in _ _ _ _ _ Hk). destruct (W3 k q Hk') as (A & B). split; auto. apply HA. split; auto. intros ->. apply (detach_gone d' c w q HW'). auto.
    + destruct (W3 k q Hk) as (A & B). split; auto. apply HA. split; auto. intros ->. lia.
  - exact W4.
  - intros k l Hk Hkl. rewrite HO in Hkl. apply HA in Hk. apply W5; tauto.
Qed.

(** ** Reorganising *)
Lemma reorg_bw d cs : forall b, (forall c, In c cs -> c < length (arena d)) ->
  let b' := fold_left (fun b c => watch_binary c (clits d c) b) cs b in
  length b' = length b /\ forall p c o, In (c, o) (wl b' p) -> In (c, o) (wl b p) \/
    (In c cs /\ exists x y, clits d c = [x; y] /\ (p = lneg x /\ o = y \/ p = lneg y /\ o = x)).
Proof.
  induction cs as [|c cs IH]; intros b HR; cbn [fold_left]; [auto|]. destruct (IH (watch_binary c (clits d c) b)) as (A & B); [intros; apply HR; cbn; auto|].
  rewrite watch_binary_len in A. split; auto. intros p k o Hi. destruct (B p k o Hi) as [H|(H1 & H2)]; [|right; split; cbn; auto].
  apply watch_binary_in in H. destruct H as [H|(-> & H)]; auto. right. split; cbn; auto.
Qed.
Lemma reorg_fields d : arena (reorganize d) = arena d /\ nv (reorganize d) = nv d /\ empt (reorganize d) = empt d /\ facts (reorganize d) = facts d /\
  mem (reorganize d) = filter (fun c => negb (isDeleted d c)) (mem d) /\
  cls (reorganize d) = filter (fun c => negb (isDeleted d c)) (mem d) ++ filter (fun c => negb (isDeleted d c)) (facts d).
Proof. repeat split; reflexivity. Qed.
Lemma reorg_same d c : clits (reorganize d) c = clits d c /\ isDeleted (reorganize d) c = isDeleted d c.
Proof. split; reflexivity. Qed.
Lemma reorg_alive d c : DBi d -> alive (reorganize d) c <-> alive d c.
Proof.
  intros HD. unfold alive. rewrite (proj2 (reorg_same d c)). destruct (reorg_fields d) as (_ & _ & _ & _ & _ & ->). rewrite <- filter_app, filter_In, negb_true_iff. split; intros (A & B).
  - split; auto. apply (b_mf _ HD); tauto.
  - split; auto. split; auto. apply (b_mf _ HD); auto.
Qed.
Lemma reorg_DBi d : DBi d -> DBi (reorganize d) /\ forall c, In c (cls (reorganize d)) -> isDeleted (reorganize d) c = false.
Proof.
  intros HD. assert (HA := fun c => reorg_alive d c HD). destruct (reorg_fields d) as (E1 & E2 & E3 & E4 & E5 & E6).
  assert (HC : forall c, In c (cls (reorganize d)) -> isDeleted (reorganize d) c = false).
  { intros c. rewrite E6, <- filter_app, filter_In, negb_true_iff. tauto. }
  split; auto. assert (HD0 := HD). destruct HD0 as [H1 H2 H3 H4 H5 H6 H7].
  assert (HM : forall c, In c (mem (reorganize d) ++ facts (reorganize d)) -> In c (mem d ++ facts d)).
  { intros c. rewrite E5, E4. intros Hc. apply in_app_or in Hc. apply in_or_app. destruct Hc as [Hc|Hc]; auto. apply filter_In in Hc. tauto. }
  assert (HN : NoDup (mem (reorganize d) ++ facts (reorganize d))).
  { rewrite E5, E4. clear - H5. induction (mem d) as [|x m IH]; cbn [filter app] in *; auto. inversion H5; subst. destruct (negb _); auto. cbn [app]. constructor; auto.
    intros Hx. apply H1. apply in_app_or in Hx. apply in_or_app. destruct Hx as [Hx|Hx]; auto. apply filter_In in Hx. tauto. }
  assert (HID : forall c, In c (cls (reorganize d)) -> c < length (arena d)).
  { intros c. rewrite E6, <- filter_app, filter_In. intros (A & _). apply H4. auto. }
  assert (EB : bw (reorganize d) = fold_left (fun b c => watch_binary c (clits d c) b) (cls (reorganize d)) (repeat [] (2 * nv d + 2))) by reflexivity.
  destruct (reorg_bw d (cls (reorganize d)) (repeat [] (2 * nv d + 2)) HID) as (B1 & B2). rewrite <- EB in B1, B2. rewrite repeat_length in B1.
  constructor; auto.
  - intros p c o Hi. destruct (B2 p c o Hi) as [H|(H & x & y & E & Ho)]; [rewrite wl_repeat in H; destruct H|]. split; [split; auto|].
    rewrite (proj1 (reorg_same d c)), E. split; auto. destruct Ho as [(-> & ->)|(-> & ->)]; rewrite lneg_invol; cbn; intuition.
  - rewrite E2, B1. intros l Hl. assert (X := lit_lt_double l _ Hl). lia.
  - intros c [Hc|Hc]; [apply HID; auto|apply H4; right; auto].
  - rewrite E6, <- filter_app. apply NoDup_filter. auto.
  - intros c Hc. rewrite E6, <- filter_app, filter_In, E5, E4. rewrite (proj2 (reorg_same d c)) in Hc. split; intros H.
    + destruct H as (H & _). apply in_or_app. apply in_app_or in H. destruct H as [H|H]; auto. left. apply filter_In. rewrite Hc. auto.
    + rewrite Hc. split; auto.
Qed.

(** ** New clauses in the watch lists and occurence lists *)
Lemma WS_newc d ls c d' w occ : DBi d -> WOi d w occ -> newc d ls c d' -> WS (arena d') w.
Proof.
  intros HD HW HN p k. assert (HWS := w_ws _ _ _ HW p k). destruct (Nat.lt_ge_cases k (length (arena d))) as [Hk|Hk].
  - unfold pos2 in *. change (alits (arena d') k) with (clits d' k). rewrite (proj1 (newc_old _ _ _ _ HN k Hk)). auto.
  - destruct (in_dec Nat.eq_dec k (map fst (wl w p))) as [Hi|Hi].
    + destruct (w_al _ _ _ HW k p Hi) as ((A & _) & _). assert (X := b_ids _ HD k (or_introl A)). lia.
    + rewrite <- cnt_in in Hi. lia.
Qed.
Lemma newc_WOi d ls c d' w occ : DBi d -> (forall l, In l ls -> lvar l < nv d) -> WOi d w occ -> newc d ls c d' ->
  WOi d' (if 2 <? length (clits d' c) then attachClause d' c w else w) (occ_add d' occ c).
Proof.
  intros HD HL HW HN. assert (HA := newc_alive d ls c d' HD HN). assert (HO := newc_old d ls c d' HN). assert (HE := newc_new d ls c d' HN).
  assert (Hc := n_c _ _ _ _ HN). assert (HWS := WS_newc _ _ _ _ _ _ HD HW HN).
  assert (Hold : forall k, alive d k -> clits d' k = clits d k) by (intros k (A & _); apply HO; apply (b_ids _ HD); auto).
  assert (Hfresh : forall q, ~ In c (map fst (wl w q))).
  { intros q Hi. destruct (w_al _ _ _ HW c q Hi) as ((A & _) & _). assert (X := b_ids _ HD c (or_introl A)). lia. }
  assert (HW0 := HW). destruct HW0 as [W1 W2 W3 W4 W5]. constructor.
  - rewrite (n_nv _ _ _ _ HN). destruct (2 <? _); rewrite ?attach_len; auto.
  - destruct (2 <? _); auto. apply attach_WS; auto.
  - intros k q Hk.
    assert (HX : (k = c /\ 2 < length (clits d' c)) \/ In k (map fst (wl w q))).
    { destruct (Nat.ltb_spec 2 (length (clits d' c))); auto. apply attach_in in Hk. destruct Hk as [->|Hk]; auto. }
    destruct HX as [(-> & H2)|Hi].
    + split; auto. apply HA. auto.
    + destruct (W3 k q Hi) as (A & B). split; [apply HA; auto|]. rewrite Hold; auto.
  - rewrite occ_add_len, (n_nv _ _ _ _ HN). auto.
  - intros k l Hk Hl. apply HA in Hk. destruct Hk as [->|Hk].
    + apply occ_add_new; auto. rewrite W4. apply lit_lt_double. apply HL. destruct HE as (E & _). rewrite <- E. auto.
    + apply occ_add_old. apply W5; auto. rewrite <- Hold; auto.
Qed.
(** ** Loading the problem *)
Lemma DBi_grow n : DBi (db_grow n db_new) /\ nv (db_grow n db_new) = n /\ empt (db_grow n db_new) = false /\ forall c, ~ alive (db_grow n db_new) c.
Proof.
  unfold db_grow. cbn [nv db_new]. destruct (Nat.ltb_spec 0 n) as [Hn|Hn].
  - split; [|split; [auto|split; [auto|]]].
    + assert (ER : resize (2 * n + 2) [] ([] : list (list (cid * lit))) = repeat [] (2 * n + 2)) by (unfold resize; rewrite firstn_nil; cbn [app length]; rewrite Nat.sub_0_r; reflexivity).
      constructor; cbn [nv arena bw cls mem facts db_new].
      * intros c l H. exfalso. revert H. destruct c; intros [].
      * intros p c o H. rewrite ER, wl_repeat in H. destruct H.
      * intros l Hl. rewrite ER, repeat_length. assert (X := lit_lt_double l n Hl). lia.
      * intros c [[]|[]].
      * constructor.
      * constructor.
      * intros c _. tauto.
    + intros c ([] & _).
  - assert (n = 0) by lia. subst. split; [|split; [auto|split; [auto|]]].
    + constructor; cbn.
      * intros c l H. exfalso. revert H. destruct c; intros [].
      * intros p c o H. unfold wl in H. destruct p; destruct H.
      * intros l Hl. lia.
      * intros c [[]|[]].
      * constructor.
      * constructor.
      * intros c _. tauto.
    + intros c ([] & _).
Qed.
Lemma create_all_DBi cs : forall d d', DBi d -> (forall c l, In c cs -> In l c -> lvar l < nv d) -> create_all cs true d = Ok d' ->
  (forall k, In k (cls d) -> isDeleted d k = false) ->
  DBi d' /\ nv d' = nv d /\ (forall k, In k (cls d') -> isDeleted d' k = false) /\
  (forall k, alive d' k -> (alive d k /\ clits d' k = clits d k) \/ In (clits d' k) cs) /\ (empt d' = true -> empt d = true \/ In [] cs).
Proof.
  induction cs as [|c cs IH]; intros d d' HD HV HC HA; cbn [create_all] in HC.
  - injection HC as <-. tauto.
  - apply bind_ok in HC. destruct HC as ((k, d1) & H1 & H2). assert (HN := create_newc _ _ _ _ _ H1).
    assert (HD1 : DBi d1) by (apply (newc_DBi d c k d1); auto; intros l Hl; apply (HV c l); cbn; auto).
    destruct (IH d1 d' HD1) as (A & B & C & D & E); auto.
    + intros c' l Hc Hl. rewrite (n_nv _ _ _ _ HN). apply (HV c' l); cbn; auto.
    + intros k' Hk. rewrite (n_cls _ _ _ _ HN) in Hk. apply in_app_or in Hk. destruct Hk as [Hk|[<-|[]]].
      * rewrite (proj2 (newc_old _ _ _ _ HN k' (b_ids _ HD k' (or_introl Hk)))). auto.
      * apply (newc_new _ _ _ _ HN).
    + split; auto. split; [rewrite B; apply (n_nv _ _ _ _ HN)|]. split; auto. split.
      * intros k' Hk. destruct (D k' Hk) as [(Hk1 & E1)|Hk1]; [|cbn; auto]. apply (newc_alive _ _ _ _ HD HN) in Hk1. destruct Hk1 as [->|Hk1].
        -- right. rewrite E1, (proj1 (newc_new _ _ _ _ HN)). cbn. auto.
        -- left. split; auto. rewrite E1. apply (newc_old _ _ _ _ HN). apply (b_ids _ HD). left. apply Hk1.
      * intros He. destruct (E He) as [He1|He1]; [|cbn; auto]. rewrite (n_e _ _ _ _ HN) in He1. destruct c as [|x r]; cbn in He1; [cbn; auto|auto].
Qed.
Lemma init_DBi n cs d : (forall c l, In c cs -> In l c -> lvar l < n) -> db_init n cs true db_new = Ok d ->
  DBi d /\ nv d = n /\ (forall k, In k (cls d) -> isDeleted d k = false) /\ (forall k, alive d k -> In (clits d k) cs) /\ (empt d = true -> In [] cs).
Proof.
  intros HV H. destruct (DBi_grow n) as (A & B & C & D). destruct (create_all_DBi cs (db_grow n db_new) d A) as (A' & B' & C' & D' & E'); auto.
  - intros. rewrite B. eauto.
  - intros k Hk. destruct (isDeleted (db_grow n db_new) k) eqn:E; auto. exfalso. revert Hk. unfold db_grow. destruct (nv db_new <? n); intros [].
  - split; auto. split; [congruence|]. split; auto. split.
    + intros k Hk. destruct (D' k Hk) as [(Hk' & _)|]; auto. exfalso. apply (D k Hk').
    + intros He. destruct (E' He) as [He'|]; auto. congruence.
Qed.
