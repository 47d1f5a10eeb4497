(** Proofs about the paged storage. *)
Require Import List Arith Bool NArith Lia Sorted Permutation.
Require Import Verif.Outcome Verif.MemoryModel Verif.MemorySpec.
Import ListNotations.

Section P.
Variables (T : Type) (sz : N).
Notation page := (page T).
Notation memory := (memory T).

Definition all (ps : list page) : list T := flat_map cells ps.
(** number of elements before the position of an iterator *)
Definition offset (ps : list page) (i : iter) : nat :=
  length (all (firstn (it_page i) ps)) + match it_pos i with Some k => k | None => 0 end.
(** well formed iterator *)
Definition good (ps : list page) (i : iter) : Prop :=
  (it_page i = length ps /\ it_pos i = None /\ it_end i = None) \/
  (exists p k, nth_error ps (it_page i) = Some p /\ it_pos i = Some k /\ it_end i = Some (length (cells p)) /\ k <= length (cells p)).
(** it stands on an element, or at the end *)
Definition settled (ps : list page) (i : iter) : Prop :=
  (it_page i = length ps /\ it_pos i = None /\ it_end i = None) \/
  (exists p k, nth_error ps (it_page i) = Some p /\ it_pos i = Some k /\ it_end i = Some (length (cells p)) /\ k < length (cells p)).

Lemma all_app : forall a b, all (a ++ b) = all a ++ all b.
Proof. intros; unfold all; apply flat_map_app. Qed.

Lemma firstn_S_nth : forall (ps : list page) n p, nth_error ps n = Some p -> firstn (S n) ps = firstn n ps ++ [p].
Proof.
  induction ps as [|q ps IH]; intros [|n] p H; simpl in *; try discriminate.
  - injection H as <-; reflexivity.
  - f_equal; apply IH; exact H.
Qed.

Lemma settled_good : forall ps i, settled ps i -> good ps i.
Proof. intros ps i [H|(p & k & H1 & H2 & H3 & H4)]; [left; exact H|right; exists p, k; repeat split; auto; lia]. Qed.

Lemma skip_spec : forall ps f i, good ps i -> length ps - it_page i <= f ->
  exists j, skip_loop T f ps i = Ok j /\ settled ps j /\ offset ps j = offset ps i.
Proof.
  intros ps f; induction f as [|f IH]; intros i G L.
  - destruct G as [(A & B & C)|(p & k & A & B & C & D)].
    + exists i; simpl; rewrite A, Nat.eqb_refl, andb_false_r; repeat split; auto; left; auto.
    + exfalso; assert (it_page i < length ps) by (apply nth_error_Some; congruence); lia.
  - destruct G as [(A & B & C)|(p & k & A & B & C & D)].
    + exists i; simpl; rewrite A, Nat.eqb_refl, andb_false_r; repeat split; auto; left; auto.
    + assert (L1 : it_page i < length ps) by (apply nth_error_Some; congruence).
      cbn [skip_loop]; rewrite B, C; cbn [pos_eq]; destruct (Nat.eqb_spec k (length (cells p))) as [E|E].
      * destruct (Nat.eqb_spec (it_page i) (length ps)) as [E1|E1]; [lia|]; cbn [negb andb].
        pose proof (firstn_S_nth _ _ _ A) as F.
        destruct (Nat.eqb_spec (S (it_page i)) (length ps)) as [E2|E2].
        -- destruct (IH (mkIt (S (it_page i)) None None)) as (j & J1 & J2 & J3);
             [left; cbn; auto|cbn; lia|].
           exists j; split; [exact J1|split; [exact J2|]]; rewrite J3; unfold offset; rewrite B.
           cbn [it_page it_pos]; rewrite F, all_app, app_length; simpl; rewrite app_nil_r; lia.
        -- destruct (nth_error ps (S (it_page i))) as [q|] eqn:Q;
             [|apply nth_error_None in Q; lia].
           destruct (IH (mkIt (S (it_page i)) (Some 0) (Some (page_len T ps (S (it_page i)))))) as (j & J1 & J2 & J3).
           ++ right; exists q, 0; cbn [it_page it_pos it_end]; unfold page_len; rewrite Q; repeat split; auto; lia.
           ++ cbn [it_page]; lia.
           ++ exists j; split; [exact J1|split; [exact J2|]]; rewrite J3; unfold offset; rewrite B.
              cbn [it_page it_pos]; rewrite F, all_app, app_length; simpl; rewrite app_nil_r; lia.
      * exists i; split; [reflexivity|split; [|reflexivity]]; right; exists p, k; repeat split; auto; lia.
Qed.

Lemma skip_ok : forall ps i, good ps i ->
  exists j, skip_empty_pages T ps i = Ok j /\ settled ps j /\ offset ps j = offset ps i.
Proof. intros; apply skip_spec; [assumption|lia]. Qed.

Lemma skip_settled : forall ps i, settled ps i -> skip_empty_pages T ps i = Ok i.
Proof.
  intros ps i S; unfold skip_empty_pages; destruct (length ps) as [|n] eqn:N; simpl.
  - destruct S as [(A & B & C)|(p & k & A & B & C & D)].
    + rewrite A, N; rewrite andb_false_r; reflexivity.
    + destruct ps; [destruct (it_page i); discriminate|discriminate].
  - destruct S as [(A & B & C)|(p & k & A & B & C & D)].
    + rewrite A, N, Nat.eqb_refl, andb_false_r; reflexivity.
    + rewrite B, C; simpl; destruct (Nat.eqb_spec k (length (cells p))); [lia|reflexivity].
Qed.

Lemma settled_deref : forall ps i, settled ps i -> deref ps i = nth_error (all ps) (offset ps i).
Proof.
  intros ps i [(A & B & C)|(p & k & A & B & C & D)]; unfold deref, offset; rewrite B.
  - rewrite A, firstn_all, Nat.add_0_r; symmetry; apply nth_error_None; lia.
  - rewrite A; destruct (nth_error_split _ _ A) as (l1 & l2 & E & L); rewrite E at 2.
    rewrite <- L, E, firstn_app, Nat.sub_diag, firstn_all; simpl; rewrite app_nil_r, all_app.
    rewrite nth_error_app2; [|lia].
    replace (length (all l1) + k - length (all l1)) with k by lia; simpl; rewrite nth_error_app1; auto.
Qed.

Lemma settled_lt : forall ps i, settled ps i ->
  (it_pos i = None /\ it_page i = length ps /\ offset ps i = length (all ps)) \/ (it_pos i <> None /\ offset ps i < length (all ps)).
Proof.
  intros ps i [(A & B & C)|(p & k & A & B & C & D)].
  - left; repeat split; auto; unfold offset; rewrite A, B, firstn_all; lia.
  - right; split; [congruence|]; assert (X : nth_error (all ps) (offset ps i) <> None).
    + rewrite <- settled_deref; [|right; exists p, k; auto]; unfold deref; rewrite B, A; apply nth_error_Some; exact D.
    + apply nth_error_Some; exact X.
Qed.

Lemma next_ok : forall ps i, settled ps i ->
  exists j, it_next ps i = Ok j /\ settled ps j /\ offset ps j = Nat.min (S (offset ps i)) (length (all ps)).
Proof.
  intros ps i S; pose proof (settled_lt _ _ S) as L; unfold it_next; rewrite (skip_settled _ _ S); cbn [bind].
  destruct S as [(A & B & C)|(p & k & A & B & C & D)].
  - rewrite B; exists i; split; [reflexivity|split; [left; auto|]].
    destruct L as [(_ & _ & L)|(L & _)]; [lia|congruence].
  - rewrite B; destruct (skip_ok ps (mkIt (it_page i) (Some (S k)) (it_end i))) as (j & J1 & J2 & J3).
    + right; exists p, (S k); cbn; repeat split; auto.
    + exists j; split; [exact J1|split; [exact J2|]]; rewrite J3; destruct L as [(L & _)|(_ & L)]; [congruence|].
      rewrite Nat.min_l; [|lia]; unfold offset; cbn [it_page it_pos]; rewrite B; lia.
Qed.

Lemma last_ok : forall ps : list page, it_last ps = Ok (mkIt (length ps) None None).
Proof. intros; apply skip_settled; left; cbn; auto. Qed.

Lemma begin_ok : forall ps : list page, exists i, it_begin ps = Ok i /\ settled ps i /\ offset ps i = 0.
Proof.
  intros [|p ps]; unfold it_begin.
  - rewrite last_ok; eexists; split; [reflexivity|split; [left; cbn; auto|reflexivity]].
  - destruct (skip_ok (p :: ps) (mkIt 0 (Some 0) (Some (length (cells p))))) as (j & J1 & J2 & J3).
    + right; exists p, 0; cbn; repeat split; auto; lia.
    + exists j; rewrite J3; auto.
Qed.

Lemma plus_ok : forall ps n i, settled ps i ->
  exists j, it_plus n ps i = Ok j /\ settled ps j /\ offset ps j = Nat.min (offset ps i + n) (length (all ps)).
Proof.
  intros ps n i S; pose proof (settled_lt _ _ S) as L; induction n as [|n IH].
  - exists i; split; [apply skip_settled; exact S|split; [exact S|lia]].
  - destruct IH as (j & J1 & J2 & J3); destruct (next_ok _ _ J2) as (k & K1 & K2 & K3).
    exists k; simpl; rewrite J1; cbn [bind]; split; [exact K1|split; [exact K2|lia]].
Qed.

Lemma eq_end : forall ps i, settled ps i -> it_eq i (mkIt (length ps) None None) = (offset ps i =? length (all ps)).
Proof.
  intros ps i S; destruct (settled_lt _ _ S) as [(A & B & C)|(A & B)]; unfold it_eq; cbn [it_page it_pos].
  - rewrite A, B, C, !Nat.eqb_refl; reflexivity.
  - destruct (it_pos i); [|congruence]; simpl; rewrite andb_false_r; symmetry; apply Nat.eqb_neq; lia.
Qed.

Lemma skipn_cons_nth : forall (l : list T) n, n < length l ->
  exists x, nth_error l n = Some x /\ skipn n l = x :: skipn (S n) l.
Proof.
  induction l as [|y l IH]; intros n H; simpl in H; [lia|]; destruct n as [|n].
  - exists y; split; reflexivity.
  - destruct (IH n) as (x & A & B); [lia|]; exists x; split; [exact A|]; simpl in *; exact B.
Qed.

Lemma for_ok : forall ps f i, settled ps i -> length (all ps) - offset ps i <= f ->
  for_loop T f ps i (mkIt (length ps) None None) = Ok (map Some (skipn (offset ps i) (all ps))).
Proof.
  intros ps f; induction f as [|f IH]; intros i S L; pose proof (settled_lt _ _ S) as LT; simpl; rewrite (eq_end _ _ S);
    destruct (Nat.eqb_spec (offset ps i) (length (all ps))) as [E|E].
  - rewrite E, skipn_all; reflexivity.
  - lia.
  - rewrite E, skipn_all; reflexivity.
  - destruct (next_ok _ _ S) as (j & J1 & J2 & J3); rewrite J1; cbn [bind].
    rewrite Nat.min_l in J3; [|lia]; rewrite IH; [|exact J2|lia]; cbn [bind].
    rewrite (settled_deref _ _ S), J3; destruct (skipn_cons_nth (all ps) (offset ps i)) as (x & A & B); [lia|].
    rewrite A, B; reflexivity.
Qed.

Lemma for_each_all : forall m, for_each m = Ok (map Some (all (pages m))).
Proof.
  intros m; unfold for_each; destruct (begin_ok (pages m)) as (i & A & B & C); rewrite A, last_ok; cbn [bind].
  rewrite for_ok; [rewrite C; reflexivity|exact B|fold (all (pages m)); lia].
Qed.

(** ** invariant *)
Definition fits (p : page) : Prop := (cursor T sz p <= psize p)%N.
Record mwf (m : memory) : Prop := {
  w_fits : Forall fits (pages m);
  w_ids : NoDup (map pid (pages m));
  w_fresh : Forall (fun p => pid p < fresh m) (pages m) }.

Lemma snoc_inv : forall {A} (l : list A), l = [] \/ exists r x, l = r ++ [x].
Proof. intros A l; destruct l using rev_ind; [left; reflexivity|right; eauto]. Qed.

Lemma nodup_snoc : forall {A} (l : list A) x, NoDup l -> ~ In x l -> NoDup (l ++ [x]).
Proof.
  intros A l x H N; apply NoDup_Add with (a := x) (l := l).
  - replace (l ++ [x]) with (l ++ x :: []) by reflexivity; rewrite <- (app_nil_r l) at 1; apply Add_app.
  - split; assumption.
Qed.

Lemma push_back_ok : forall x r (p : page), (cursor T sz p + sz <= psize p)%N ->
  push_back T sz x (r ++ [p]) = Ok (r ++ [mkPage (pid p) (psize p) (cells p ++ [x])], (pid p, length (cells p))).
Proof.
  intros x r p H; unfold push_back, page_push; rewrite rev_app_distr; simpl.
  apply N.leb_le in H; rewrite H; cbn [bind]; rewrite rev_involutive; reflexivity.
Qed.

Lemma cursor_snoc : forall i s (l : list T) x, cursor T sz (mkPage i s (l ++ [x])) = (cursor T sz (mkPage i s l) + sz)%N.
Proof. intros; unfold cursor; cbn; rewrite app_length, Nat.add_1_r, Nat2N.inj_succ; lia. Qed.

(** the page on which the next element is put *)
Lemma allocate_ok : forall x m, mwf m -> (sz <= dflt m)%N ->
  exists r p, (exists ps, pages m = r ++ ps /\ (ps = [p] /\ (cursor T sz p + sz < psize p)%N \/ ps = [] /\ p = mkPage (fresh m) (dflt m) [])) /\
    let m' := mkMem (dflt m) (r ++ [mkPage (pid p) (psize p) (cells p ++ [x])]) (match skipn (length r) (pages m) with [] => S (fresh m) | _ => fresh m end) in
    allocate sz x m = Ok (m', (pid p, length (cells p))) /\ mwf m'.
Proof.
  intros x m W H; destruct W as [W1 W2 W3].
  assert (K : (rev (pages m) = [] \/ exists q s, rev (pages m) = q :: s /\ hasMemory T sz q = false) ->
    exists r p, (exists ps, pages m = r ++ ps /\ (ps = [p] /\ (cursor T sz p + sz < psize p)%N \/ ps = [] /\ p = mkPage (fresh m) (dflt m) [])) /\
    let m' := mkMem (dflt m) (r ++ [mkPage (pid p) (psize p) (cells p ++ [x])]) (match skipn (length r) (pages m) with [] => S (fresh m) | _ => fresh m end) in
    allocate sz x m = Ok (m', (pid p, length (cells p))) /\ mwf m').
  { intros K; exists (pages m), (mkPage (fresh m) (dflt m) []); split; [exists []; rewrite app_nil_r; auto|].
    rewrite skipn_all; cbv zeta; cbn [pid psize cells length].
    assert (C : (cursor T sz (mkPage (fresh m) (dflt m) []) + sz <= dflt m)%N) by (unfold cursor; cbn; lia).
    split.
    - unfold allocate; assert (E : match rev (pages m) with [] => add_page T (dflt m) m | p :: _ => if hasMemory T sz p then m else add_page T (dflt m) m end = add_page T (dflt m) m).
      { destruct K as [K|(q & s & K & K')]; rewrite K; [reflexivity|rewrite K'; reflexivity]. }
      rewrite E; unfold add_page; cbn [pages dflt fresh]; rewrite push_back_ok by exact C; reflexivity.
    - constructor; cbn [pages fresh].
      + apply Forall_app; split; [exact W1|constructor; [|constructor]]; unfold fits; rewrite (cursor_snoc (fresh m) (dflt m) [] x); exact C.
      + rewrite map_app; apply nodup_snoc; [exact W2|]; cbn [pid]; intros I; apply in_map_iff in I; destruct I as (q & A & B).
        rewrite Forall_forall in W3; specialize (W3 _ B); lia.
      + apply Forall_app; split; [|constructor; [cbn; lia|constructor]]; eapply Forall_impl; [|exact W3]; cbn; intros; lia. }
  destruct (snoc_inv (pages m)) as [E|(r & p & E)].
  - apply K; left; rewrite E; reflexivity.
  - destruct (hasMemory T sz p) eqn:M.
    + exists r, p; assert (M' : (cursor T sz p + sz < psize p)%N) by (apply N.ltb_lt; exact M).
      split; [exists [p]; auto|].
      replace (skipn (length r) (pages m)) with [p] by (rewrite E, skipn_app, skipn_all, Nat.sub_diag; reflexivity).
      cbv zeta; split.
      * assert (R : rev (pages m) = p :: rev r) by (rewrite E, rev_app_distr; reflexivity).
        unfold allocate; rewrite R, M, E, push_back_ok by lia; reflexivity.
      * rewrite E in W1, W2, W3; apply Forall_app in W1; apply Forall_app in W3; destruct W1 as [W1 W1'], W3 as [W3 W3'].
        constructor; cbn [pages fresh].
        -- apply Forall_app; split; [exact W1|constructor; [|constructor]]; unfold fits; rewrite cursor_snoc; cbn [psize].
           unfold cursor in *; cbn [cells]; lia.
        -- rewrite map_app in *; exact W2.
        -- apply Forall_app; split; [exact W3|]; inversion W3'; subst; constructor; [assumption|constructor].
    + apply K; right; exists p, (rev r); split; [rewrite E, rev_app_distr; reflexivity|exact M].
Qed.

Lemma allocate_all : forall x m, mwf m -> (sz <= dflt m)%N ->
  exists m' a, allocate sz x m = Ok (m', a) /\ mwf m' /\ dflt m' = dflt m /\ all (pages m') = all (pages m) ++ [x].
Proof.
  intros x m W H; destruct (allocate_ok x m W H) as (r & p & (ps & E & C) & A & B).
  eexists; eexists; split; [exact A|]; split; [exact B|]; split; [reflexivity|]; cbn [pages]; rewrite E, !all_app.
  destruct C as [[-> _]|[-> ->]]; simpl; rewrite ?app_nil_r, ?app_assoc; reflexivity.
Qed.

Lemma find_in : forall (ps : list page) p, NoDup (map pid ps) -> In p ps -> find (fun q => pid q =? pid p) ps = Some p.
Proof.
  induction ps as [|q ps IH]; intros p N I; simpl in *; [contradiction|]; inversion N as [|? ? N1 N2]; subst.
  destruct (Nat.eqb_spec (pid q) (pid p)) as [E|E].
  - destruct I as [I|I]; [congruence|]; exfalso; apply N1; rewrite E; apply in_map; exact I.
  - apply IH; [exact N2|]; destruct I; [congruence|assumption].
Qed.

(** where an address points to *)
Lemma load_iff : forall m a x, mwf m -> load m a = Some x <-> exists p, In p (pages m) /\ pid p = fst a /\ nth_error (cells p) (snd a) = Some x.
Proof.
  intros m a x W; unfold load; split.
  - destruct (find _ _) as [p|] eqn:F; [|discriminate]; intros H; apply find_some in F; destruct F as [F1 F2].
    apply Nat.eqb_eq in F2; eauto.
  - intros (p & A & B & C); rewrite <- B, (find_in _ _ (w_ids _ W) A); exact C.
Qed.

Lemma allocate_load : forall x m m' a, mwf m -> (sz <= dflt m)%N -> allocate sz x m = Ok (m', a) ->
  load m a = None /\ load m' a = Some x /\ (forall b y, load m b = Some y -> load m' b = Some y) /\
  (exists p, In p (pages m') /\ pid p = fst a /\ (sz * N.of_nat (S (snd a)) <= psize p)%N).
Proof.
  intros x m m' a W H E; destruct (allocate_ok x m W H) as (r & p & (ps & E1 & C) & A & B); cbv zeta in *.
  rewrite A in E; injection E as <- <-.
  assert (L : load m (pid p, length (cells p)) = None).
  { destruct (load m (pid p, length (cells p))) as [y|] eqn:Y; [|reflexivity]; exfalso.
    apply (load_iff _ _ _ W) in Y; cbn [fst snd] in Y; destruct Y as (q & Y1 & Y2 & Y3).
    assert (Q : nth_error (cells q) (length (cells p)) <> None) by congruence; apply nth_error_Some in Q.
    destruct C as [[-> _]|[-> ->]].
    - assert (I : In p (pages m)) by (rewrite E1; apply in_or_app; right; left; reflexivity).
      pose proof (find_in _ _ (w_ids _ W) I) as F1; pose proof (find_in _ _ (w_ids _ W) Y1) as F2; rewrite Y2, F1 in F2.
      injection F2 as <-; lia.
    - cbn [pid] in Y2; pose proof (w_fresh _ W) as F; rewrite Forall_forall in F; specialize (F _ Y1); lia. }
  split; [exact L|split; [|split]].
  - apply (load_iff _ _ _ B); eexists; split; [cbn [pages]; apply in_or_app; right; left; reflexivity|].
    cbn [pid cells fst snd]; split; [reflexivity|]; rewrite nth_error_app2, Nat.sub_diag; [reflexivity|lia].
  - intros b y Y; apply (load_iff _ _ _ W) in Y; destruct Y as (q & Y1 & Y2 & Y3); apply (load_iff _ _ _ B); cbn [pages].
    rewrite E1 in Y1; apply in_app_or in Y1; destruct Y1 as [Y1|Y1].
    + exists q; split; [apply in_or_app; left; exact Y1|auto].
    + destruct C as [[-> _]|[-> ->]]; [|contradiction]; destruct Y1 as [<-|[]].
      eexists; split; [apply in_or_app; right; left; reflexivity|]; cbn [pid cells]; split; [exact Y2|].
      rewrite nth_error_app1; [exact Y3|]; apply nth_error_Some; congruence.
  - eexists; split; [cbn [pages]; apply in_or_app; right; left; reflexivity|]; cbn [pid psize fst snd]; split; [reflexivity|].
    pose proof (w_fits _ B) as F; cbn [pages] in F; apply Forall_app in F; destruct F as [_ F]; inversion F as [|? ? F1 _]; subst.
    unfold fits, cursor in F1; cbn [cells psize] in F1; rewrite app_length, Nat.add_1_r in F1; exact F1.
Qed.

Lemma used_acc : forall (ps : list page) n, fold_left (fun n p => n + cursor T sz p)%N ps n = (n + sz * N.of_nat (length (all ps)))%N.
Proof.
  induction ps as [|p ps IH]; intros n; simpl; [lia|]; rewrite IH, app_length, Nat2N.inj_add; unfold cursor, all; lia.
Qed.
Lemma used_all : forall m, used sz m = (sz * N.of_nat (length (all (pages m))))%N.
Proof. intros; unfold used; rewrite used_acc; lia. Qed.

Lemma copy_ok : forall l p, (cursor T sz p + sz * N.of_nat (length l) <= psize p)%N ->
  copy_elements T sz (map Some l) p = Ok (mkPage (pid p) (psize p) (cells p ++ l)).
Proof.
  induction l as [|x l IH]; intros p H; simpl.
  - rewrite app_nil_r; destruct p; reflexivity.
  - simpl length in H; rewrite Nat2N.inj_succ in H; unfold page_push.
    assert (E : (cursor T sz p + sz <=? psize p)%N = true) by (apply N.leb_le; lia); rewrite E; cbn [bind].
    rewrite IH; cbn [pid psize cells]; [rewrite <- app_assoc; reflexivity|rewrite cursor_snoc; unfold cursor in *; cbn [cells]; lia].
Qed.

Lemma sort_ok : forall srt m, mwf m -> Permutation (all (pages m)) (srt (all (pages m))) ->
  exists m', mem_sort sz srt m = Ok m' /\ mwf m' /\ dflt m' = dflt m /\ all (pages m') = srt (all (pages m)).
Proof.
  intros srt m W P; unfold mem_sort; destruct (pages m) as [|p [|q ps]] eqn:E.
  - exists m; rewrite E; repeat split; try apply W; auto; simpl in *; apply Permutation_nil in P; auto.
  - unfold all in P |- *; simpl in P |- *; rewrite app_nil_r in P.
    eexists; split; [reflexivity|]; split; [|split; [reflexivity|]].
    + destruct W as [W1 W2 W3]; rewrite E in *; inversion W1 as [|? ? F _]; inversion W3 as [|? ? F' _]; subst; constructor; cbn [pages fresh].
      * constructor; [|constructor]; unfold fits, cursor in *; cbn [cells psize]; rewrite <- (Permutation_length P); exact F.
      * exact W2.
      * constructor; [exact F'|constructor].
    + cbn [pages flat_map cells]; rewrite !app_nil_r; reflexivity.
  - rewrite <- E in *; rewrite for_each_all; cbn [bind]; rewrite copy_ok.
    + cbn [bind pid psize cells app]; eexists; split; [reflexivity|]; split; [|split; [reflexivity|]].
      * constructor; cbn [pages fresh].
        -- constructor; [|constructor]; unfold fits, cursor; cbn [cells psize]; rewrite used_all, <- (Permutation_length P); lia.
        -- constructor; [intros []|constructor].
        -- constructor; [cbn; lia|constructor].
      * unfold all at 1; cbn [pages flat_map cells]; rewrite app_nil_r; reflexivity.
    + cbn [psize]; rewrite used_all; unfold cursor; cbn; lia.
Qed.

Lemma run_ok : forall ops m, mwf m -> (sz <= dflt m)%N -> keeps_all ops ->
  exists m', mem_run sz ops m = Ok m' /\ mwf m' /\ dflt m' = dflt m /\ all (pages m') = fold_left content_step ops (all (pages m)).
Proof.
  induction ops as [|o ops IH]; intros m W H K; simpl.
  - exists m; auto.
  - assert (K' : keeps_all ops) by (intros s I; apply K; right; exact I); destruct o as [x|srt|]; simpl.
    + destruct (allocate_all x m W H) as (m1 & a & A1 & A2 & A3 & A4); rewrite A1; cbn [bind].
      destruct (IH m1 A2) as (m' & B1 & B2 & B3 & B4); [rewrite A3; exact H|exact K'|].
      exists m'; rewrite B1, <- A4; repeat split; try apply B2; congruence.
    + destruct (sort_ok srt m W) as (m1 & A1 & A2 & A3 & A4); [apply K; left; reflexivity|]; rewrite A1; cbn [bind].
      destruct (IH m1 A2) as (m' & B1 & B2 & B3 & B4); [rewrite A3; exact H|exact K'|].
      exists m'; rewrite B1, <- A4; repeat split; try apply B2; congruence.
    + assert (W0 : mwf (free_all m)) by (constructor; constructor).
      destruct (IH _ W0 H K') as (m' & B1 & B2 & B3 & B4); exists m'; auto.
Qed.

Lemma new_wf : forall mb, mwf (mem_new T mb).
Proof. intros; constructor; constructor. Qed.

Lemma run_new : forall mb ops, (sz <= dflt (mem_new T mb))%N -> keeps_all ops ->
  exists m, mem_run sz ops (mem_new T mb) = Ok m /\ mwf m /\ dflt m = dflt (mem_new T mb) /\ all (pages m) = content ops.
Proof. intros mb ops H K; exact (run_ok ops _ (new_wf mb) H K). Qed.

Lemma index_all : forall m k, exists b i, it_begin (pages m) = Ok b /\ it_plus k (pages m) b = Ok i /\ deref (pages m) i = nth_error (all (pages m)) k.
Proof.
  intros m k; destruct (begin_ok (pages m)) as (b & A & B & C); destruct (plus_ok (pages m) k b B) as (i & D & E & F).
  exists b, i; split; [exact A|split; [exact D|]]; rewrite (settled_deref _ _ E), F, C; simpl.
  destruct (le_lt_dec k (length (all (pages m)))) as [L|L].
  - rewrite Nat.min_l; auto.
  - rewrite Nat.min_r by lia; transitivity (@None T); [|symmetry]; apply nth_error_None; lia.
Qed.

Lemma pushes_load : forall xs m b y, mwf m -> (sz <= dflt m)%N -> load m b = Some y ->
  exists m', mem_run sz (map MPush xs) m = Ok m' /\ load m' b = Some y.
Proof.
  induction xs as [|x xs IH]; intros m b y W H L; simpl.
  - eauto.
  - destruct (allocate_all x m W H) as (m1 & a & A1 & A2 & A3 & A4); rewrite A1; cbn [bind].
    apply IH; [exact A2|congruence|]; exact (proj1 (proj2 (proj2 (allocate_load x m m1 a W H A1))) b y L).
Qed.
End P.
