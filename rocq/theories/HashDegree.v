(** The degree hash. *)
Require Import List Arith Bool NArith ZArith Lia Sorted Permutation ZifyBool ZifyNat ZifyN.
Require Import Verif.Base Verif.Outcome Verif.DimacsModel Verif.DimacsSpec Verif.DimacsMore Verif.CNFModel Verif.CNFSpec Verif.CNFProofs.
Require Import Verif.HashModel Verif.HashSpec Verif.HashProofs Verif.HashMore.
Import ListNotations.

Definition below (n : nat) (c : clause) : Prop := forall l, In l c -> l < n.

Lemma get_ok : forall {A} (l : list A) i, i < length l -> exists x, nth_error l i = Some x /\ get l i = Ok x.
Proof. intros A l i H; unfold get; destruct (nth_error l i) eqn:E; [eauto|apply nth_error_None in E; lia]. Qed.
Lemma put_ok : forall {A} (l : list A) i x, i < length l -> put l i x = Ok (set_nth i x l) /\ length (set_nth i x l) = length l.
Proof. intros A l i x H; unfold put; destruct (Nat.ltb_spec i (length l)); [split; [reflexivity|apply set_nth_length]|lia]. Qed.

(** sizes of the occurrence lists, and clauses in them *)
Definition size_at (occ : list (list clause)) (l : nat) : nat := match nth_error occ l with Some o => length o | None => 0 end.
Definition members (P : clause -> Prop) (occ : list (list clause)) : Prop := forall l o c, nth_error occ l = Some o -> In c o -> P c.

Lemma occur_lits_ok : forall (P : clause -> Prop) c n ls occ, P c -> length occ = n -> below n ls -> members P occ ->
  exists occ', occur_lits c ls occ = Ok occ' /\ length occ' = n /\ members P occ' /\
    forall l, size_at occ' l = size_at occ l + count_occ Nat.eq_dec ls l.
Proof.
  intros P c n ls; induction ls as [|l ls IH]; intros occ Pc L B M; cbn [occur_lits].
  - exists occ; repeat split; auto; intros; simpl; lia.
  - assert (Hl : l < length occ) by (rewrite L; apply B; left; reflexivity).
    destruct (get_ok occ l Hl) as (o & O1 & O2); rewrite O2; cbn [bind].
    destruct (put_ok occ l (o ++ [c]) Hl) as (Q1 & Q2); rewrite Q1; cbn [bind].
    destruct (IH (set_nth l (o ++ [c]) occ)) as (occ' & A1 & A2 & A3 & A4); [exact Pc|congruence|intros x I; apply B; right; exact I| |].
    + intros k o' d E I; rewrite set_nth_nth in E; destruct ((k =? l) && (l <? length occ)).
      * injection E as <-; apply in_app_or in I; destruct I as [I|[<-|[]]]; [exact (M l o d O1 I)|exact Pc].
      * exact (M k o' d E I).
    + exists occ'; split; [exact A1|split; [exact A2|split; [exact A3|]]]; intros k; rewrite A4; unfold size_at; rewrite set_nth_nth.
      cbn [count_occ]; destruct (Nat.eqb_spec k l) as [->|E].
      * destruct (Nat.ltb_spec l (length occ)); [|lia]; cbn [andb]; rewrite O1, app_length; destruct (Nat.eq_dec l l); [simpl; lia|congruence].
      * cbn [andb]; destruct (Nat.eq_dec l k); [congruence|reflexivity].
Qed.

Lemma occur_clauses_ok : forall (P : clause -> Prop) n cs occ, length occ = n -> (forall c, In c cs -> below n c /\ P c) -> members P occ ->
  exists occ', occur_clauses cs occ = Ok occ' /\ length occ' = n /\ members P occ' /\
    forall l, size_at occ' l = size_at occ l + count_occ Nat.eq_dec (concat cs) l.
Proof.
  intros P n cs; induction cs as [|c cs IH]; intros occ L B M; cbn [occur_clauses].
  - exists occ; repeat split; auto; intros; simpl; lia.
  - destruct (B c (or_introl eq_refl)) as [B1 B2]; destruct (occur_lits_ok P c n c occ B2 L B1 M) as (o1 & A1 & A2 & A3 & A4).
    rewrite A1; cbn [bind]; destruct (IH o1 A2) as (occ' & C1 & C2 & C3 & C4); [intros d I; apply B; right; exact I|exact A3|].
    exists occ'; split; [exact C1|split; [exact C2|split; [exact C3|]]]; intros l; rewrite C4, A4; cbn [concat]; rewrite count_occ_app, Nat.add_assoc; reflexivity.
Qed.

Lemma drop_lits_ok : forall n ls deg, length deg = n -> below n ls -> exists deg', drop_lits ls deg = Ok deg' /\ length deg' = n.
Proof.
  intros n ls; induction ls as [|l ls IH]; intros deg L B; cbn [drop_lits]; [eauto|].
  assert (Hl : l < length deg) by (rewrite L; apply B; left; reflexivity).
  destruct (get_ok deg l Hl) as (d & _ & D); rewrite D; cbn [bind]; destruct (put_ok deg l (dec32 d) Hl) as (Q1 & Q2); rewrite Q1; cbn [bind].
  apply IH; [congruence|intros x I; apply B; right; exact I].
Qed.
Lemma drop_clauses_ok : forall n cs deg, length deg = n -> (forall c, In c cs -> below n c) -> exists deg', drop_clauses cs deg = Ok deg' /\ length deg' = n.
Proof.
  intros n cs; induction cs as [|c cs IH]; intros deg L B; cbn [drop_clauses]; [eauto|].
  destruct (drop_lits_ok n c deg L) as (d & A1 & A2); [apply B; left; reflexivity|]; rewrite A1; cbn [bind].
  apply IH; [exact A2|intros x I; apply B; right; exact I].
Qed.
Lemma drop_facts_ok : forall n occ fs deg, length occ = n -> length deg = n -> members (below n) occ -> (forall l, In l fs -> l < n /\ lneg l < n) ->
  exists deg', drop_facts fs occ deg = Ok deg' /\ length deg' = n.
Proof.
  intros n occ fs; induction fs as [|l fs IH]; intros deg Lo L M B; cbn [drop_facts]; [eauto|].
  destruct (B l (or_introl eq_refl)) as [B1 B2]; assert (Hl : l < length occ) by (rewrite Lo; exact B1); destruct (get_ok occ l Hl) as (o & O1 & O2); rewrite O2; cbn [bind].
  destruct (drop_clauses_ok n o deg L) as (d & A1 & A2); [intros c I; exact (M l o c O1 I)|]; rewrite A1; cbn [bind].
  destruct (put_ok d (lneg l) 0%N) as (Q1 & Q2); [congruence|]; rewrite Q1; cbn [bind]; apply IH; [exact Lo|congruence|exact M|].
  intros x I; apply B; right; exact I.
Qed.

Lemma lneg_below : forall v l, l < 2 * v -> lneg l < 2 * v.
Proof.
  intros v l H; rewrite (lit_eta l), lneg_mk; rewrite (lit_eta l) in H; revert H; generalize (lvar l) (lsign l); intros x s H.
  unfold mkLit in *; destruct s; simpl in *; lia.
Qed.

Definition bounded (p : cnf) : Prop := forall c l, In c (problem p) -> In l c -> l < 2 * variables p.

Lemma facts_in : forall cs l, In l (facts_of cs) -> In [l] cs.
Proof.
  intros cs l I; apply in_flat_map in I; destruct I as (c & I & J); destruct c as [|x [|y c]]; try contradiction.
  destruct J as [<-|[]]; exact I.
Qed.
Lemma facts_nil : forall cs, (forall l, ~ In [l] cs) -> facts_of cs = [].
Proof.
  intros cs H; destruct (facts_of cs) as [|l r] eqn:E; [reflexivity|]; exfalso; apply (H l), facts_in; rewrite E; left; reflexivity.
Qed.

Lemma occ_new : forall n, length (repeat (@nil clause) n) = n /\ members (below n) (repeat [] n) /\ forall l, size_at (repeat [] n) l = 0.
Proof.
  intros n; split; [apply repeat_length|split].
  - intros l o c E I; apply nth_error_In, repeat_spec in E; subst; contradiction.
  - intros l; unfold size_at; destruct (nth_error (repeat [] n) l) eqn:E; [apply nth_error_In, repeat_spec in E; subst|]; reflexivity.
Qed.

Lemma degrees_ok : forall p, bounded p -> exists deg, degrees p = Ok deg /\ length deg = 2 * variables p.
Proof.
  intros p B; unfold degrees; destruct (occ_new (2 * variables p)) as (L & M & _).
  destruct (occur_clauses_ok (below (2 * variables p)) (2 * variables p) (problem p) _ L) as (occ & A1 & A2 & A3 & _); [|exact M|].
  - intros c I; split; intros l J; exact (B c l I J).
  - rewrite A1; cbn [bind]; apply (drop_facts_ok (2 * variables p)); [exact A2|rewrite map_length; exact A2|exact A3|].
    intros l I; apply facts_in in I; assert (Hl : l < 2 * variables p) by (apply (B [l]); [exact I|left; reflexivity]).
    split; [exact Hl|apply lneg_below; exact Hl].
Qed.

Lemma map_size : forall (f : nat -> N) occ, (forall l, l < length occ -> N.of_nat (size_at occ l) = f l) ->
  map (fun o : list clause => N.of_nat (length o)) occ = map f (seq 0 (length occ)).
Proof.
  intros f occ; revert f; induction occ as [|o occ IH]; intros f H; [reflexivity|]; cbn [length seq map]; f_equal.
  - apply (H 0); simpl; lia.
  - rewrite <- seq_shift, map_map; apply IH; intros l Hl; apply (H (S l)); simpl; lia.
Qed.

Lemma count_le_length : forall (l : list nat) x, count_occ Nat.eq_dec l x <= length l.
Proof. induction l as [|y l IH]; intros x; simpl; [lia|]; specialize (IH x); destruct (Nat.eq_dec y x); lia. Qed.

Lemma degrees_value : forall p, bounded p -> (forall l, ~ In [l] (problem p)) -> (N.of_nat (length (concat (problem p))) < 4294967296)%N ->
  degrees p = Ok (map (occurrences (problem p)) (seq 0 (2 * variables p))).
Proof.
  intros p B U S; unfold degrees; rewrite (facts_nil _ U); destruct (occ_new (2 * variables p)) as (L & M & Z).
  destruct (occur_clauses_ok (below (2 * variables p)) (2 * variables p) (problem p) _ L) as (occ & A1 & A2 & A3 & A4); [|exact M|].
  - intros c I; split; intros l J; exact (B c l I J).
  - rewrite A1; cbn [bind drop_facts]; f_equal; rewrite <- A2, <- map_size.
    + apply map_ext_in; intros o I; unfold w32; apply N.mod_small; apply In_nth_error in I; destruct I as [l E].
      pose proof (A4 l) as Q; rewrite Z in Q; unfold size_at in Q; rewrite E in Q.
      pose proof (count_le_length (concat (problem p)) l); unfold clause, lit, var in *; lia.
    + intros l _; rewrite A4, Z; reflexivity.
Qed.

(** ** text *)
Definition nonzero (d : N) : bool := (0 <? d)%N.
Fixpoint dchunks (s : list nat) (ds : list N) : list (list nat) :=
  match ds with [] => [] | d :: r => if nonzero d then (s ++ dec d) :: dchunks [32] r else dchunks s r end.
Lemma degree_chunks : forall ds s st, degree_loop ds s st = process_all (dchunks s ds) st.
Proof.
  induction ds as [|d ds IH]; intros s st; cbn [degree_loop dchunks]; [reflexivity|]; unfold nonzero; destruct (0 <? d)%N; [|apply IH].
  cbn [process_all]; destruct (process _ st); cbn [bind]; auto.
Qed.
Lemma dchunks_text : forall ds, concat (dchunks [32] ds) = match filter nonzero ds with [] => [] | l => 32 :: join (map dec l) end.
Proof.
  induction ds as [|d ds IH]; [reflexivity|]; cbn [dchunks filter]; destruct (nonzero d); [|exact IH]; cbn [concat]; rewrite IH.
  destruct (filter nonzero ds) as [|e r]; [simpl; rewrite app_nil_r; reflexivity|]; cbn [map]; rewrite (join_cons (dec d)) by discriminate; reflexivity.
Qed.
Lemma dchunks_all : forall ds, concat (dchunks [] ds) = join (map dec (filter nonzero ds)).
Proof.
  induction ds as [|d ds IH]; [reflexivity|]; cbn [dchunks filter]; destruct (nonzero d); [|exact IH]; cbn [concat app]; rewrite dchunks_text.
  destruct (filter nonzero ds) as [|e r]; [simpl; rewrite app_nil_r; reflexivity|]; cbn [map]; rewrite (join_cons (dec d)) by discriminate; reflexivity.
Qed.
Lemma dchunks_ok : forall ds s, length s <= 1 -> Forall (fun d => d < 4294967296)%N ds -> Forall chunk_ok (dchunks s ds).
Proof.
  induction ds as [|d ds IH]; intros s L F; cbn [dchunks]; [constructor|]; inversion F as [|? ? F1 F2]; subst.
  destruct (nonzero d); [|apply IH; assumption]; constructor; [|apply IH; [simpl; lia|exact F2]].
  destruct (dec_digits d) as (A & _ & _ & B); split.
  - intros E; apply app_eq_nil in E; tauto.
  - rewrite app_length; assert (length (dec d) <= 10) by (apply B; lia); lia.
Qed.

(** ** sorting *)
Lemma insert_perm : forall x l, Permutation (x :: l) (insert_degree x l).
Proof.
  intros x l; induction l as [|y l IH]; cbn [insert_degree]; [auto|]; destruct (x <=? y)%N; [auto|].
  eapply Permutation_trans; [apply perm_swap|]; constructor; exact IH.
Qed.
Lemma sort_perm : forall l, Permutation l (sort_degrees l).
Proof.
  induction l as [|x l IH]; [constructor|]; unfold sort_degrees in *; cbn [fold_right].
  eapply Permutation_trans; [apply perm_skip; exact IH|apply insert_perm].
Qed.
Lemma insert_sorted : forall x l, StronglySorted N.le l -> StronglySorted N.le (insert_degree x l).
Proof.
  intros x l; induction l as [|y l IH]; intros H; cbn [insert_degree]; [repeat constructor|].
  inversion H as [|? ? H1 H2]; subst; pose proof H2 as H3; rewrite Forall_forall in H3; destruct (N.leb_spec x y) as [L|L].
  - constructor; [exact H|]; apply Forall_forall; intros z [<-|I]; [lia|]; specialize (H3 _ I); lia.
  - constructor; [apply IH; exact H1|]; apply Forall_forall; intros z I.
    apply (Permutation_in z (Permutation_sym (insert_perm x l))) in I; destruct I as [<-|I]; [lia|exact (H3 _ I)].
Qed.
Lemma sort_sorted : forall l, StronglySorted N.le (sort_degrees l).
Proof. induction l as [|x l IH]; [constructor|]; apply insert_sorted; exact IH. Qed.
Lemma filter_sorted : forall f l, StronglySorted N.le l -> StronglySorted N.le (filter f l).
Proof.
  intros f l; induction l as [|x l IH]; intros H; [constructor|]; inversion H as [|? ? H1 H2]; subst; cbn [filter]; destruct (f x); [|auto].
  constructor; [auto|]; rewrite Forall_forall in *; intros y I; apply filter_In in I; apply H2; tauto.
Qed.
Lemma filter_perm : forall (f : N -> bool) l m, Permutation l m -> Permutation (filter f l) (filter f m).
Proof.
  intros f l m H; induction H; cbn [filter]; [constructor| | |eapply Permutation_trans; eauto].
  - destruct (f x); [constructor|]; assumption.
  - destruct (f x), (f y); try constructor; apply Permutation_refl.
Qed.
Lemma sorted_unique : forall l m, StronglySorted N.le l -> StronglySorted N.le m -> Permutation l m -> l = m.
Proof.
  induction l as [|x l IH]; intros m L M P; [apply Permutation_nil in P; auto|]; destruct m as [|y m]; [apply Permutation_sym, Permutation_nil in P; discriminate|].
  inversion L as [|? ? L1 L2]; inversion M as [|? ? M1 M2]; subst; rewrite Forall_forall in L2, M2.
  assert (E : x = y).
  { assert (X : In x (y :: m)) by (apply (Permutation_in x P); left; reflexivity).
    assert (Y : In y (x :: l)) by (apply (Permutation_in y (Permutation_sym P)); left; reflexivity).
    destruct X as [X|X]; [auto|]; destruct Y as [Y|Y]; [auto|]; specialize (L2 _ Y); specialize (M2 _ X); lia. }
  subst; f_equal; apply IH; auto; apply Permutation_cons_inv in P; exact P.
Qed.

Lemma digest_degrees : forall ds, Forall (fun d => d < 4294967296)%N ds ->
  (st <- degree_loop ds [] initialise ;; digest_string st) = Ok (hex (MD5 (join (map dec (filter nonzero ds))))).
Proof.
  intros ds F; rewrite degree_chunks; destruct (process_all_ok (dchunks [] ds) [] initialise holds_new) as (st & A & B); [apply dchunks_ok; [simpl; lia|exact F]|].
  rewrite A; cbn [bind app] in *; rewrite dchunks_all in B; exact (digest_ok _ _ B).
Qed.

(** values stay below 2^32 *)
Definition small (deg : list N) : Prop := Forall (fun d => d < 4294967296)%N deg.
Lemma put_small : forall deg i x deg', small deg -> (x < 4294967296)%N -> put deg i x = Ok deg' -> small deg'.
Proof.
  intros deg i x deg' S X E; unfold put in E; destruct (i <? length deg) eqn:L; [|discriminate]; injection E as <-.
  apply Forall_forall; intros d I; apply In_nth_error in I; destruct I as [k I]; rewrite set_nth_nth in I; destruct ((k =? i) && (i <? length deg)).
  - injection I as <-; exact X.
  - unfold small in S; rewrite Forall_forall in S; apply S; eapply nth_error_In; exact I.
Qed.
Lemma drop_lits_small : forall ls deg deg', small deg -> drop_lits ls deg = Ok deg' -> small deg'.
Proof.
  induction ls as [|l ls IH]; intros deg deg' S E; cbn [drop_lits] in E; [injection E as <-; exact S|].
  destruct (get deg l) as [d|e]; cbn [bind] in E; [|discriminate]; destruct (put deg l (dec32 d)) as [d1|e] eqn:P; cbn [bind] in E; [|discriminate].
  apply (IH d1); [|exact E]; apply (put_small _ _ _ _ S) with (2 := P); apply N.mod_lt; discriminate.
Qed.
Lemma drop_clauses_small : forall cs deg deg', small deg -> drop_clauses cs deg = Ok deg' -> small deg'.
Proof.
  induction cs as [|c cs IH]; intros deg deg' S E; cbn [drop_clauses] in E; [injection E as <-; exact S|].
  destruct (drop_lits c deg) as [d1|e] eqn:P; cbn [bind] in E; [|discriminate]; apply (IH d1); [|exact E]; exact (drop_lits_small _ _ _ S P).
Qed.
Lemma drop_facts_small : forall fs occ deg deg', small deg -> drop_facts fs occ deg = Ok deg' -> small deg'.
Proof.
  induction fs as [|l fs IH]; intros occ deg deg' S E; cbn [drop_facts] in E; [injection E as <-; exact S|].
  destruct (get occ l) as [cs|e]; cbn [bind] in E; [|discriminate].
  destruct (drop_clauses cs deg) as [d1|e] eqn:P; cbn [bind] in E; [|discriminate].
  destruct (put d1 (lneg l) 0%N) as [d2|e] eqn:Q; cbn [bind] in E; [|discriminate]; apply (IH occ d2); [|exact E].
  apply (put_small _ _ _ _ (drop_clauses_small _ _ _ S P)) with (2 := Q); lia.
Qed.
Lemma degrees_small : forall p deg, degrees p = Ok deg -> small deg.
Proof.
  intros p deg E; unfold degrees in E; destruct (occur_clauses _ _) as [occ|e]; cbn [bind] in E; [|discriminate].
  apply (drop_facts_small _ _ _ _ ) with (2 := E); apply Forall_forall; intros d I; apply in_map_iff in I; destruct I as (o & <- & _).
  apply N.mod_lt; discriminate.
Qed.

Lemma sort_small : forall deg, small deg -> small (sort_degrees deg).
Proof. intros deg S; eapply Permutation_Forall; [apply sort_perm|exact S]. Qed.

Lemma degree_defined : forall p, bounded p -> exists ds, StronglySorted N.le ds /\ degree_hash p = Ok (hex (MD5 (join (map dec ds)))).
Proof.
  intros p B; destruct (degrees_ok p B) as (deg & A & _); exists (filter nonzero (sort_degrees deg)).
  split; [apply filter_sorted, sort_sorted|]; unfold degree_hash; rewrite A; cbn [bind]; apply digest_degrees, sort_small, (degrees_small _ _ A).
Qed.

Lemma filter_map_swap : forall (f : nat -> N) g l, filter g (map f l) = map f (filter (fun x => g (f x)) l).
Proof. intros f g l; induction l as [|x l IH]; [reflexivity|]; cbn [map filter]; destruct (g (f x)); cbn [map]; rewrite IH; reflexivity. Qed.

Lemma degree_value : forall p, bounded p -> (forall l, ~ In [l] (problem p)) -> (N.of_nat (length (concat (problem p))) < 4294967296)%N ->
  exists ds, StronglySorted N.le ds /\ Permutation ds (map (occurrences (problem p)) (nodup Nat.eq_dec (concat (problem p)))) /\
    degree_hash p = Ok (hex (MD5 (join (map dec ds)))).
Proof.
  intros p B U S; pose proof (degrees_value p B U S) as E; set (deg := map (occurrences (problem p)) (seq 0 (2 * variables p))) in *.
  exists (filter nonzero (sort_degrees deg)); split; [apply filter_sorted, sort_sorted|split].
  - eapply Permutation_trans; [apply filter_perm, Permutation_sym, sort_perm|]; unfold deg; rewrite filter_map_swap; apply Permutation_map.
    apply NoDup_Permutation; [apply NoDup_filter, seq_NoDup|apply NoDup_nodup|].
    intros l; rewrite filter_In, in_seq, nodup_In, (count_occ_In Nat.eq_dec); unfold nonzero, occurrences; split.
    + intros [_ H]; lia.
    + intros H; split; [|lia]; split; [lia|]; apply (count_occ_In Nat.eq_dec), in_concat in H; destruct H as (c & I & J).
      simpl; apply (B c l I J).
  - unfold degree_hash; rewrite E; cbn [bind]; apply digest_degrees, sort_small, (degrees_small _ _ E).
Qed.

Lemma count_perm : forall (l m : list nat) x, Permutation l m -> count_occ Nat.eq_dec l x = count_occ Nat.eq_dec m x.
Proof. intros l m x P; apply (proj1 (Permutation_count_occ Nat.eq_dec l m) P). Qed.
Lemma count_map_inj : forall (r : nat -> nat) l x, (forall a b, r a = r b -> a = b) -> count_occ Nat.eq_dec (map r l) (r x) = count_occ Nat.eq_dec l x.
Proof.
  intros r l x I; induction l as [|y l IH]; [reflexivity|]; cbn [map count_occ]; destruct (Nat.eq_dec (r y) (r x)) as [E|E], (Nat.eq_dec y x) as [E'|E'];
    try (rewrite IH; reflexivity); [apply I in E; congruence|congruence].
Qed.
Lemma nodup_map : forall (r : nat -> nat) l, (forall a b, r a = r b -> a = b) -> NoDup l -> NoDup (map r l).
Proof.
  intros r l I N; induction N as [|x l H N IH]; cbn [map]; constructor; [|exact IH]; intros J; apply in_map_iff in J; destruct J as (y & E & J).
  apply I in E; congruence.
Qed.

Lemma degree_invariant : forall p q (r : lit -> lit), (forall a b, r a = r b -> a = b) ->
  bounded p -> bounded q -> (forall l, ~ In [l] (problem p)) -> (forall l, ~ In [l] (problem q)) ->
  (N.of_nat (length (concat (problem p))) < 4294967296)%N -> Permutation (concat (problem q)) (map r (concat (problem p))) ->
  degree_hash q = degree_hash p.
Proof.
  intros p q r I Bp Bq Up Uq S P; assert (Sq : (N.of_nat (length (concat (problem q))) < 4294967296)%N) by (rewrite (Permutation_length P), map_length; exact S).
  destruct (degree_value p Bp Up S) as (dp & A1 & A2 & A3); destruct (degree_value q Bq Uq Sq) as (dq & C1 & C2 & C3).
  rewrite A3, C3; do 5 f_equal; apply sorted_unique; auto.
  eapply Permutation_trans; [exact C2|]; eapply Permutation_trans; [|apply Permutation_sym; exact A2].
  eapply Permutation_trans; [apply Permutation_map; apply (NoDup_Permutation (l' := map r (nodup Nat.eq_dec (concat (problem p)))))|].
  - apply NoDup_nodup.
  - apply nodup_map; [exact I|apply NoDup_nodup].
  - intros x; rewrite nodup_In; split.
    + intros J; apply (Permutation_in x P) in J; apply in_map_iff in J; destruct J as (y & <- & J); apply in_map, nodup_In; exact J.
    + intros J; apply in_map_iff in J; destruct J as (y & <- & J); apply nodup_In in J; apply (Permutation_in (r y) (Permutation_sym P)), in_map; exact J.
  - rewrite map_map; erewrite map_ext; [apply Permutation_refl|]; intros l; unfold occurrences; f_equal; rewrite (count_perm _ _ _ P); apply count_map_inj; exact I.
Qed.

Lemma read_bounded : forall cs, bounded (readClauses cnf_empty cs).
Proof.
  intros cs c l I J; destruct (readClauses_shape cs c I) as (_ & _ & d & D1 & D2); destruct (readClauses_nvars cs) as [N _].
  assert (V : lvar l < variables (readClauses cnf_empty cs)) by (apply N; exists d, l; split; [exact D1|split; [apply D2; exact J|reflexivity]]).
  rewrite (lit_eta l); revert V; generalize (variables (readClauses cnf_empty cs)) (lvar l) (lsign l); intros n v s V; unfold mkLit; destruct s; lia.
Qed.
