(** The statistics of the gate recognition: invariants. *)
Require Import List Arith Bool NArith Lia Permutation.
Require Import Verif.Base Verif.Outcome Verif.CNFModel Verif.CNFProofs Verif.TrailProofs Verif.GateModel Verif.GateSpec Verif.BlockProofs Verif.BlockMore Verif.GatePat Verif.GateProofs Verif.StatsModel Verif.StatsSpec.
Import ListNotations.

(** ** Histograms *)
Definition widen (i : nat) (h : list nat) : list nat := if length h <=? i then h ++ repeat 0 (S i - length h) else h.
Lemma widen_len i h : i < length (widen i h).
Proof. unfold widen. destruct (Nat.leb_spec (length h) i); [rewrite app_length, repeat_length|]; lia. Qed.
Lemma widen_nth i h j : nth j (widen i h) 0 = nth j h 0.
Proof. unfold widen. destruct (Nat.leb_spec (length h) i); auto. destruct (Nat.lt_ge_cases j (length h)); [apply app_nth1; auto|]. rewrite app_nth2, nth_repeat, nth_overflow; auto. Qed.
Lemma sum_app a b : list_sum (a ++ b) = list_sum a + list_sum b.
Proof. apply list_sum_app. Qed.
Lemma sum_zero k : list_sum (repeat 0 k) = 0.
Proof. induction k; cbn [repeat]; auto. Qed.
Lemma widen_sum i h : list_sum (widen i h) = list_sum h.
Proof. unfold widen. destruct (_ <=? _); auto. rewrite sum_app, sum_zero. lia. Qed.
Lemma set_sum : forall h i x, i < length h -> list_sum (set_nth i x h) + nth i h 0 = list_sum h + x.
Proof.
  induction h as [|y h IH]; intros i x Hi; [cbn in Hi; lia|]. destruct i as [|i].
  - change (set_nth 0 x (y :: h)) with (x :: h). cbn [list_sum fold_right nth]. unfold list_sum. cbn [fold_right]. lia.
  - change (set_nth (S i) x (y :: h)) with (y :: set_nth i x h). cbn [nth]. cbn [length] in Hi. specialize (IH i x ltac:(lia)). unfold list_sum in *. cbn [fold_right]. lia.
Qed.
Lemma bump_widen i h : bump i h = set_nth i (S (nth i h 0)) (widen i h).
Proof. unfold bump. cbv zeta. fold (widen i h). rewrite widen_nth. reflexivity. Qed.
Lemma bump_sum i h : list_sum (bump i h) = S (list_sum h).
Proof. rewrite bump_widen. pose proof (set_sum (widen i h) i (S (nth i h 0)) (widen_len i h)) as H. rewrite widen_nth, widen_sum in H. lia. Qed.
Lemma bump_nth i h j : nth j (bump i h) 0 = (if j =? i then 1 else 0) + nth j h 0.
Proof. rewrite bump_widen. destruct (Nat.eqb_spec j i) as [->|N]; [rewrite nth_set_nth_same; [reflexivity|apply widen_len]|]. rewrite nth_set_nth_other, widen_nth by auto. auto. Qed.
Lemma last_nth (h : list nat) : last h 0 = nth (pred (length h)) h 0.
Proof. induction h as [|x h IH]; auto. destruct h as [|y h]; auto. Qed.
Lemma bump_tidy i h : tidy h -> tidy (bump i h).
Proof.
  intros H _. rewrite last_nth, bump_nth, bump_widen, set_nth_length. unfold widen. destruct (Nat.leb_spec (length h) i) as [L|L].
  - rewrite app_length, repeat_length. replace (pred (length h + (S i - length h))) with i by lia. rewrite Nat.eqb_refl. lia.
  - assert (HN : h <> []) by (destruct h; [cbn in L; lia|discriminate]). specialize (H HN). rewrite last_nth in H. lia.
Qed.
Lemma bump_nonempty i h : bump i h <> [].
Proof. intros E. pose proof (widen_len i h) as H. rewrite bump_widen in E. apply (f_equal (@length nat)) in E. rewrite set_nth_length in E. cbn in E. lia. Qed.

Section S.
Variable cfg : config.
Variable conf : nat -> nat.
Variable cs : list clause.
Variable n : nat.
Hypothesis WF : wf_problem n cs.

(** ** The recognition is that of GateModel *)
Lemma sisGate_isGate o a s : fst (sisGate cfg conf cs o a s) = isGate cfg cs o a.
Proof.
  unfold sisGate, isGate. destruct (_ =? 0); auto. destruct (isBlockedSet cs o (blist a)) as (bl, b1). destruct bl; auto. unfold recognise. cbn [gprob].
  destruct (isNestedMonotonic (gprob a) o); auto. unfold tests. destruct (usePatterns cfg && _); auto.
  destruct (if useSemantic cfg then _ else _) as (v, a1). destruct v; auto. destruct (useHolistic cfg); auto. destruct (semanticCheck cfg cs o _ _ true a1) as (h, a2). destruct h; auto.
Qed.
Lemma stry_try : forall cand fr a s, fst (stry cfg conf cs cand fr a s) = try_candidates cfg cs cand fr a.
Proof.
  induction cand as [|o cand IH]; intros fr a s; auto. cbn [stry try_candidates]. pose proof (sisGate_isGate o a s) as H. destruct (sisGate cfg conf cs o a s) as ((b, a1), s1). cbn [fst] in H. rewrite <- H. apply IH.
Qed.
Definition erased {A B} (x : out (A * B)) : out A := ' (a, _) <- x ;; Ok a.
Lemma srecognition_rec : forall fuel fr a s, erased (srecognition cfg conf fuel cs fr a s) = gate_recognition fuel cfg cs fr a.
Proof.
  induction fuel as [|fuel IH]; intros [|o fr] a s; auto. cbn [srecognition gate_recognition]. pose proof (stry_try (o :: fr) [] a s) as H. destruct (stry cfg conf cs (o :: fr) [] a s) as ((f, a1), s1). cbn [fst] in H. rewrite <- H. apply IH.
Qed.
Lemma sloop_loop : forall fuel count a s, erased (sloop cfg conf fuel cs n count a s) = analyze_loop fuel cfg cs n count a.
Proof.
  induction fuel as [|fuel IH]; intros count a s; auto. cbn [sloop analyze_loop]. destruct (_ && _); auto. match goal with |- context [if count =? 0 then ?x else ?y] => destruct (if count =? 0 then x else y) as ((stop, rs), b) end. destruct stop; auto. destruct rs as [|c rs]; auto.
  match goal with |- erased (bind (srecognition _ _ ?f _ ?fr ?a ?s) _) = _ => pose proof (srecognition_rec f fr a s) as H; destruct (srecognition cfg conf f cs fr a s) as [(a3, s3)|e] end; unfold erased in H at 1; cbn [bind] in H; rewrite <- H; cbn [bind]; auto.
Qed.

(** ** The counts *)
Definition tally (i k : nat) : nat := length (filter (fun j => conf j =? i) (seq 0 k)).
Lemma tally_S i k : tally i (S k) = tally i k + (if conf k =? i then 1 else 0).
Proof. unfold tally. rewrite seq_S, filter_app, app_length. cbn [plus filter]. destruct (conf k =? i); auto. Qed.
Definition pat_gate (h : gate) : bool := match g_out h with Some o => g_notMono h && usePatterns cfg && patternCheck cs o (g_fwd h) (g_bwd h) | None => false end.
Record SI (a : analyzer) (s : gstats) : Prop := {
  s_sum : gate_count (gprob a) = monoton_gate_count (gprob a) + st_pat s + st_sem s + st_hol s;
  s_hist : list_sum (st_hist s) = st_sem s + st_hol s;
  s_sem : useSemantic cfg = false -> st_sem s = 0;
  s_hol : useHolistic cfg = false -> st_hol s = 0;
  s_off : useSemantic cfg = false -> useHolistic cfg = false -> st_fail s = [] /\ calls a = 0;
  s_le : forall i, nth i (st_hist s) 0 + nth i (st_fail s) 0 <= tally i (calls a);
  s_eq : useSemantic cfg && useHolistic cfg = false -> forall i, nth i (st_hist s) 0 + nth i (st_fail s) 0 = tally i (calls a);
  s_pat : st_pat s = length (filter pat_gate (gates (gprob a)));
  s_tidy : tidy (st_hist s) /\ tidy (st_fail s)
}.
Lemma fresh R a o : AI cfg cs n R a -> lvar o < n -> occs (blist a) (lneg o) <> [] -> getGate (gprob a) o = gate_none.
Proof.
  intros HA HV E0. unfold getGate. destruct (a_gate _ _ _ _ _ HA (lvar o) HV) as [H|(o' & Ev & _ & HN)]; auto. exfalso. destruct (occs (blist a) (lneg o)) as [|c f] eqn:Ef; auto.
  assert (Hi : In c (occs (blist a) (lneg o))) by (rewrite Ef; left; auto). apply (i_in _ _ _ _ (a_inv _ _ _ _ _ HA)) in Hi. destruct Hi as (Hc & Hn). destruct (HN c Hc) as (N1 & N2). destruct (same_var _ _ Ev) as [->| ->]; auto.
Qed.
Lemma SI_ext a a' s : SI a s -> gprob a' = gprob a -> calls a' = calls a -> SI a' s.
Proof. intros [H1 H2 H3 H4 H5 H6 H7 H8 H9] E1 E2. split; rewrite ?E1, ?E2; auto. Qed.
Lemma added o fwd bwd g : getGate g o = gate_none -> lvar o < length (gates g) -> let g' := addGate cs o fwd bwd g in
  gate_count g' = S (gate_count g) /\ monoton_gate_count g' = (if isNestedMonotonic g o then 1 else 0) + monoton_gate_count g /\
  length (filter pat_gate (gates g')) = (if negb (isNestedMonotonic g o) && usePatterns cfg && patternCheck cs o fwd bwd then 1 else 0) + length (filter pat_gate (gates g)).
Proof.
  intros HO HL. cbv zeta. destruct (addGate_count cs o fwd bwd g) as (C1 & C2). split; [exact C1|]. split; [exact C2|]. destruct (addGate_spec cs o fwd bwd g) as (_ & _ & S3). cbv zeta in S3. rewrite S3, HO. unfold getGate in HO.
  rewrite (filter_set pat_gate _ _ _ gate_none HL eq_refl HO). reflexivity.
Qed.
Lemma sisGate_SI R a s o b a' s' : AI cfg cs n R a -> o < 2 * n -> SI a s -> sisGate cfg conf cs o a s = (b, a', s') -> SI a' s'.
Proof.
  intros HA Ho HS E. unfold sisGate in E. destruct (Nat.eqb_spec (length (occs (blist a) (lneg o))) 0) as [E0|E0]; [injection E as _ <- <-; exact HS|].
  destruct (isBlockedSet cs o (blist a)) as (bl, b1) eqn:EB. destruct bl; [|injection E as _ <- <-; apply (SI_ext a); auto].
  assert (HV : lvar o < n) by (apply lvar_lt; auto). assert (HO : getGate (gprob a) o = gate_none) by (apply (fresh R); auto; intros H; apply E0; rewrite H; auto).
  assert (HL : lvar o < length (gates (gprob a))) by (rewrite (a_len _ _ _ _ _ HA); auto).
  cbn [gprob] in E. set (fwd := occs b1 (lneg o)) in *. set (bwd := occs b1 o) in *. destruct (added o fwd bwd (gprob a) HO HL) as (C1 & C2 & C3).
  destruct HS as [H1 H2 H3 H4 H5 H6 H7 H8 (H9 & H10)].
  destruct (isNestedMonotonic (gprob a) o) eqn:EM; cbn [orb negb andb] in E, C2, C3.
  { injection E as _ <- <-. unfold addGateStats. split; cbn [gprob calls]; auto; rewrite ?C1, ?C2, ?C3; lia. }
  unfold tests in E. destruct (usePatterns cfg && patternCheck cs o fwd bwd) eqn:EP; cbn [orb] in E.
  { injection E as _ <- <-. unfold addGateStats. split; cbn [gprob calls st_pat st_sem st_hol st_hist st_fail]; auto; rewrite ?C1, ?C2, ?C3; lia. }
  unfold semanticCheck in E. destruct (useSemantic cfg) eqn:ES.
  - destruct (GateModel.solver cfg (calls (mkGA b1 (gprob a) (calls a))) _) eqn:EV; cbn [orb] in E.
    { injection E as _ <- <-. unfold addGateStats. cbn [gprob calls blist Nat.pred]. split; cbn [gprob calls st_pat st_sem st_hol st_hist st_fail]; auto; rewrite ?C1, ?C2, ?C3, ?bump_sum; try lia; try (intros; congruence); try (intros HB; rewrite ES, EH in HB; discriminate); auto using bump_tidy.
      - intros i. rewrite bump_nth, tally_S, (Nat.eqb_sym i). specialize (H6 i). lia.
      - intros HB i. rewrite ES in HB. rewrite bump_nth, tally_S, (Nat.eqb_sym i). specialize (H7 HB i). lia. }
    destruct (useHolistic cfg) eqn:EH.
    + destruct (GateModel.solver cfg _ (semantic_formula cs _ o fwd bwd true)) eqn:EW; cbn [orb] in E; injection E as _ <- <-; unfold addGateStats, addUnsuccessfulStats; cbn [gprob calls blist Nat.pred];
        split; cbn [gprob calls st_pat st_sem st_hol st_hist st_fail]; auto; rewrite ?C1, ?C2, ?C3, ?bump_sum; try lia; try (intros; congruence); try (intros HB; rewrite ES, EH in HB; discriminate); auto using bump_tidy;
        intros i; rewrite bump_nth, !tally_S, (Nat.eqb_sym i); specialize (H6 i); lia.
    + cbn [orb] in E; injection E as _ <- <-; unfold addUnsuccessfulStats; cbn [gprob calls blist Nat.pred]; split; cbn [gprob calls st_pat st_sem st_hol st_hist st_fail]; auto; try (intros; congruence); try (intros HB; rewrite ES, EH in HB; discriminate); auto using bump_tidy.
      * intros i; rewrite bump_nth, !tally_S, (Nat.eqb_sym i); specialize (H6 i); lia.
      * intros HB i; rewrite ES, ?EH in HB; rewrite bump_nth, !tally_S, (Nat.eqb_sym i); specialize (H7 HB i); lia.
  - destruct (useHolistic cfg) eqn:EH.
    + destruct (GateModel.solver cfg _ (semantic_formula cs _ o fwd bwd true)) eqn:EW; cbn [orb] in E; injection E as _ <- <-; unfold addGateStats, addUnsuccessfulStats; cbn [gprob calls blist Nat.pred];
        split; cbn [gprob calls st_pat st_sem st_hol st_hist st_fail]; auto; rewrite ?C1, ?C2, ?C3, ?bump_sum; try lia; try (intros; congruence); try (intros HB; rewrite ES, EH in HB; discriminate); auto using bump_tidy;
        try (intros i; rewrite bump_nth, !tally_S, (Nat.eqb_sym i); specialize (H6 i); lia); intros HB i; rewrite ES, ?EH in HB; rewrite bump_nth, !tally_S, (Nat.eqb_sym i); specialize (H7 HB i); lia.
    + cbn [orb] in E. injection E as _ <- <-. split; auto; rewrite ES, ?EH; auto.
Qed.
Lemma stry_SI : forall cand R a s fr, AI cfg cs n R a -> SI a s -> (forall l, In l cand -> inq n a l) -> forall f a' s', stry cfg conf cs cand fr a s = (f, a', s') -> SI a' s'.
Proof.
  induction cand as [|o cand IH]; intros R a s fr HA HS HC f a' s' E; cbn [stry] in E; [injection E as _ <- <-; exact HS|].
  pose proof (sisGate_isGate o a s) as EG. destruct (sisGate cfg conf cs o a s) as ((b, a1), s1) eqn:E1. cbn [fst] in EG. symmetry in EG. destruct (HC o (or_introl eq_refl)) as (Ho & HM).
  destruct (isGate_ok cfg cs n WF R a o HA (conj Ho HM) _ _ EG) as (R1 & A1 & _ & _ & _ & A5). apply (IH R1 a1 s1 _ A1 (sisGate_SI R a s o b a1 s1 HA Ho HS E1)) in E; auto.
  intros l Hl. destruct (HC l (or_intror Hl)) as (K1 & K2). split; auto.
Qed.
Lemma srecognition_SI : forall fuel R a s fr, AI cfg cs n R a -> SI a s -> (forall l, In l fr -> inq n a l) -> forall a' s', srecognition cfg conf fuel cs fr a s = Ok (a', s') -> SI a' s'.
Proof.
  induction fuel as [|fuel IH]; intros R a s [|o fr] HA HS HF a' s' E; cbn [srecognition] in E; try discriminate; try (injection E as <- <-; exact HS).
  pose proof (stry_try (o :: fr) [] a s) as EG. destruct (stry cfg conf cs (o :: fr) [] a s) as ((f, a1), s1) eqn:E1. cbn [fst] in EG. symmetry in EG.
  destruct (try_ok cfg cs n WF (o :: fr) R a [] HA HF (fun l H => match H with end) _ _ EG) as (R1 & B1 & _ & B3 & _). apply (IH R1 a1 s1 f B1 (stry_SI (o :: fr) R a s [] HA HS HF f a1 s1 E1) B3) in E. exact E.
Qed.
Lemma roots_SI a s rs b : SI a s -> SI (mkGA b (add_roots cs rs (gprob a)) (calls a)) s.
Proof.
  intros [H1 H2 H3 H4 H5 H6 H7 H8 H9]. destruct (add_roots_count cs rs (gprob a)) as (C1 & C2). destruct (add_roots_spec cs rs (gprob a)) as (_ & C3 & _). split; cbn [gprob calls]; rewrite ?C1, ?C2, ?C3; auto.
Qed.
End S.
