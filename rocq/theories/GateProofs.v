(** Proofs about GateAnalyzer: the partition and the meaning of the gates. *)
Require Import List Arith Bool NArith Lia Permutation.
From Coq Require Import ZifyBool ZifyNat ZifyN.
Require Import Verif.Base Verif.Outcome Verif.CNFModel Verif.CNFProofs Verif.TrailProofs Verif.GateModel Verif.GateSpec Verif.BlockProofs Verif.BlockMore Verif.GatePat.
Import ListNotations.

Lemma nodup_app {A} (a b : list A) : NoDup a -> NoDup b -> (forall x, In x a -> ~ In x b) -> NoDup (a ++ b).
Proof. induction 1 as [|x a Hx HN IH]; intros HB HD; cbn [app]; auto. constructor; [|apply IH; auto; intros; apply HD; right; auto]. rewrite in_app_iff. intros [H|H]; auto. apply (HD x); auto. left. auto. Qed.
Lemma flat_map_set {A B} (f : A -> list B) : forall l v x d, v < length l -> f (nth v l d) = [] -> Permutation (flat_map f (set_nth v x l)) (f x ++ flat_map f l).
Proof.
  induction l as [|y l IH]; intros v x d Hv Hf; [cbn in Hv; lia|]. destruct v as [|v].
  - change (set_nth 0 x (y :: l)) with (x :: l). cbn [flat_map nth] in *. rewrite Hf. auto.
  - change (set_nth (S v) x (y :: l)) with (y :: set_nth v x l). cbn [flat_map nth] in *. rewrite (IH v x d) by (cbn in Hv; auto; lia). rewrite !app_assoc. apply Permutation_app_tail, Permutation_app_comm.
Qed.
Lemma perm_remove (R F : list nat) : NoDup R -> NoDup F -> (forall c, In c F -> In c R) -> Permutation R (F ++ filter (fun c => negb (existsb (Nat.eqb c) F)) R).
Proof.
  intros HR HF HI. apply NoDup_Permutation; auto.
  - apply nodup_app; auto; [apply NoDup_filter; auto|]. intros x Hx H. apply filter_In in H. apply mem_spec in Hx. rewrite Hx in H. destruct H. discriminate.
  - intros c. rewrite in_app_iff, filter_In, negb_true_iff. split.
    + intros H. destruct (existsb (Nat.eqb c) F) eqn:E; [left; apply mem_spec; auto|right; auto].
    + intros [H|(H & _)]; auto.
Qed.

Section A.
Variable cfg : config.
Variable cs : list clause.
Variable n : nat.
Hypothesis WF : wf_problem n cs.

(** what is known of a recorded gate *)
Definition determined (o : lit) : Prop := forall x, ~ (sat (make_true x o) cs /\ sat (make_true x (lneg o)) cs).
Record good (o : lit) (g : gate) : Prop := {
  gd_out : g_out g = Some o;
  gd_lt : o < 2 * n;
  gd_ne : g_fwd g <> [];
  gd_fwd : forall c, In c (g_fwd g) -> In (lneg o) (cl cs c);
  gd_bwd : forall c, In c (g_bwd g) -> In o (cl cs c);
  gd_nd : NoDup (g_fwd g ++ g_bwd g);
  gd_blocked : forall c d, In c (g_bwd g) -> In d (g_fwd g) -> tautology (resolvent o (cl cs c) (cl cs d));
  gd_inp : forall l, In l (g_inp g) <-> exists c, In c (g_fwd g) /\ In l (cl cs c) /\ l <> lneg o;
  gd_why : sound_solver cfg -> g_notMono g = true -> (usePatterns cfg = true /\ patternCheck cs o (g_fwd g) (g_bwd g) = true) \/ (useSemantic cfg = true /\ functional cs o (gate_clauses g)) \/ (useHolistic cfg = true /\ determined o);
  gd_inu : NoDup (g_inp g)
}.
(** the gates in the order of their recognition, the latest first: no input of a gate is the output of itself or of a gate
    recognised before it *)
Definition recognised (gs : list gate) : Prop := exists L, NoDup L /\ (forall v, In v L <-> g_out (nth v gs gate_none) <> None) /\
  forall x u y, L = x ++ u :: y -> forall l, In l (g_inp (nth u gs gate_none)) -> ~ In (lvar l) (u :: y).
(** the two counters of the gate problem *)
Definition has_out (g : gate) : bool := match g_out g with Some _ => true | None => false end.
Definition counted (g : gproblem) : Prop := gate_count g = length (filter has_out (gates g)) /\ monoton_gate_count g = length (filter (fun h => has_out h && negb (g_notMono h)) (gates g)).
(** the literals that are marked as inputs, and the monotonicity of the gates *)
Definition used (g : gproblem) (l : lit) : Prop := In l (flat_map (cl cs) (roots g)) \/ exists u, In l (g_inp (nth u (gates g) gate_none)) \/ (g_notMono (nth u (gates g) gate_none) = true /\ In (lneg l) (g_inp (nth u (gates g) gate_none))).
Definition marked (g : gproblem) (l : lit) : Prop := nth l (inputs g) false = true.
Definition uses (g : gproblem) : Prop := length (inputs g) = 2 * n /\ (forall l, marked g l <-> used g l) /\
  forall v o, g_out (nth v (gates g) gate_none) = Some o -> marked g o /\ (g_notMono (nth v (gates g) gate_none) = true <-> marked g (lneg o)).
Record AI (R : list nat) (a : analyzer) : Prop := {
  a_inv : Inv cs n R (blist a);
  a_ci : CI cs n (blist a);
  a_nd : NoDup R;
  a_len : length (gates (gprob a)) = n;
  a_part : Permutation (roots (gprob a) ++ flat_map gate_clauses (gates (gprob a)) ++ R) (seq 0 (length cs));
  a_rem : remainder (gprob a) = [];
  a_empty : forall c, c < length cs -> cl cs c = [] -> In c R;
  a_gate : forall v, v < n -> nth v (gates (gprob a)) gate_none = gate_none \/ exists o, lvar o = v /\ good o (nth v (gates (gprob a)) gate_none) /\ (forall c, In c R -> ~ In o (cl cs c) /\ ~ In (lneg o) (cl cs c));
  a_order : recognised (gates (gprob a));
  a_cnt : counted (gprob a);
  a_used : uses (gprob a)
}.

Lemma used_same l g : gates (setUsedAsInput l g) = gates g /\ roots (setUsedAsInput l g) = roots g /\ remainder (setUsedAsInput l g) = remainder g.
Proof. auto. Qed.
Lemma fold_used (b : bool) : forall ls g, let g' := fold_left (fun g l => let g1 := setUsedAsInput l g in if b then setUsedAsInput (lneg l) g1 else g1) ls g in gates g' = gates g /\ roots g' = roots g /\ remainder g' = remainder g.
Proof. induction ls as [|l ls IH]; intros g; cbn [fold_left]; auto. cbv zeta in IH |- *. destruct (IH (if b then setUsedAsInput (lneg l) (setUsedAsInput l g) else setUsedAsInput l g)) as (A & A' & A''). rewrite A, A', A''. destruct b; auto. Qed.
Lemma addGate_spec o fwd bwd g : let g' := addGate cs o fwd bwd g in roots g' = roots g /\ remainder g' = remainder g /\
  gates g' = set_nth (lvar o) (mkGate (Some o) (g_fwd (getGate g o) ++ fwd) (g_bwd (getGate g o) ++ bwd) (negb (isNestedMonotonic g o)) (unique Nat.eqb (sort (g_inp (getGate g o) ++ gate_inputs cs o fwd)))) (gates g).
Proof. cbv zeta. unfold addGate. match goal with |- context [fold_left _ ?l ?g] => destruct (fold_used (negb (isNestedMonotonic g o)) l g) as (A & A' & A'') end. unfold isNestedMonotonic in *. cbn [inputs] in *. rewrite A, A', A''. auto. Qed.

Lemma fold_used_count (b : bool) : forall ls g, let g' := fold_left (fun g l => let g1 := setUsedAsInput l g in if b then setUsedAsInput (lneg l) g1 else g1) ls g in gate_count g' = gate_count g /\ monoton_gate_count g' = monoton_gate_count g.
Proof. induction ls as [|l ls IH]; intros g; cbn [fold_left]; auto. cbv zeta in IH |- *. destruct (IH (if b then setUsedAsInput (lneg l) (setUsedAsInput l g) else setUsedAsInput l g)) as (A & A'). rewrite A, A'. destruct b; auto. Qed.
Lemma addGate_count o fwd bwd g : let g' := addGate cs o fwd bwd g in gate_count g' = S (gate_count g) /\ monoton_gate_count g' = (if isNestedMonotonic g o then 1 else 0) + monoton_gate_count g.
Proof. cbv zeta. unfold addGate. match goal with |- context [fold_left _ ?l ?g] => destruct (fold_used_count (negb (isNestedMonotonic g o)) l g) as (A & A') end. unfold isNestedMonotonic in *. cbn [inputs gate_count monoton_gate_count] in *. rewrite A, A'. destruct (negb (_ && _)); auto. Qed.
Lemma set_used l g k : l < length (inputs g) -> (marked (setUsedAsInput l g) k <-> k = l \/ marked g k).
Proof.
  intros Hl. unfold marked, setUsedAsInput. cbn [inputs]. destruct (Nat.eq_dec k l) as [->|N]; [rewrite nth_set_nth_same by auto; intuition|]. rewrite nth_set_nth_other by auto. intuition.
Qed.
Lemma fold_used_inputs (b : bool) : forall ls g, length (inputs g) = 2 * n -> (forall l, In l ls -> l < 2 * n) ->
  let g' := fold_left (fun g l => let g1 := setUsedAsInput l g in if b then setUsedAsInput (lneg l) g1 else g1) ls g in
  length (inputs g') = 2 * n /\ forall k, marked g' k <-> marked g k \/ In k ls \/ (b = true /\ In (lneg k) ls).
Proof.
  induction ls as [|l ls IH]; intros g HL HB; cbv zeta; cbn [fold_left In]; [split; auto; intros k; intuition|]. cbv zeta in IH.
  assert (L1 : length (inputs (setUsedAsInput l g)) = 2 * n) by (unfold setUsedAsInput; cbn [inputs]; rewrite set_nth_length; auto). assert (Hl : l < 2 * n) by (apply HB; left; auto).
  assert (SW : forall k, k = lneg l <-> l = lneg k) by (intros k; split; intros ->; rewrite lneg_invol; auto).
  destruct b.
  - assert (L2 : length (inputs (setUsedAsInput (lneg l) (setUsedAsInput l g))) = 2 * n) by (unfold setUsedAsInput at 1; cbn [inputs]; rewrite set_nth_length; auto).
    destruct (IH (setUsedAsInput (lneg l) (setUsedAsInput l g)) L2) as (A & B); [intros k Hk; apply HB; right; auto|]. split; auto. intros k. rewrite B, !set_used by (rewrite ?L1, ?HL; auto; apply lneg_lt; auto). rewrite SW. intuition congruence.
  - destruct (IH (setUsedAsInput l g) L1) as (A & B); [intros k Hk; apply HB; right; auto|]. split; auto. intros k. rewrite B, set_used by (rewrite HL; auto). intuition congruence.
Qed.
Lemma addGate_inputs o fwd bwd g : length (inputs g) = 2 * n -> (forall l, In l (g_inp (getGate (addGate cs o fwd bwd g) o)) -> l < 2 * n) -> lvar o < length (gates g) ->
  let g' := addGate cs o fwd bwd g in length (inputs g') = 2 * n /\
  forall k, marked g' k <-> marked g k \/ In k (g_inp (getGate g' o)) \/ (isNestedMonotonic g o = false /\ In (lneg k) (g_inp (getGate g' o))).
Proof.
  intros HL HB Hv. cbv zeta. assert (EI : g_inp (getGate (addGate cs o fwd bwd g) o) = unique Nat.eqb (sort (g_inp (getGate g o) ++ gate_inputs cs o fwd))).
  { destruct (addGate_spec o fwd bwd g) as (_ & _ & S3). cbv zeta in S3. unfold getGate at 1. rewrite S3, nth_set_nth_same by auto. reflexivity. }
  rewrite EI in *. unfold addGate. cbv zeta.
  destruct (fold_used_inputs (negb (isNestedMonotonic g o)) (unique Nat.eqb (sort (g_inp (getGate g o) ++ gate_inputs cs o fwd)))
    (mkGP (roots g) (inputs g) (set_nth (lvar o) (mkGate (Some o) (g_fwd (getGate g o) ++ fwd) (g_bwd (getGate g o) ++ bwd) (negb (isNestedMonotonic g o)) (unique Nat.eqb (sort (g_inp (getGate g o) ++ gate_inputs cs o fwd)))) (gates g)) (remainder g) (S (gate_count g)) (if negb (isNestedMonotonic g o) then monoton_gate_count g else S (monoton_gate_count g))) HL HB) as (A & B).
  split; [exact A|]. intros k. specialize (B k). rewrite negb_true_iff in B. exact B.
Qed.
Lemma filter_set (f : gate -> bool) : forall l i x d, i < length l -> f d = false -> nth i l d = d -> length (filter f (set_nth i x l)) = (if f x then 1 else 0) + length (filter f l).
Proof.
  induction l as [|y l IH]; intros i x d Hi Hd E; [cbn in Hi; lia|]. destruct i as [|i]; cbn [set_nth filter nth] in *.
  - subst y. rewrite Hd. change (set_nth 0 x (d :: l)) with (x :: l). cbn [filter]. destruct (f x); auto.
  - specialize (IH i x d ltac:(cbn in Hi; lia) Hd E). change (set_nth (S i) x (y :: l)) with (y :: set_nth i x l). cbn [filter]. destruct (f y); cbn [length]; lia.
Qed.
Lemma rest_map o f : map (fun c => filter (fun l => negb (lvar l =? lvar o)) (cl cs c)) f = map (fun c => restv o (cl cs c)) f.
Proof. auto. Qed.
Lemma norm_unsat p : unsat (problem (normalizeVariableNames p)) -> unsat (problem p).
Proof. intros H a Ha. destruct (normalize_models p) as (r & _ & _ & H2). destruct (H2 a Ha) as (b & Hb & _). apply (H b Hb). Qed.
Lemma readClauses_app p x y : readClauses (readClauses p x) y = readClauses p (x ++ y).
Proof. unfold readClauses. rewrite fold_left_app. auto. Qed.
Lemma semantic_false R b o fwd bwd hol : Inv cs n R b -> unsat (problem (semantic_formula cs b o fwd bwd hol)) ->
  exists E, (forall c, In c E -> In c cs) /\ (hol = false -> E = []) /\ unsat (map (fun c => restv o (cl cs c)) (fwd ++ bwd) ++ E).
Proof.
  intros HI H. unfold semantic_formula in H. apply norm_unsat in H. unfold gate_constraint in *. rewrite rest_map in H. destruct hol.
  - rewrite readClauses_app in H. eexists. split; [|split; [discriminate|]]. 2:{ intros a Ha. apply (H a). apply readClauses_models. exact Ha. }
    intros c Hc. apply in_map_iff in Hc. destruct Hc as (i & <- & Hi). unfold resolution_environment in Hi. rewrite to_set_in in Hi. apply in_flat_map in Hi. destruct Hi as (d & _ & Hi). apply in_flat_map in Hi. destruct Hi as (l & _ & Hi). apply (i_in _ _ _ _ HI) in Hi. destruct Hi as (_ & Hi). apply cl_bound in Hi. unfold cl. apply nth_In. auto.
  - exists []. split; [intros c []|]. split; auto. rewrite app_nil_r. intros a Ha. apply (H a). apply readClauses_models. auto.
Qed.
Lemma holistic_determined R b o fwd bwd : Inv cs n R b -> (forall c, In c fwd -> In (lneg o) (cl cs c)) -> (forall c, In c bwd -> In o (cl cs c)) -> (forall c, In c (fwd ++ bwd) -> c < length cs) ->
  unsat (problem (semantic_formula cs b o fwd bwd true)) -> determined o.
Proof.
  intros HI HF HB HL HU x (S1 & S2). destruct (semantic_false R b o fwd bwd true HI HU) as (E & HE & _ & HX). apply (HX (make_true x o)). intros c Hc. apply in_app_or in Hc. destruct Hc as [Hc|Hc]; [|apply S1, HE; auto].
  apply in_map_iff in Hc. destruct Hc as (i & <- & Hi). assert (Hin : In (cl cs i) cs) by (unfold cl; apply nth_In, HL; auto). destruct (cl_wf cs n WF i) as (_ & T & _).
  assert (HS : sat_clause x (restv o (cl cs i))). { apply in_app_or in Hi. destruct Hi as [Hi|Hi]; [apply sat_rest; auto; apply S1; auto|]. replace (restv o (cl cs i)) with (restv (lneg o) (cl cs i)) by (unfold restv; rewrite lvar_neg; auto). apply sat_rest; auto; rewrite lneg_invol; auto. }
  destruct HS as (l & Hl & H). exists l. split; auto. apply restv_in in Hl. apply make_true_other; tauto.
Qed.
Lemma recognise_ok R a o fwd bwd : AI R a -> (forall c, In c fwd -> In (lneg o) (cl cs c)) -> (forall c, In c bwd -> In o (cl cs c)) -> (forall c, In c (fwd ++ bwd) -> c < length cs) ->
  (forall c d, In c bwd -> In d fwd -> tautology (resolvent o (cl cs c) (cl cs d))) -> forall r a', recognise cfg cs o fwd bwd a = (r, a') ->
  blist a' = blist a /\ gprob a' = gprob a /\ (sound_solver cfg -> r = true -> negb (isNestedMonotonic (gprob a) o) = true -> (usePatterns cfg = true /\ patternCheck cs o fwd bwd = true) \/ (useSemantic cfg = true /\ functional cs o (fwd ++ bwd)) \/ (useHolistic cfg = true /\ determined o)).
Proof.
  intros HA HF HB HL HT r a' E. unfold recognise in E. destruct (isNestedMonotonic (gprob a) o) eqn:EM; [injection E as <- <-; split; auto; split; auto; intros _ _; discriminate|].
  destruct (usePatterns cfg) eqn:EP; cbn [andb] in E; [destruct (patternCheck cs o fwd bwd) eqn:EC; [injection E as <- <-; split; auto; split; auto|]|].
  all: destruct (useSemantic cfg) eqn:ES; [unfold semanticCheck at 1 in E; destruct (solver cfg (calls a) _) eqn:EV; [injection E as <- <-; split; auto; split; auto; intros SOUND _ _; right; left; split; auto; apply SOUND in EV; destruct (semantic_false R _ _ _ _ _ (a_inv _ _ HA) EV) as (E0 & _ & EN & HU); rewrite (EN eq_refl), app_nil_r in HU; apply (unsat_functional cs n WF); auto|]|].
  all: destruct (useHolistic cfg) eqn:EH; [|injection E as <- <-; split; auto; split; auto; intros _; discriminate].
  all: unfold semanticCheck in E; injection E as E1 <-; split; auto; split; auto; intros SOUND -> _; right; right; split; auto; apply SOUND in E1; apply (holistic_determined R (blist a) o fwd bwd); auto; apply (a_inv _ _ HA).
Qed.

Lemma part_in R a c : AI R a -> In c R -> c < length cs.
Proof. intros HA Hc. assert (H : In c (seq 0 (length cs))) by (eapply Permutation_in; [apply (a_part _ _ HA)|]; apply in_or_app; right; apply in_or_app; auto). apply in_seq in H. lia. Qed.
Definition inq (a : analyzer) (l : lit) : Prop := l < 2 * n /\ marked (gprob a) l.
Lemma isGate_ok R a o : AI R a -> inq a o -> forall r a', isGate cfg cs o a = (r, a') -> exists R', AI R' a' /\ (r = false -> R' = R) /\ length R' <= length R /\ (r = true -> length R' < length R /\ forall l, In l (g_inp (getGate (gprob a') o)) -> inq a' l) /\ (forall l, marked (gprob a) l -> marked (gprob a') l).
Proof.
  intros HA (Ho & HM) r a' E. unfold isGate in E. destruct (Nat.eqb_spec (length (occs (blist a) (lneg o))) 0) as [E0|E0]; [injection E as <- <-; exists R; split; [|split; [|split; [|split]]]; auto; discriminate|].
  destruct (isBlockedSet cs o (blist a)) as (bl, b1) eqn:EB. destruct (set_ok cs n R _ o (a_inv _ _ HA) (a_ci _ _ HA) Ho _ _ EB) as (_ & EI & HI1 & HC1).
  assert (HA1 : AI R (mkGA b1 (gprob a) (calls a))) by (destruct HA; split; auto).
  destruct bl; [|injection E as <- <-; exists R; split; [|split; [|split; [|split]]]; auto; discriminate].
  set (fwd := occs b1 (lneg o)) in *. set (bwd := occs b1 o) in *.
  assert (HF : forall c, In c fwd -> In (lneg o) (cl cs c)) by (intros c Hc; apply (i_in _ _ _ _ HI1) in Hc; tauto). assert (HB : forall c, In c bwd -> In o (cl cs c)) by (intros c Hc; apply (i_in _ _ _ _ HI1) in Hc; tauto).
  assert (HR : forall c, In c (fwd ++ bwd) -> In c R) by (intros c Hc; apply in_app_or in Hc; destruct Hc as [Hc|Hc]; apply (i_in _ _ _ _ HI1) in Hc; tauto).
  assert (HT : forall c d, In c bwd -> In d fwd -> tautology (resolvent o (cl cs c) (cl cs d))).
  { pose proof (set_true cs n R _ o _ (a_inv _ _ HA) (a_ci _ _ HA) Ho EB) as HX. intros c d Hc Hd. apply (proj1 (all_blocked_iff cs n WF R _ o (a_inv _ _ HA)) HX); [apply HR, in_or_app; auto|auto|apply HR, in_or_app; auto|auto]. }
  assert (NF : NoDup (fwd ++ bwd)). { apply nodup_app; [apply (i_nd _ _ _ _ HI1)|apply (i_nd _ _ _ _ HI1)|]. intros c H1 H2. destruct (cl_wf cs n WF c) as (_ & T & _). apply T. exists o. auto. }
  destruct (recognise cfg cs o fwd bwd _) as (rr, a2) eqn:ER. destruct (recognise_ok R _ o fwd bwd HA1 HF HB) with (r := rr) (a' := a2) as (EB2 & EG2 & HW); auto; [intros c Hc; apply (part_in R a c HA); auto|].
  cbn [blist gprob] in EB2, EG2, HW.
  destruct rr; [|injection E as <- <-; exists R; split; [|split; [|split; [|split]]]; auto; [|discriminate|rewrite EG2; auto]; destruct HA1; cbn [blist gprob] in *; split; rewrite ?EB2, ?EG2; auto].
  assert (HW' : sound_solver cfg -> negb (isNestedMonotonic (gprob a) o) = true -> _) by (intros SO; exact (HW SO eq_refl)). destruct (addGate_spec o fwd bwd (gprob a2)) as (S1 & S2 & S3). rewrite EG2 in *. set (g := addGate cs o fwd bwd (gprob a)) in *.
  assert (HV : lvar o < n) by (apply lvar_lt; auto).
  assert (HO : getGate (gprob a) o = gate_none).
  { unfold getGate. destruct (a_gate _ _ HA (lvar o) HV) as [H|(o' & Ev & _ & HN)]; auto. exfalso. apply E0. rewrite <- (occs_index (blist a) b1 (lneg o) EI). fold fwd. destruct fwd as [|c f] eqn:Ef; auto. exfalso.
    assert (Hc : In c R) by (apply HR; left; auto). specialize (HF c (or_introl eq_refl)). destruct (HN c Hc) as (N1 & N2). destruct (same_var _ _ Ev) as [->| ->]; auto. }
  rewrite HO in S3. cbn [g_fwd g_bwd g_inp gate_none app] in S3. set (gt := mkGate (Some o) fwd bwd (negb (isNestedMonotonic (gprob a) o)) (unique Nat.eqb (sort (gate_inputs cs o fwd)))). change (gates g = set_nth (lvar o) gt (gates (gprob a))) in S3.
  assert (EGT : getGate g o = gt) by (unfold getGate; rewrite S3; apply nth_set_nth_same; rewrite (a_len _ _ HA); auto).
  rewrite EGT in E. cbn [g_fwd g_bwd gt] in E. injection E as <- <-.
  destruct (remove_ok cs n WF fwd R (blist a2)) as (R1 & I1 & C1 & M1); [rewrite EB2; auto|rewrite EB2; auto|]. destruct (remove_ok cs n WF bwd R1 _ I1 C1) as (R2 & I2 & C2 & M2).
  set (R' := filter (fun c => negb (existsb (Nat.eqb c) (fwd ++ bwd))) R).
  assert (MR : forall c, In c R' <-> In c R /\ ~ In c (fwd ++ bwd)) by (intros c; unfold R'; rewrite filter_In, negb_true_iff, <- (mem_spec c (fwd ++ bwd)); destruct (existsb _ _); intuition congruence).
  pose proof (perm_remove R (fwd ++ bwd) (a_nd _ _ HA) NF HR) as PR. fold R' in PR.
  assert (LR : length R' < length R). { apply Permutation_length in PR. rewrite app_length, app_length in PR. assert (length fwd <> 0) by (unfold fwd; rewrite (occs_index (blist a) b1) by auto; auto). lia. }
  destruct (a_used _ _ HA) as (UL & UM & UG).
  assert (IC : forall l, In l (g_inp gt) -> l < 2 * n /\ l <> lneg o /\ exists c, In c R /\ In l (cl cs c) /\ In (lneg o) (cl cs c)).
  { intros l Hl. unfold gt in Hl. cbn [g_inp] in Hl. change (In l (to_set (gate_inputs cs o fwd))) in Hl. rewrite to_set_in in Hl. apply in_flat_map in Hl. destruct Hl as (c & Hc & Hl). apply filter_In in Hl. destruct Hl as (Hl & Hn). rewrite negb_true_iff, Nat.eqb_neq in Hn. split; [apply (cl_wf cs n WF c); auto|]. split; auto. exists c. split; [apply HR, in_or_app; auto|auto]. }
  destruct (addGate_inputs o fwd bwd (gprob a) UL) as (UL' & UM'); [fold g; rewrite EGT; intros l Hl; apply IC; auto|rewrite (a_len _ _ HA); auto|]. fold g in UL', UM'. rewrite EGT in UM'.
  exists R'. split; [|split; [discriminate|split; [lia|split]]].
  2:{ intros _. split; auto. cbn [gprob]. intros l Hl. rewrite EGT in Hl. split; [apply IC; auto|]. cbn [gprob]. apply UM'. auto. }
  2:{ intros l Hl. cbn [gprob]. apply UM'. auto. }
  split; cbn [blist gprob].
  - apply (Inv_ext cs n R2); auto. intros c. rewrite M2, M1, MR, in_app_iff. tauto.
  - auto.
  - apply NoDup_filter, (a_nd _ _ HA).
  - rewrite S3, set_nth_length. apply (a_len _ _ HA).
  - rewrite S1, S3. rewrite <- (a_part _ _ HA). apply Permutation_app_head.
 rewrite (flat_map_set gate_clauses (gates (gprob a)) (lvar o) gt gate_none); [|rewrite (a_len _ _ HA); auto|unfold getGate in HO; rewrite HO; auto].
    change (gate_clauses gt) with (fwd ++ bwd). rewrite <- app_assoc, Permutation_app_comm, <- app_assoc. apply Permutation_app_head. rewrite Permutation_app_comm. symmetry. auto.
  - rewrite S2. apply (a_rem _ _ HA).
  - intros c Hc En. apply MR. split; [apply (a_empty _ _ HA); auto|]. intros Hx. apply in_app_or in Hx. destruct Hx as [Hx|Hx]; [apply HF in Hx|apply HB in Hx]; rewrite En in Hx; destruct Hx.
  - intros v Hv. rewrite S3. destruct (Nat.eq_dec v (lvar o)) as [->|Hne].
    + right. exists o. rewrite nth_set_nth_same by (rewrite (a_len _ _ HA); auto). split; auto. split.
      * split; cbn [gt g_out g_fwd g_bwd g_notMono g_inp]; auto.
        -- unfold fwd. rewrite (occs_index (blist a) b1) by auto. intros EE. apply E0. rewrite EE. auto.
        -- intros l. change (In l (to_set (gate_inputs cs o fwd)) <-> exists c, In c fwd /\ In l (cl cs c) /\ l <> lneg o). rewrite to_set_in. unfold gate_inputs. rewrite in_flat_map. split; intros (c & Hc & H); exists c; split; auto; rewrite filter_In, negb_true_iff, Nat.eqb_neq in *; auto.
        -- apply to_set_nodup.
      * intros c Hc. apply MR in Hc. destruct Hc as (Hc & HNc). rewrite in_app_iff in HNc. unfold fwd, bwd in HNc. rewrite !(i_in _ _ _ _ HI1) in HNc. tauto.
    + rewrite nth_set_nth_other by auto. destruct (a_gate _ _ HA v Hv) as [H|(o' & Ev & HG & HN)]; auto. right. exists o'. split; auto. split; auto. intros c Hc. apply MR in Hc. apply HN. tauto.
  - rewrite S3. destruct (a_order _ _ HA) as (L & LN & LD & LO). exists (lvar o :: L).
    assert (NL : ~ In (lvar o) L) by (rewrite LD; unfold getGate in HO; rewrite HO; cbn; auto).
    assert (ND : forall v, v <> lvar o -> nth v (set_nth (lvar o) gt (gates (gprob a))) gate_none = nth v (gates (gprob a)) gate_none) by (intros v Hv; apply nth_set_nth_other; auto).
    assert (NS : nth (lvar o) (set_nth (lvar o) gt (gates (gprob a))) gate_none = gt) by (apply nth_set_nth_same; rewrite (a_len _ _ HA); auto).
    split; [constructor; auto|]. split.
    + intros v. destruct (Nat.eq_dec v (lvar o)) as [->|Hne]; [rewrite NS; cbn; intuition discriminate|]. rewrite (ND v Hne). cbn [In]. rewrite <- LD. intuition congruence.
    + intros x u y Ex l Hl. destruct x as [|z x]; injection Ex as E1 E2; subst.
      * rewrite NS in Hl. cbn [g_inp gt] in Hl. change (In l (to_set (gate_inputs cs o fwd))) in Hl. rewrite to_set_in in Hl. apply in_flat_map in Hl. destruct Hl as (c & Hc & Hl). apply filter_In in Hl. destruct Hl as (Hl & Hn).
        rewrite negb_true_iff, Nat.eqb_neq in Hn. intros [Hv|Hv].
        -- destruct (cl_wf cs n WF c) as (_ & T & _). apply T. exists o. pose proof (HF c Hc). destruct (same_var _ _ (eq_sym Hv)) as [->| ->]; [auto|congruence].
        -- pose proof (proj1 (LD _) Hv) as Hd. assert (Hvn : lvar l < n) by (apply lvar_lt, (cl_wf cs n WF c); auto).
           destruct (a_gate _ _ HA (lvar l) Hvn) as [H|(o' & Ev & _ & HN)]; [rewrite H in Hd; apply Hd; auto|].
           destruct (HN c (HR c (in_or_app _ _ _ (or_introl Hc)))) as (N1 & N2). destruct (same_var _ _ Ev) as [->| ->]; [apply N1; auto|apply N2; rewrite lneg_invol; auto].
      * assert (Hu : In u (x ++ u :: y)) by (apply in_or_app; right; left; auto). rewrite (ND u) in Hl by (intros ->; auto). apply (LO x u y eq_refl l Hl).
  - destruct (a_cnt _ _ HA) as (K1 & K2). destruct (addGate_count o fwd bwd (gprob a)) as (C3 & C4). fold g in C3, C4. unfold counted. rewrite C3, C4, S3, K1, K2. unfold getGate in HO.
    rewrite !(filter_set _ _ _ _ gate_none) by (auto; rewrite (a_len _ _ HA); auto). unfold gt, has_out. cbn [g_out g_notMono andb]. rewrite negb_involutive. destruct (isNestedMonotonic (gprob a) o); auto.
  - assert (ND : forall v, v <> lvar o -> nth v (gates g) gate_none = nth v (gates (gprob a)) gate_none) by (intros v Hv; rewrite S3; apply nth_set_nth_other; auto).
    assert (NS : nth (lvar o) (gates g) gate_none = gt) by exact EGT.
    assert (FAR : forall q, lvar q = lvar o -> ~ In q (g_inp gt)).
    { intros q Eq Hq. destruct (IC q Hq) as (_ & Hne & c & _ & Hc & Hn). destruct (cl_wf cs n WF c) as (_ & T & _). apply T. exists o. destruct (same_var _ _ Eq) as [->| ->]; [auto|congruence]. }
    split; [exact UL'|]. split.
    + intros k. rewrite UM', UM. unfold used. rewrite S1. split.
      * intros [[H|(u & Hu)]|H]; [auto| |].
        -- right. exists u. destruct (Nat.eq_dec u (lvar o)) as [->|Hne]; [unfold getGate in HO; rewrite HO in Hu; cbn in Hu; destruct Hu as [[]|(_ & [])]|]. rewrite (ND u Hne). auto.
        -- right. exists (lvar o). rewrite NS. destruct H as [H|(H1 & H2)]; [auto|right]. split; auto. unfold gt. cbn [g_notMono]. rewrite H1. auto.
      * intros [H|(u & Hu)]; auto. destruct (Nat.eq_dec u (lvar o)) as [->|Hne]; [|rewrite (ND u Hne) in Hu; left; right; exists u; auto]. rewrite NS in Hu. destruct Hu as [H|(H1 & H2)]; auto. right. right. split; auto. unfold gt in H1. cbn [g_notMono] in H1. apply negb_true_iff in H1. auto.
    + intros v q Hq. destruct (Nat.eq_dec v (lvar o)) as [->|Hne].
      * rewrite NS in Hq |- *. injection Hq as <-. split; [apply UM'; auto|]. unfold gt at 1. cbn [g_notMono]. rewrite UM'. split.
        -- intros H. left. apply negb_true_iff, negb_false_iff in H. unfold isNestedMonotonic in H. apply andb_true_iff in H. exact (proj2 H).
        -- intros [H|[H|(_ & H)]]; [|exfalso; apply (FAR (lneg o)); auto; apply lvar_neg|exfalso; rewrite lneg_invol in H; apply (FAR o); auto]. unfold isNestedMonotonic. unfold marked in H, HM. rewrite H, HM. auto.
      * rewrite (ND v Hne) in Hq |- *. destruct (UG v q Hq) as (G1 & G2). split; [apply UM'; auto|]. rewrite G2, UM'.
        assert (Hvn : v < n). { destruct (Nat.lt_ge_cases v n) as [H|H]; auto. rewrite nth_overflow in Hq by (rewrite (a_len _ _ HA); auto). discriminate. }
        destruct (a_gate _ _ HA v Hvn) as [H|(o' & Ev & HG & HN)]; [rewrite H in Hq; discriminate|]. assert (o' = q) by (pose proof (gd_out _ _ HG) as HH; congruence). subst o'.
        assert (FQ : forall k, k = q \/ k = lneg q -> ~ In k (g_inp gt)) by (intros k Hk Hin; destruct (IC k Hin) as (_ & _ & c & Hc & Hkc & _); destruct (HN c Hc); destruct Hk as [->| ->]; auto).
        split; auto. intros [H|[H|(_ & H)]]; auto; exfalso; [apply (FQ (lneg q)); auto|rewrite lneg_invol in H; apply (FQ q); auto].
Qed.

Lemma try_ok : forall cand R a fr, AI R a -> (forall l, In l cand -> inq a l) -> (forall l, In l fr -> inq a l) -> forall f a', try_candidates cfg cs cand fr a = (f, a') ->
  exists R', AI R' a' /\ length R' <= length R /\ (forall l, In l f -> inq a' l) /\ (f = fr \/ length R' < length R).
Proof.
  induction cand as [|o cand IH]; intros R a fr HA HC HFr f a' E; cbn [try_candidates] in E.
  - injection E as <- <-. exists R. split; auto.
  - destruct (isGate cfg cs o a) as (b, a1) eqn:EG. destruct (isGate_ok R a o HA (HC o (or_introl eq_refl)) _ _ EG) as (R1 & A1 & A2 & A3 & A4 & A5). assert (A6 : forall l, inq a l -> inq a1 l) by (intros l (H1 & H2); split; auto).
    edestruct IH as (R2 & B1 & B2 & B3 & B4); [exact A1|exact (fun l H => A6 l (HC l (or_intror H)))| |exact E|].
    + destruct b; auto. intros l Hl. apply in_app_or in Hl. destruct Hl as [Hl|Hl]; auto. apply A4; auto.
    + exists R2. split; auto. split; [lia|]. split; auto. destruct b; [right; destruct (A4 eq_refl); lia|]. rewrite (A2 eq_refl) in *. auto.
Qed.
Lemma recognition_ok : forall fuel R a fr, AI R a -> (forall l, In l fr -> inq a l) -> length R < fuel -> exists a' R', gate_recognition fuel cfg cs fr a = Ok a' /\ AI R' a' /\ length R' <= length R.
Proof.
  induction fuel as [|fuel IH]; intros R a fr HA HF HL; [lia|]. destruct fr as [|o fr]; [exists a, R; cbn; auto|]. cbn [gate_recognition]. destruct (try_candidates cfg cs (o :: fr) [] a) as (f, a1) eqn:E.
  destruct (try_ok (o :: fr) R a [] HA HF (fun l H => match H with end) _ _ E) as (R1 & B1 & B2 & B3 & B4). destruct B4 as [->|B4].
  - exists a1, R1. destruct fuel; cbn; auto.
  - destruct (IH R1 a1 f B1 B3) as (a' & R' & C1 & C2 & C3); [lia|]. exists a', R'. split; auto. split; auto. lia.
Qed.
Lemma add_roots_count : forall rs g, let g' := add_roots cs rs g in gate_count g' = gate_count g /\ monoton_gate_count g' = monoton_gate_count g.
Proof.
  induction rs as [|c rs IH]; intros g; cbv zeta; [auto|]. unfold add_roots in *. cbn [fold_left]. cbv zeta in IH. match goal with |- context [fold_left _ rs ?g] => destruct (IH g) as (A & A') end.
  rewrite A, A'. assert (E : forall ls g, let g' := fold_left (fun g l => setUsedAsInput l g) ls g in gate_count g' = gate_count g /\ monoton_gate_count g' = monoton_gate_count g). { clear. induction ls as [|l ls IH]; intros g; cbn [fold_left]; auto. destruct (IH (setUsedAsInput l g)) as (B & B'). cbv zeta. rewrite B, B'. auto. }
  destruct (E (cl cs c) (mkGP (roots g ++ [c]) (inputs g) (gates g) (remainder g) (gate_count g) (monoton_gate_count g))) as (B & B'). rewrite B, B'. auto.
Qed.
Lemma add_roots_spec : forall rs g, let g' := add_roots cs rs g in roots g' = roots g ++ rs /\ gates g' = gates g /\ remainder g' = remainder g.
Proof.
  induction rs as [|c rs IH]; intros g; cbv zeta; [cbn; rewrite app_nil_r; auto|]. unfold add_roots in *. cbn [fold_left]. cbv zeta in IH. match goal with |- context [fold_left _ rs ?g] => destruct (IH g) as (A & A' & A'') end.
  rewrite A, A', A''. assert (E : forall ls g, let g' := fold_left (fun g l => setUsedAsInput l g) ls g in roots g' = roots g /\ gates g' = gates g /\ remainder g' = remainder g). { clear. induction ls as [|l ls IH]; intros g; cbn [fold_left]; auto. destruct (IH (setUsedAsInput l g)) as (B & B' & B''). cbv zeta. rewrite B, B', B''. auto. }
  destruct (E (cl cs c) (mkGP (roots g ++ [c]) (inputs g) (gates g) (remainder g) (gate_count g) (monoton_gate_count g))) as (B & B' & B''). rewrite B, B', B''. cbn [roots gates remainder]. rewrite <- app_assoc. auto.
Qed.
Lemma add_roots_inputs : forall rs g, length (inputs g) = 2 * n -> let g' := add_roots cs rs g in length (inputs g') = 2 * n /\ forall k, marked g' k <-> marked g k \/ In k (flat_map (cl cs) rs).
Proof.
  assert (E : forall ls g, length (inputs g) = 2 * n -> (forall l, In l ls -> l < 2 * n) -> let g' := fold_left (fun g l => setUsedAsInput l g) ls g in length (inputs g') = 2 * n /\ forall k, marked g' k <-> marked g k \/ In k ls).
  { induction ls as [|l ls IH]; intros g HL HB; cbv zeta; cbn [fold_left In]; [split; auto; intros k; intuition|]. cbv zeta in IH. assert (L1 : length (inputs (setUsedAsInput l g)) = 2 * n) by (unfold setUsedAsInput; cbn [inputs]; rewrite set_nth_length; auto). destruct (IH (setUsedAsInput l g) L1) as (A & B); [intros k Hk; apply HB; right; auto|]. split; auto. intros k. rewrite B, set_used by (rewrite HL; apply HB; left; auto). intuition congruence. }
  induction rs as [|c rs IH]; intros g HL; cbv zeta; [split; auto; intros k; cbn; intuition|]. unfold add_roots in *. cbn [fold_left flat_map]. cbv zeta in IH.
  destruct (E (cl cs c) (mkGP (roots g ++ [c]) (inputs g) (gates g) (remainder g) (gate_count g) (monoton_gate_count g)) HL) as (B & B'); [intros l Hl; apply (cl_wf cs n WF c); auto|]. cbv zeta in B, B'.
  destruct (IH _ B) as (C & C'). split; [exact C|]. intros k. rewrite C', B', in_app_iff. unfold marked. cbn [inputs]. intuition.
Qed.
(** roots taken from the block list *)
Lemma roots_ok R a rs b' : AI R a -> Inv cs n (filter (fun c => negb (existsb (Nat.eqb c) rs)) R) b' -> CI cs n b' -> NoDup rs -> (forall c, In c rs -> In c R /\ cl cs c <> []) -> AI (filter (fun c => negb (existsb (Nat.eqb c) rs)) R) (mkGA b' (add_roots cs rs (gprob a)) (calls a)).
Proof.
  intros HA HI HC HN HR. destruct (add_roots_spec rs (gprob a)) as (S1 & S2 & S3). pose proof (perm_remove R rs (a_nd _ _ HA) HN (fun c H => proj1 (HR c H))) as PR. split; cbn [blist gprob]; auto.
  - apply NoDup_filter, (a_nd _ _ HA).
  - rewrite S2. apply (a_len _ _ HA).
  - rewrite S1, S2, <- (a_part _ _ HA), <- app_assoc. apply Permutation_app_head. rewrite (Permutation_app_comm rs), <- app_assoc. apply Permutation_app_head. rewrite Permutation_app_comm. symmetry. auto.
  - rewrite S3. apply (a_rem _ _ HA).
  - intros c Hc En. apply filter_In. rewrite negb_true_iff. split; [apply (a_empty _ _ HA); auto|]. destruct (existsb (Nat.eqb c) rs) eqn:EX; auto. apply mem_spec in EX. apply HR in EX. destruct EX. contradiction.
  - intros v Hv. rewrite S2. destruct (a_gate _ _ HA v Hv) as [H|(o' & Ev & HG & HX)]; auto. right. exists o'. split; auto. split; auto. intros c Hc. apply filter_In in Hc. apply HX. tauto.
  - rewrite S2. apply (a_order _ _ HA).
  - destruct (add_roots_count rs (gprob a)) as (C3 & C4). destruct (a_cnt _ _ HA) as (K1 & K2). unfold counted. rewrite C3, C4, S2. auto.
  - destruct (a_used _ _ HA) as (UL & UM & UG). destruct (add_roots_inputs rs (gprob a) UL) as (UL' & UM'). split; [exact UL'|]. split.
    + intros k. rewrite UM', UM. unfold used. rewrite S1, S2, flat_map_app, in_app_iff. intuition.
    + intros v q. rewrite S2. intros Hq. destruct (UG v q Hq) as (G1 & G2). split; [apply UM'; auto|]. rewrite G2, UM'. split; auto. intros [H|H]; auto. exfalso.
      assert (Hvn : v < n). { destruct (Nat.lt_ge_cases v n) as [H'|H']; auto. rewrite nth_overflow in Hq by (rewrite (a_len _ _ HA); auto). discriminate. }
      destruct (a_gate _ _ HA v Hvn) as [H'|(o' & Ev & HG & HN')]; [rewrite H' in Hq; discriminate|]. assert (o' = q) by (pose proof (gd_out _ _ HG) as HH; congruence). subst o'.
      apply in_flat_map in H. destruct H as (c & Hc & H). apply (HN' c); auto. apply HR. auto.
Qed.
Lemma filter_mem rs (R : list nat) c : In c (filter (fun c => negb (existsb (Nat.eqb c) rs)) R) <-> In c R /\ ~ In c rs.
Proof. rewrite filter_In, negb_true_iff, <- (mem_spec c rs). destruct (existsb _ _); intuition congruence. Qed.
Lemma part_len R a : AI R a -> length R <= length cs.
Proof. intros HA. pose proof (Permutation_length (a_part _ _ HA)) as H. rewrite !app_length, seq_length in H. lia. Qed.

Lemma loop_ok : forall fuel R a count, AI R a -> (count = 0 -> forall c, In c R <-> c < length cs) -> length R + (if count =? 0 then 2 else 1) <= fuel -> exists a' R', analyze_loop fuel cfg cs n count a = Ok a' /\ AI R' a'.
Proof.
  induction fuel as [|fuel IH]; intros R a count HA H0 HL; [destruct (count =? 0); lia|]. cbn [analyze_loop]. destruct (_ && _); [|exists a, R; auto]. destruct (Nat.eqb_spec count 0) as [->|Hc].
  - set (rs := unit_ids cs). assert (HR : forall c, In c rs -> In c R /\ cl cs c <> []) by (intros c Hc; unfold rs, unit_ids in Hc; apply filter_In in Hc; destruct Hc as (Hc & EL); apply in_seq in Hc; split; [apply (H0 eq_refl); lia|intros EN; rewrite EN in EL; discriminate]).
    assert (HN : NoDup rs) by apply NoDup_filter, seq_NoDup. destruct (remove_ok cs n WF rs R _ (a_inv _ _ HA) (a_ci _ _ HA)) as (R1 & I1 & C1 & M1).
    assert (HA2 : AI (filter (fun c => negb (existsb (Nat.eqb c) rs)) R) (mkGA (bl_remove cs rs (blist a)) (add_roots cs rs (gprob a)) (calls a))). { apply roots_ok; auto. apply (Inv_ext cs n R1); auto. intros c. rewrite M1, filter_mem. reflexivity. }
    assert (LR : length (filter (fun c => negb (existsb (Nat.eqb c) rs)) R) <= length R) by (clear; induction R as [|x l IH]; cbn; auto; destruct (negb _); cbn; lia). cbv beta iota.
    destruct rs as [|c0 rs0] eqn:Ers.
    + apply (IH _ _ 1 HA2); [discriminate|]. cbn [Nat.eqb]. lia.
    + rewrite <- Ers in *. destruct (recognition_ok (S (length cs)) _ _ (flat_map (cl cs) rs) HA2) as (a3 & R3 & E3 & A3 & L3).
      * intros l Hl. split; [apply in_flat_map in Hl; destruct Hl as (c & _ & Hl); apply (cl_wf cs n WF c); auto|]. cbn [gprob]. apply add_roots_inputs; [apply (a_used _ _ HA)|auto].
      * pose proof (part_len R a HA). lia.
      * rewrite E3. cbn [bind]. apply (IH R3 a3 1 A3); [discriminate|]. cbn [Nat.eqb]. lia.
  - destruct (getMinimallyUnblockedLiteral cs n (blist a)) as (ol, b1) eqn:EM. destruct (min_ok cs n R _ (a_inv _ _ HA) (a_ci _ _ HA) _ _ EM) as (I1 & C1 & EI & HM). destruct ol as [o|]; cbv beta iota.
    + destruct HM as (Ho & HU & _). destruct (stripUnblockedClauses cs o b1) as (rs, b2) eqn:ES. destruct (strip_ok cs n WF R b1 o I1 C1 Ho _ _ ES) as (N1 & M1 & R2 & I2 & C2 & M2). cbv beta iota.
      assert (HR : forall c, In c rs -> In c R /\ cl cs c <> []) by (intros c Hcc; apply M1 in Hcc; destruct Hcc as (Hcc & _); apply (i_in _ _ _ _ I1) in Hcc; destruct Hcc as (Hcc & Hco); split; auto; intros EN; rewrite EN in Hco; destruct Hco).
      assert (NE : rs <> []). { intros ->. pose proof (filter_split (isBlocked cs b1 o) (occs b1 o)) as HS. unfold ub, cnt in HU. rewrite !(occs_index (blist a) b1) in HS by auto. rewrite (filter_ext (isBlocked cs b1 o) (isBlocked cs (blist a) o)) in HS by (intros c; apply isBlocked_ext, occs_index; auto).
        destruct (filter (fun x => negb (isBlocked cs b1 o x)) (occs (blist a) o)) as [|c f] eqn:EF; [cbn [length] in HS; lia|]. assert (HX : In c (c :: f)) by (left; auto). rewrite <- EF in HX. apply filter_In in HX. rewrite negb_true_iff in HX. rewrite <- (occs_index (blist a) b1) in HX by auto. apply M1 in HX. destruct HX. }
      assert (HA1 : AI R (mkGA b1 (gprob a) (calls a))) by (destruct HA; split; auto).
      assert (HA2 : AI (filter (fun c => negb (existsb (Nat.eqb c) rs)) R) (mkGA b2 (add_roots cs rs (gprob a)) (calls a))). { apply (roots_ok R _ rs b2 HA1); auto. apply (Inv_ext cs n R2); auto. intros c. rewrite M2, filter_mem. reflexivity. }
      assert (LR : length (filter (fun c => negb (existsb (Nat.eqb c) rs)) R) < length R). { pose proof (Permutation_length (perm_remove R rs (a_nd _ _ HA) N1 (fun c H => proj1 (HR c H)))) as PL. rewrite app_length in PL. destruct rs; [contradiction|cbn [length] in PL]. lia. }
      destruct rs as [|c0 rs0] eqn:Ers; [contradiction|]. rewrite <- Ers in *.
      destruct (recognition_ok (S (length cs)) _ _ (flat_map (cl cs) rs) HA2) as (a3 & R3 & E3 & A3 & L3).
      * intros l Hl. split; [apply in_flat_map in Hl; destruct Hl as (c & _ & Hl); apply (cl_wf cs n WF c); auto|]. cbn [gprob]. apply add_roots_inputs; [apply (a_used _ _ HA)|auto].
      * pose proof (part_len R a HA). lia.
      * rewrite E3. cbn [bind]. apply (IH R3 a3 (S count) A3); [discriminate|]. cbn [Nat.eqb]. lia.
    + exists (mkGA b1 (gprob a) (calls a)), R. split; auto. destruct HA; split; auto.
Qed.
Lemma init_ok : AI (seq 0 (length cs)) (mkGA (bl_new n cs) (gp_new n) 0).
Proof.
  destruct (new_ok cs n WF) as (I & C). split; cbn [blist gprob gp_new gates roots remainder]; auto; [apply seq_NoDup|apply repeat_length| |intros c Hc _; apply in_seq; lia| | | |].
  - cbn [app]. assert (E : flat_map gate_clauses (repeat gate_none n) = []) by (clear; induction n; cbn; auto). rewrite E. auto.
  - intros v Hv. left. apply nth_repeat.
  - exists []. split; [constructor|]. split; [|intros [|] u y E; discriminate]. intros v. rewrite nth_repeat. cbn. intuition.
  - unfold counted. cbn [gp_new gate_count monoton_gate_count gates]. clear. induction n; cbn; auto.
  - split; [apply repeat_length|]. split.
    + intros l. unfold marked, used, gp_new. cbn [inputs roots gates flat_map]. rewrite nth_repeat. split; [discriminate|]. intros [[]|(u & H)]. rewrite nth_repeat in H. cbn in H. destruct H as [[]|(_ & [])].
    + intros v o. unfold gp_new. cbn [gates]. rewrite nth_repeat. discriminate.
Qed.
Lemma index_mem R b c : Inv cs n R b -> (existsb (fun h => existsb (Nat.eqb c) h) (index b) = true <-> In c R /\ cl cs c <> []).
Proof.
  intros HI. rewrite existsb_exists. split.
  - intros (h & Hh & E). apply mem_spec in E. apply (In_nth _ _ []) in Hh. destruct Hh as (l & Hl & <-). apply (i_in _ _ _ _ HI) in E. destruct E as (E1 & E2). split; auto. intros E. rewrite E in E2. destruct E2.
  - intros (Hc & Hn). destruct (cl cs c) as [|l r] eqn:E; [contradiction|]. assert (Hl : In l (cl cs c)) by (rewrite E; left; auto). exists (occs b l). split; [|apply mem_spec, (i_in _ _ _ _ HI); auto]. unfold occs. apply nth_In. rewrite (i_len _ _ _ _ HI). apply (cl_wf cs n WF c). auto.
Qed.
End A.

Lemma analyze_ok cfg p : wf_problem (variables p) (problem p) ->
  exists g, analyze cfg p = Ok g /\ length (gates g) = variables p /\
    Permutation (roots g ++ flat_map gate_clauses (gates g) ++ remainder g ++ filter (fun c => match cl (problem p) c with [] => true | _ => false end) (seq 0 (length (problem p)))) (seq 0 (length (problem p))) /\
    (forall v, v < variables p -> nth v (gates g) gate_none = gate_none \/ exists o, lvar o = v /\ good cfg (problem p) (variables p) o (nth v (gates g) gate_none)) /\ recognised (gates g).
Proof.
  intros WF. unfold analyze. set (cs := problem p) in *. set (n := variables p) in *.
  destruct (loop_ok cfg cs n WF (S (S (length cs))) _ _ 0 (init_ok cfg cs n WF)) as (a & R & E & HA).
  - intros _ c. rewrite in_seq. lia.
  - cbn [Nat.eqb]. rewrite seq_length. lia.
  - rewrite E. cbn [bind]. eexists. split; [reflexivity|]. cbn [gates roots remainder]. rewrite (a_rem _ _ _ _ _ HA). cbn [app]. split; [apply (a_len _ _ _ _ _ HA)|]. split.
    + rewrite <- (a_part _ _ _ _ _ HA) at 2. apply Permutation_app_head, Permutation_app_head. unfold remaining.
      apply NoDup_Permutation.
      * apply nodup_app; [apply NoDup_filter, seq_NoDup|apply NoDup_filter, seq_NoDup|]. intros c H1 H2. apply filter_In in H1. apply filter_In in H2. destruct H1 as (_ & H1). apply (index_mem cs n WF R _ c (a_inv _ _ _ _ _ HA)) in H1. destruct H1 as (_ & H1), H2 as (_ & H2). destruct (cl cs c); [contradiction|discriminate].
      * apply (a_nd _ _ _ _ _ HA).
      * intros c. rewrite in_app_iff, !filter_In, (index_mem cs n WF R _ c (a_inv _ _ _ _ _ HA)), in_seq. split.
        -- intros [(_ & H & _)|(H & E1)]; auto. apply (a_empty _ _ _ _ _ HA); [lia|]. destruct (cl cs c); [auto|discriminate].
        -- intros H. pose proof (part_in cfg cs n R a c HA H) as HL. destruct (cl cs c); [right|left]; repeat split; auto; try lia. discriminate.
    + split; [|apply (a_order _ _ _ _ _ HA)]. intros v Hv. destruct (a_gate _ _ _ _ _ HA v Hv) as [H|(o & Ev & HG & _)]; auto. right. exists o. auto.
Qed.
Lemma analyze_used cfg p g : wf_problem (variables p) (problem p) -> analyze cfg p = Ok g -> uses (problem p) (variables p) g /\ recognised (gates g).
Proof.
  intros WF. unfold analyze. set (cs := problem p) in *. set (n := variables p) in *.
  destruct (loop_ok cfg cs n WF (S (S (length cs))) _ _ 0 (init_ok cfg cs n WF)) as (a & R & E & HA).
  - intros _ c. rewrite in_seq. lia.
  - cbn [Nat.eqb]. rewrite seq_length. lia.
  - rewrite E. cbn [bind]. intros EQ. injection EQ as <-. split; [exact (a_used _ _ _ _ _ HA)|exact (a_order _ _ _ _ _ HA)].
Qed.
Lemma monotone_ok cfg p g v o : wf_problem (variables p) (problem p) -> analyze cfg p = Ok g -> g_out (nth v (gates g) gate_none) = Some o ->
  occurs (flat_map (cl (problem p)) (roots g)) (gates g) o /\ (g_notMono (nth v (gates g) gate_none) = true <-> occurs (flat_map (cl (problem p)) (roots g)) (gates g) (lneg o)).
Proof.
  intros WF HA HO. destruct (analyze_ok cfg p WF) as (g' & E' & HL & _ & HG & _). rewrite HA in E'. injection E' as <-. destruct (analyze_used cfg p g WF HA) as ((_ & UM & UG) & (L & LN & LD & LO)). set (rl := flat_map (cl (problem p)) (roots g)) in *. set (gs := gates g) in *.
  assert (VO : forall u q, g_out (nth u gs gate_none) = Some q -> lvar q = u). { intros u q H. destruct (Nat.lt_ge_cases u (variables p)) as [Hu|Hu]; [|rewrite nth_overflow in H by (unfold gs in *; rewrite HL; auto); discriminate]. destruct (HG u Hu) as [N|(o' & Ev & G)]; [fold gs in N; rewrite N in H; discriminate|]. pose proof (gd_out _ _ _ _ _ G). congruence. }
  assert (OM : forall l, occurs rl gs l -> marked g l).
  { intros l H. induction H as [l H|u q l _ IH Hq Hl|u q l _ IH Hq Hl]; apply UM.
    - left. auto.
    - right. exists u. auto.
    - right. exists u. right. split; auto. apply (UG u q Hq). auto. }
  assert (KEY : forall y x, L = x ++ y -> forall u q, In u y -> g_out (nth u gs gate_none) = Some q -> occurs rl gs q /\ (g_notMono (nth u gs gate_none) = true -> occurs rl gs (lneg q))).
  { induction y as [|w y IH]; intros x EL u q Hu Hq; [destruct Hu|]. destruct Hu as [->|Hu]; [|apply (IH (x ++ [w])); auto; rewrite <- app_assoc; auto].
    assert (IH' : forall u q, In u y -> g_out (nth u gs gate_none) = Some q -> occurs rl gs q /\ (g_notMono (nth u gs gate_none) = true -> occurs rl gs (lneg q))) by (apply (IH (x ++ [u])); rewrite <- app_assoc; auto).
    assert (PAR : forall r, lvar r = u -> marked g r -> occurs rl gs r).
    { intros r Er Hm. assert (HP : forall t k, In k (g_inp (nth t gs gate_none)) -> lvar k = u -> In t y).
      { intros t k Hk Ek. assert (Ht : In t L). { apply LD. destruct (Nat.lt_ge_cases t (variables p)) as [Hv|Hv]; [|rewrite nth_overflow in Hk by (unfold gs in *; rewrite HL; auto); destruct Hk]. destruct (HG t Hv) as [N|(o' & Ev & G)]; [fold gs in N; rewrite N in Hk; destruct Hk|]. fold gs in G. rewrite (gd_out _ _ _ _ _ G). discriminate. }
        rewrite EL in Ht. apply in_app_or in Ht. destruct Ht as [Ht|[Ht|Ht]]; auto; exfalso.
        - apply in_split in Ht. destruct Ht as (x1 & x2 & ->). apply (LO x1 t (x2 ++ u :: y)) with (l := k); auto; [rewrite EL, <- app_assoc; auto|]. rewrite Ek. right. apply in_or_app. right. left. auto.
        - subst t. apply (LO x u y EL k Hk). left. auto. }
      assert (HQ : forall t, In t y -> exists q', g_out (nth t gs gate_none) = Some q'). { intros t Ht. assert (In t L) by (rewrite EL; apply in_or_app; right; right; auto). apply LD in H. fold gs in H. destruct (g_out (nth t gs gate_none)); [eauto|congruence]. }
      apply UM in Hm. destruct Hm as [Hm|(t & [Hm|(Hn & Hm)])]; [apply oc_root; auto| |]; fold gs in Hm.
      - assert (Ht : In t y) by (apply (HP t r); auto). destruct (HQ t Ht) as (q' & Eq'). apply (oc_pos _ _ t q'); auto. apply (IH' t q'); auto.
      - fold gs in Hn. assert (Ht : In t y) by (apply (HP t (lneg r)); auto; rewrite lvar_neg; auto). destruct (HQ t Ht) as (q' & Eq'). apply (oc_neg _ _ t q'); auto. apply (IH' t q'); auto. }
    destruct (UG u q Hq) as (G1 & G2). fold gs in G2. split; [apply PAR; auto|]. intros HN. apply PAR; [rewrite lvar_neg; auto|]. apply G2. auto. }
  destruct (KEY L [] eq_refl v o) as (K1 & K2); auto; [apply LD; fold gs; rewrite HO; discriminate|]. split; auto. split; auto. intros H. apply (UG v o HO). apply OM. auto.
Qed.
(** below a gate that is not nested monotonically no gate is *)
Lemma notmono_below cfg p g v i : wf_problem (variables p) (problem p) -> analyze cfg p = Ok g -> g_notMono (nth v (gates g) gate_none) = true -> In i (g_inp (nth v (gates g) gate_none)) ->
  defined (gates g) (lvar i) = true -> g_notMono (nth (lvar i) (gates g) gate_none) = true.
Proof.
  intros WF HA HN Hi HD. destruct (analyze_ok cfg p WF) as (g' & E' & HL & _ & HG & _). rewrite HA in E'. injection E' as <-. destruct (analyze_used cfg p g WF HA) as ((_ & UM & UG) & _).
  unfold defined in HD. destruct (g_out (nth (lvar i) (gates g) gate_none)) as [q|] eqn:Eq; [|discriminate]. apply (UG _ q Eq).
  assert (Ev : lvar i = lvar q). { destruct (Nat.lt_ge_cases (lvar i) (variables p)) as [Hu|Hu]; [|rewrite nth_overflow in Eq by (rewrite HL; auto); discriminate]. destruct (HG _ Hu) as [N|(o' & Ev & G)]; [rewrite N in Eq; discriminate|]. pose proof (gd_out _ _ _ _ _ G). congruence. }
  apply UM. right. exists v. destruct (same_var _ _ Ev) as [->| ->]; [right; rewrite lneg_invol; auto|left; auto].
Qed.
Lemma analyze_counted cfg p g : wf_problem (variables p) (problem p) -> analyze cfg p = Ok g -> counted g.
Proof.
  intros WF. unfold analyze. set (cs := problem p) in *. set (n := variables p) in *.
  destruct (loop_ok cfg cs n WF (S (S (length cs))) _ _ 0 (init_ok cfg cs n WF)) as (a & R & E & HA).
  - intros _ c. rewrite in_seq. lia.
  - cbn [Nat.eqb]. rewrite seq_length. lia.
  - rewrite E. cbn [bind]. intros EQ. injection EQ as <-. exact (a_cnt _ _ _ _ _ HA).
Qed.
Lemma filter_seq (f : gate -> bool) (gs : list gate) : length (filter f gs) = length (filter (fun v => f (nth v gs gate_none)) (seq 0 (length gs))).
Proof.
  assert (H : forall (l : list gate) k, length (filter f l) = length (filter (fun v => f (nth (v - k) l gate_none)) (seq k (length l)))).
  { induction l as [|x l IH]; intros k; cbn [length seq filter]; auto. rewrite Nat.sub_diag. change (nth 0 (x :: l) gate_none) with x.
    match goal with |- _ = length (if _ then _ :: ?F else _) => replace F with (filter (fun v => f (nth (v - S k) l gate_none)) (seq (S k) (length l))) end.
    - specialize (IH (S k)). destruct (f x); cbn [length]; rewrite IH; auto.
    - apply filter_ext_in. intros v Hv. apply in_seq in Hv. replace (v - k) with (S (v - S k)) by lia. auto. }
  rewrite (H gs 0). f_equal. apply filter_ext. intros v. rewrite Nat.sub_0_r. auto.
Qed.
Lemma counts_ok cfg p g : wf_problem (variables p) (problem p) -> analyze cfg p = Ok g ->
  count_is (fun v => defined (gates g) v = true) (gate_count g) /\ count_is (fun v => defined (gates g) v = true /\ g_notMono (nth v (gates g) gate_none) = false) (monoton_gate_count g).
Proof.
  intros WF HA. destruct (analyze_counted cfg p g WF HA) as (C1 & C2). rewrite filter_seq in C1, C2.
  assert (O : forall v, g_out (nth v (gates g) gate_none) <> None -> v < length (gates g)). { intros v H. destruct (Nat.lt_ge_cases v (length (gates g))); auto. rewrite nth_overflow in H by auto. destruct (H eq_refl). }
  split; [eexists; split; [|split; [|symmetry; exact C1]]|eexists; split; [|split; [|symmetry; exact C2]]]; try (apply NoDup_filter, seq_NoDup).
  - intros v. rewrite filter_In, in_seq. unfold defined, has_out. specialize (O v). destruct (g_out (nth v (gates g) gate_none)); [|intuition discriminate]. assert (v < length (gates g)) by (apply O; discriminate). intuition lia.
  - intros v. rewrite filter_In, in_seq. unfold defined, has_out. specialize (O v). destruct (g_out (nth v (gates g) gate_none)); [|cbn; intuition discriminate]. assert (v < length (gates g)) by (apply O; discriminate). cbn [andb]. destruct (g_notMono _); cbn; intuition (try discriminate; lia).
Qed.
