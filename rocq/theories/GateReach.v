(** More about the gates of an analysis: every output is used, and unit clauses are roots. *)
Require Import List Arith Bool NArith Lia Permutation.
Require Import Verif.Base Verif.Outcome Verif.CNFModel Verif.CNFProofs Verif.TrailProofs Verif.GateModel Verif.GateSpec Verif.BlockProofs Verif.BlockMore Verif.GatePat Verif.GateProofs.
Import ListNotations.

Section R.
Variable cfg : config.
Variable cs : list clause.

(** the literal occurs in a root or is an input of a gate *)
Definition used (g : gproblem) (l : lit) : Prop := (exists c, In c (roots g) /\ In l (cl cs c)) \/ exists u, In l (g_inp (nth u (gates g) gate_none)).
Definition RI (g : gproblem) : Prop := forall v o, g_out (nth v (gates g) gate_none) = Some o -> used g o.
Definition ext (g g' : gproblem) : Prop := (forall l, used g l -> used g' l) /\ (forall c, In c (roots g) -> In c (roots g')).

Lemma ext_refl g : ext g g.
Proof. split; auto. Qed.
Lemma ext_trans g1 g2 g3 : ext g1 g2 -> ext g2 g3 -> ext g1 g3.
Proof. intros (A & B) (A' & B'). split; auto. Qed.
Lemma recognise_gprob o fwd bwd a r a' : recognise cfg cs o fwd bwd a = (r, a') -> gprob a' = gprob a.
Proof.
  unfold recognise, semanticCheck. intros E. destruct (isNestedMonotonic _ _); [congruence|]. destruct (usePatterns cfg && _); [congruence|].
  destruct (useSemantic cfg); [destruct (solver cfg (calls a) _); [injection E as <- <-; auto|]|]; destruct (useHolistic cfg); injection E as <- <-; auto.
Qed.
Lemma addGate_ext o fwd bwd g : RI g -> used g o -> RI (addGate cs o fwd bwd g) /\ ext g (addGate cs o fwd bwd g).
Proof.
  intros HR HU. destruct (addGate_spec cs o fwd bwd g) as (S1 & S2 & S3). cbv zeta in *. set (g' := addGate cs o fwd bwd g) in *.
  assert (HE : forall l, used g l -> used g' l).
  { intros l [(c & H1 & H2)|(u & H)]; [left; exists c; rewrite S1; auto|]. right. exists u. rewrite S3, nth_set_nth. destruct (Nat.eqb_spec u (lvar o)) as [->|]; cbn [andb]; auto. destruct (lvar o <? length (gates g)); auto. cbn [g_inp]. change (In l (to_set (g_inp (getGate g o) ++ gate_inputs cs o fwd))). rewrite to_set_in. apply in_or_app. left. exact H. }
  split; [|split; auto; rewrite S1; auto]. intros v o' E. apply HE. rewrite S3, nth_set_nth in E. destruct ((v =? lvar o) && _); [cbn [g_out] in E; injection E as <-; auto|]. apply (HR v o' E).
Qed.
Lemma isGate_ext a o r a' : RI (gprob a) -> used (gprob a) o -> isGate cfg cs o a = (r, a') -> RI (gprob a') /\ ext (gprob a) (gprob a').
Proof.
  intros HR HU E. unfold isGate in E. destruct (_ =? 0); [injection E as <- <-; split; auto; apply ext_refl|]. destruct (isBlockedSet cs o (blist a)) as (bl, b1). destruct bl; [|injection E as <- <-; split; auto; apply ext_refl].
  destruct (recognise cfg cs o _ _ _) as (rr, a2) eqn:ER. apply recognise_gprob in ER. cbn [gprob] in ER. destruct rr; injection E as <- <-; cbn [gprob]; rewrite ER; [apply addGate_ext; auto|split; auto; apply ext_refl].
Qed.
Lemma try_ext : forall cand a fr f a', RI (gprob a) -> (forall l, In l cand -> used (gprob a) l) -> (forall l, In l fr -> used (gprob a) l) -> try_candidates cfg cs cand fr a = (f, a') ->
  RI (gprob a') /\ ext (gprob a) (gprob a') /\ forall l, In l f -> used (gprob a') l.
Proof.
  induction cand as [|o cand IH]; intros a fr f a' HR HC HF E; cbn [try_candidates] in E; [injection E as <- <-; split; auto; split; auto; apply ext_refl|].
  destruct (isGate cfg cs o a) as (b, a1) eqn:EG. destruct (isGate_ext a o b a1 HR (HC o (or_introl eq_refl)) EG) as (R1 & X1).
  edestruct IH as (R2 & X2 & F2); [exact R1|exact (fun l H => proj1 X1 l (HC l (or_intror H)))| |exact E|].
  - intros l Hl. destruct b; [apply in_app_or in Hl; destruct Hl as [Hl|Hl]; [apply X1; auto|right; exists (lvar o); exact Hl]|apply X1; auto].
  - split; auto. split; auto. apply (ext_trans _ _ _ X1 X2).
Qed.
Lemma recognition_ext : forall fuel fr a a', RI (gprob a) -> (forall l, In l fr -> used (gprob a) l) -> gate_recognition fuel cfg cs fr a = Ok a' -> RI (gprob a') /\ ext (gprob a) (gprob a').
Proof.
  induction fuel as [|fuel IH]; intros fr a a' HR HF E; destruct fr as [|o fr]; cbn [gate_recognition] in E; try discriminate; try (injection E as <-; split; auto; apply ext_refl).
  destruct (try_candidates cfg cs (o :: fr) [] a) as (f, a1) eqn:ET. destruct (try_ext _ a [] f a1 HR HF (fun l H => match H with end) ET) as (R1 & X1 & F1). destruct (IH f a1 a' R1 F1 E) as (R2 & X2). split; auto. apply (ext_trans _ _ _ X1 X2).
Qed.
Lemma roots_ext rs g : RI g -> RI (add_roots cs rs g) /\ ext g (add_roots cs rs g) /\ (forall c, In c rs -> In c (roots (add_roots cs rs g))) /\ forall l, In l (flat_map (cl cs) rs) -> used (add_roots cs rs g) l.
Proof.
  intros HR. destruct (add_roots_spec cs rs g) as (S1 & S2 & S3). cbv zeta in *. set (g' := add_roots cs rs g) in *.
  assert (HE : forall l, used g l -> used g' l) by (intros l [(c & H1 & H2)|(u & H)]; [left; exists c; rewrite S1; split; auto; apply in_or_app; auto|right; exists u; rewrite S2; auto]).
  split; [intros v o E; rewrite S2 in E; apply HE, (HR v o E)|]. split; [split; auto; intros c Hc; rewrite S1; apply in_or_app; auto|]. split; [intros c Hc; rewrite S1; apply in_or_app; auto|].
  intros l Hl. apply in_flat_map in Hl. destruct Hl as (c & Hc & Hl). left. exists c. split; auto. rewrite S1. apply in_or_app. auto.
Qed.
Lemma loop_ext n : forall fuel count a a', RI (gprob a) -> (count <> 0 -> forall c, In c (unit_ids cs) -> In c (roots (gprob a))) -> (count = 0 -> forall v, nth v (gates (gprob a)) gate_none = gate_none) ->
  analyze_loop fuel cfg cs n count a = Ok a' -> RI (gprob a') /\ ((forall c, In c (unit_ids cs) -> In c (roots (gprob a'))) \/ forall v, nth v (gates (gprob a')) gate_none = gate_none).
Proof.
  induction fuel as [|fuel IH]; intros count a a' HR HU HN E; cbn [analyze_loop] in E; [discriminate|].
  destruct (_ && _); [|injection E as <-; split; auto; destruct (Nat.eq_dec count 0) as [->|]; auto].
  destruct (Nat.eqb_spec count 0) as [->|Hc].
  - destruct (roots_ext (unit_ids cs) (gprob a) HR) as (R1 & X1 & U1 & F1). destruct (unit_ids cs) as [|c0 rs] eqn:EU.
    + apply (IH 1 _ a') in E; [rewrite ?EU in E; try exact E|exact HR|rewrite ?EU; intros _ c []|discriminate].
    + destruct (gate_recognition _ cfg cs _ _) as [a3|] eqn:EG; [|discriminate]. cbn [bind] in E. apply recognition_ext in EG; auto. destruct EG as (R2 & X2). apply (IH 1 _ a') in E; [rewrite ?EU in E; try exact E|exact R2| |discriminate]. rewrite ?EU. intros _ c Hcc. apply X2, U1. auto.
  - destruct (getMinimallyUnblockedLiteral cs n (blist a)) as (ol, b1). destruct ol as [o|]; cbv beta iota in E.
    + destruct (stripUnblockedClauses cs o b1) as (rs, b2). cbv beta iota in E. destruct rs as [|c0 rs].
      * apply (IH (S count) _ a') in E; [exact E|exact HR|intros _; apply (HU Hc)|discriminate].
      * destruct (roots_ext (c0 :: rs) (gprob a) HR) as (R1 & X1 & U1 & F1). destruct (gate_recognition _ cfg cs _ _) as [a3|] eqn:EG; [|discriminate]. cbn [bind] in E. apply recognition_ext in EG; auto. destruct EG as (R2 & X2). apply (IH (S count) _ a') in E; [exact E|exact R2| |discriminate]. intros _ c Hcc. apply X2, X1, HU; auto.
    + injection E as <-. cbn [gprob]. auto.
Qed.
End R.

Lemma analyze_used cfg p g : analyze cfg p = Ok g ->
  (forall v o, g_out (nth v (gates g) gate_none) = Some o -> (exists c, In c (roots g) /\ In o (cl (problem p) c)) \/ exists u, In o (g_inp (nth u (gates g) gate_none))) /\
  ((forall c, In c (unit_ids (problem p)) -> In c (roots g)) \/ forall v, nth v (gates g) gate_none = gate_none).
Proof.
  unfold analyze. intros E. destruct (analyze_loop _ cfg (problem p) (variables p) 0 _) as [a|] eqn:EL; [|discriminate]. cbn [bind] in E. injection E as <-. cbn [roots gates].
  assert (HG : forall v, nth v (gates (gp_new (variables p))) gate_none = gate_none) by (intros v; apply nth_repeat).
  apply (loop_ext cfg (problem p) (variables p) _ 0 _ a) in EL; [exact EL| |congruence|intros _; exact HG].
  intros v o EO. change (g_out (nth v (gates (gp_new (variables p))) gate_none) = Some o) in EO. rewrite HG in EO. discriminate.
Qed.
