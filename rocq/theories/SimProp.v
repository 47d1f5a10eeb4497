(** Propagation through the gates. *)
Require Import List Arith Bool NArith Lia ZifyBool ZifyNat ZifyN.
Require Import Verif.Base Verif.Outcome Verif.CNFModel Verif.CNFProofs Verif.TrailProofs Verif.GateModel Verif.GateSpec Verif.GateProofs Verif.GateMore Verif.DfsProofs.
Require Import Verif.SimModel Verif.SimSpec Verif.SimWords Verif.SimHist.
Import ListNotations.

Section S.
Variables (K size : nat).
Definition vbit (x : vec) (j : nat) : bool := N.testbit (nth (j / 64) x 0%N) (N.of_nat (j mod 64)).
Lemma vmap2_wf f x y : (forall a b, (a < 2 ^ 64)%N -> (b < 2 ^ 64)%N -> (f a b < 2 ^ 64)%N) -> wf_vec K x -> wf_vec K y -> wf_vec K (vmap2 f x y).
Proof.
  intros Hf (L1 & B1) (L2 & B2). unfold vmap2. split; [rewrite map_length, combine_length; lia|]. intros w Hw. apply in_map_iff in Hw. destruct Hw as ((a, b) & <- & Hab). cbn [fst snd]. apply Hf; [apply B1; eapply in_combine_l; eauto|apply B2; eapply in_combine_r; eauto].
Qed.
Lemma vmap2_bit f g x y j : (forall a b i, N.testbit (f a b) i = g (N.testbit a i) (N.testbit b i)) -> wf_vec K x -> wf_vec K y -> j < 64 * K -> vbit (vmap2 f x y) j = g (vbit x j) (vbit y j).
Proof.
  intros Hf (L1 & _) (L2 & _) Hj. unfold vbit, vmap2. assert (HD : j / 64 < K) by (apply Nat.div_lt_upper_bound; lia). rewrite (nth_indep _ 0%N (f (fst (0%N, 0%N)) (snd (0%N, 0%N)))) by (rewrite map_length, combine_length; lia). rewrite (map_nth (fun p => f (fst p) (snd p))). rewrite combine_nth by congruence. cbn [fst snd]. apply Hf.
Qed.
Lemma lor_lt a b : (a < 2 ^ 64)%N -> (b < 2 ^ 64)%N -> (N.lor a b < 2 ^ 64)%N.
Proof. intros Ha Hb. apply low_lt. intros i Hi. rewrite N.lor_spec, !high_bit; auto. Qed.
Lemma land_lt a b : (a < 2 ^ 64)%N -> (b < 2 ^ 64)%N -> (N.land a b < 2 ^ 64)%N.
Proof. intros Ha Hb. apply low_lt. intros i Hi. rewrite N.land_spec, !high_bit; auto. Qed.
Lemma vnot_wf x : wf_vec K x -> wf_vec K (vnot x).
Proof. intros (L & B). split; [unfold vnot; rewrite map_length; auto|]. intros w Hw. apply in_map_iff in Hw. destruct Hw as (w' & <- & Hw). apply wnot_lt. auto. Qed.
Lemma vnot_bit x j : wf_vec K x -> j < 64 * K -> vbit (vnot x) j = negb (vbit x j).
Proof.
  intros (L & B) Hj. unfold vbit, vnot. assert (HD : j / 64 < K) by (apply Nat.div_lt_upper_bound; lia). rewrite (nth_indep _ 0%N (wnot 0)) by (rewrite map_length; lia). rewrite map_nth, wnot_bit. assert (j mod 64 < 64) by (apply Nat.mod_upper_bound; lia). destruct (N.ltb_spec (N.of_nat (j mod 64)) 64); [|lia]. apply xorb_true_r.
Qed.
Lemma repeat_wf w : (w < 2 ^ 64)%N -> wf_vec K (repeat w K).
Proof. intros H. split; [apply repeat_length|]. intros x Hx. apply repeat_spec in Hx. subst. auto. Qed.
Lemma repeat_bit w j b : j < 64 * K -> (forall i, (i < 64)%N -> N.testbit w i = b) -> vbit (repeat w K) j = b.
Proof.
  intros Hj H. unfold vbit. assert (HD : j / 64 < K) by (apply Nat.div_lt_upper_bound; lia). rewrite (nth_indep _ 0%N w) by (rewrite repeat_length; lia). rewrite nth_repeat. apply H. assert (j mod 64 < 64) by (apply Nat.mod_upper_bound; lia). lia.
Qed.
Lemma vread vs v : wf_vectors K size vs -> v < size -> vget vs v = Ok (nth v vs []).
Proof. intros (HL & _) Hv. unfold vget. rewrite (nth_error_nth' vs []) by lia. auto. Qed.
(** the literals other than those of the output *)
Definition rest (a : assignment) (o : var) (c : clause) : bool := existsb (fun l => negb (lvar l =? o) && lit_val a l) c.
Lemma clause_vec_ok vs o c : wf_vectors K size vs -> (forall l, In l c -> lvar l < size) -> forall acc, wf_vec K acc ->
  exists x, clause_vec vs o c acc = Ok x /\ wf_vec K x /\ forall j, j < 64 * K -> vbit x j = vbit acc j || rest (sim_assignment vs j) o c.
Proof.
  intros HW. induction c as [|l c IH]; intros HB acc HA; cbn [clause_vec rest existsb]; [exists acc; split; auto; split; auto; intros; rewrite orb_false_r; auto|].
  assert (HB' : forall m, In m c -> lvar m < size) by (intros; apply HB; right; auto). destruct (lvar l =? o); cbn [negb andb orb]; [apply (IH HB'); auto|]. rewrite (vread vs (lvar l) HW (HB l (or_introl eq_refl))). cbn [bind].
  assert (Hl : lvar l < size) by (apply HB; left; auto). assert (VW : wf_vec K (values vs l)) by (apply (values_wf K size); auto).
  assert (EV : (if lsign l then nth (lvar l) vs [] else vnot (nth (lvar l) vs [])) = values vs l) by (unfold values; destruct (lsign l); auto).
  match goal with |- context [vmap2 N.lor acc ?t] => change t with (if lsign l then nth (lvar l) vs [] else vnot (nth (lvar l) vs [])) end. rewrite EV.
  destruct (IH HB' (vmap2 N.lor acc (values vs l)) (vmap2_wf _ _ _ lor_lt HA VW)) as (x & E & WX & BX). exists x. split; auto. split; auto. intros j Hj. rewrite BX by auto. rewrite (vmap2_bit N.lor orb) by (auto; intros; apply N.lor_spec). rewrite <- orb_assoc. f_equal. f_equal. unfold vbit. symmetry. apply (val_bit K size); auto.
Qed.
Lemma gate_vec_ok vs o cs : wf_vectors K size vs -> (forall c l, In c cs -> In l c -> lvar l < size) -> forall acc, wf_vec K acc ->
  exists x, gate_vec K vs o cs acc = Ok x /\ wf_vec K x /\ forall j, j < 64 * K -> vbit x j = vbit acc j && forallb (rest (sim_assignment vs j) o) cs.
Proof.
  intros HW. induction cs as [|c cs IH]; intros HB acc HA; cbn [gate_vec forallb]; [exists acc; split; auto; split; auto; intros; rewrite andb_true_r; auto|].
  assert (ZW : wf_vec K (repeat 0%N K)) by (apply repeat_wf; reflexivity).
  destruct (clause_vec_ok vs o c HW (fun l => HB c l (or_introl eq_refl)) (repeat 0%N K) ZW) as (x & E & WX & BX). rewrite E. cbn [bind].
  destruct (IH (fun d l Hd => HB d l (or_intror Hd)) (vmap2 N.land acc x) (vmap2_wf _ _ _ land_lt HA WX)) as (y & E2 & WY & BY). exists y. split; auto. split; auto. intros j Hj. rewrite BY by auto. rewrite (vmap2_bit N.land andb) by (auto; intros; apply N.land_spec). rewrite BX by auto. rewrite (repeat_bit 0%N j false) by (auto; intros; apply N.bits_0). cbn [orb]. rewrite andb_assoc. auto.
Qed.
Lemma vset_ok vs v x : wf_vectors K size vs -> v < size -> wf_vec K x -> exists vs', vset vs v x = Ok vs' /\ wf_vectors K size vs' /\ nth v vs' [] = x /\ forall u, u <> v -> nth u vs' [] = nth u vs [].
Proof.
  intros (HL & HB) Hv HX. unfold vset, vectors, vec. destruct (Nat.ltb_spec v (length vs)); [|lia]. eexists. split; [reflexivity|]. split; [split; [rewrite set_nth_length; auto|]|split; [apply nth_set_nth_same; lia|intros u Hu; apply nth_set_nth_other; auto]].
  intros y Hy. apply (In_nth _ _ []) in Hy. destruct Hy as (u & Hu & <-). rewrite set_nth_length in Hu. destruct (Nat.eq_dec u v) as [->|Hne]; [rewrite nth_set_nth_same; auto|rewrite nth_set_nth_other by auto; apply HB, nth_In; auto].
Qed.
Definition evaluated (a : assignment) (s : lit * list clause) : Prop := lit_val a (lneg (fst s)) = forallb (rest a (lvar (fst s))) (snd s).
Lemma gate_ok (s : lit * list clause) vs : wf_vectors K size vs -> lvar (fst s) < size -> (forall c l, In c (snd s) -> In l c -> lvar l < size) ->
  exists vs', propagate_gate K s vs = Ok vs' /\ wf_vectors K size vs' /\ (forall u, u <> lvar (fst s) -> nth u vs' [] = nth u vs []) /\ forall j, j < 64 * K -> evaluated (sim_assignment vs' j) s.
Proof.
  intros HW Ho HB. destruct s as (ol, cs). cbn [fst snd] in *. unfold propagate_gate.
  destruct (gate_vec_ok vs (lvar ol) cs HW HB (repeat (N.pred W64) K)) as (x & E & WX & BX); [apply repeat_wf; reflexivity|]. rewrite E. cbn [bind].
  match goal with |- context [vset _ _ ?t] => assert (WY : wf_vec K t) by (destruct (lsign ol); auto; apply vnot_wf; auto); destruct (vset_ok vs (lvar ol) t HW Ho WY) as (vs' & E2 & W2 & N2 & N3) end. rewrite E2. exists vs'. split; auto. split; auto. split; auto. intros j Hj. unfold evaluated. cbn [fst snd].
  assert (EV : lit_val (sim_assignment vs' j) (lneg ol) = vbit x j). { rewrite lit_val_neg. unfold lit_val, sim_assignment. unfold vectors, vec in *. rewrite N2. pose proof (vnot_bit x j WX Hj) as VN. unfold vbit in *. destruct (lsign ol); [rewrite VN|]; clear; generalize (N.testbit (nth (j / 64) x 0%N) (N.of_nat (j mod 64))); intros []; reflexivity. }
  rewrite EV, BX by auto. rewrite (repeat_bit _ j true); [|auto|intros i Hi; change (N.pred W64) with ones; rewrite ones_bit; apply N.ltb_lt; auto]. cbn [andb].
  assert (ER : forall c, In c cs -> rest (sim_assignment vs j) (lvar ol) c = rest (sim_assignment vs' j) (lvar ol) c).
  { intros c _. unfold rest. induction c as [|l c IH]; cbn [existsb]; auto. rewrite IH. f_equal. destruct (Nat.eqb_spec (lvar l) (lvar ol)); auto. cbn [negb andb]. unfold lit_val, sim_assignment. unfold vectors, vec in *. rewrite N3 by auto. auto. }
  clear - ER. induction cs as [|c cs IH]; cbn [forallb]; auto. rewrite ER by (left; auto). f_equal. apply IH. intros; apply ER; right; auto.
Qed.
Lemma evaluated_ext a b (s : lit * list clause) : (forall u, u = lvar (fst s) \/ (exists c l, In c (snd s) /\ In l c /\ lvar l = u) -> a u = b u) -> evaluated a s -> evaluated b s.
Proof.
  intros H E. unfold evaluated in *. assert (E1 : lit_val b (lneg (fst s)) = lit_val a (lneg (fst s))) by (unfold lit_val; rewrite lvar_neg, H; auto). rewrite E1, E.
  assert (ER : forall c, In c (snd s) -> rest a (lvar (fst s)) c = rest b (lvar (fst s)) c). { intros c Hc. assert (HC : forall l, In l c -> lit_val a l = lit_val b l) by (intros l Hl; unfold lit_val; rewrite H; auto; right; exists c, l; auto). clear - HC. unfold rest. induction c as [|l c IH]; cbn [existsb]; auto. rewrite HC by (left; auto). f_equal. apply IH. intros; apply HC; right; auto. }
  clear - ER. induction (snd s) as [|c cs IH]; cbn [forallb]; auto. rewrite ER by (left; auto). f_equal. apply IH. intros; apply ER; right; auto.
Qed.
Lemma propagate_ok (steps : list (lit * list clause)) : forall vs, wf_vectors K size vs -> NoDup (map (fun s => lvar (fst s)) steps) ->
  (forall s, In s steps -> lvar (fst s) < size) -> (forall s c l, In s steps -> In c (snd s) -> In l c -> lvar l < size) ->
  (forall x s y c l, steps = x ++ s :: y -> In c (snd s) -> In l c -> lvar l = lvar (fst s) \/ ~ In (lvar l) (map (fun s => lvar (fst s)) (s :: y))) ->
  exists vs', propagate K steps vs = Ok vs' /\ wf_vectors K size vs' /\ (forall u, ~ In u (map (fun s => lvar (fst s)) steps) -> nth u vs' [] = nth u vs []) /\
    forall j s, j < 64 * K -> In s steps -> evaluated (sim_assignment vs' j) s.
Proof.
  induction steps as [|s steps IH]; intros vs HW ND H1 H2 H3; cbn [propagate]; [exists vs; split; auto; split; auto; split; auto; intros j s _ []|].
  destruct (gate_ok s vs HW) as (v1 & E1 & W1 & N1 & EV1); [apply H1; left; auto|intros c l; apply H2; left; auto|]. rewrite E1. cbn [bind]. cbn [map] in ND. inversion ND as [|? ? ND1 ND2]; subst.
  destruct (IH v1 W1 ND2) as (v2 & E2 & W2 & N2 & EV2).
  - intros t Ht. apply H1. right. auto.
  - intros t c l Ht. apply H2. right. auto.
  - intros x t y c l Ex. apply (H3 (s :: x) t y). rewrite Ex. auto.
  - exists v2. split; auto. split; auto. split.
    + intros u Hu. cbn [map In] in Hu. rewrite N2 by tauto. apply N1. intros ->. tauto.
    + intros j t Hj [<-|Ht]; [|auto]. apply (evaluated_ext (sim_assignment v1 j)); [|apply EV1; auto]. intros u Hu. unfold sim_assignment. unfold vectors, vec in *. rewrite N2; auto. destruct Hu as [->|(c & l & Hc & Hl & <-)]; auto. destruct (H3 [] s steps c l eq_refl Hc Hl) as [->|HX]; auto. cbn [map In] in HX. tauto.
Qed.
Lemma randomize_ok ins fill : (forall v, In v ins -> wf_vec K (fill v)) -> (forall v, In v ins -> v < size) -> forall vs, wf_vectors K size vs ->
  exists vs', randomize ins fill vs = Ok vs' /\ wf_vectors K size vs' /\ forall v, In v ins -> nth v vs' [] = fill v.
Proof.
  induction ins as [|v ins IH]; intros HF HB vs HW; cbn [randomize]; [exists vs; split; auto; split; auto; intros v []|].
  destruct (vset_ok vs v (fill v) HW) as (v1 & E1 & W1 & N1 & N2); [apply HB; left; auto|apply HF; left; auto|]. rewrite E1. cbn [bind].
  assert (KEEP : forall l w w' u, randomize l fill w = Ok w' -> nth u w [] = fill u -> nth u w' [] = fill u).
  { clear. induction l as [|x l IHl]; intros w w' u E H; cbn [randomize] in E; [injection E as <-; auto|]. apply bind_ok in E. destruct E as (w1 & E1 & E2). apply (IHl w1 w' u E2). unfold vset, vectors, vec in *. destruct (Nat.ltb_spec x (length w)); [|discriminate]. injection E1 as <-. destruct (Nat.eq_dec u x) as [->|Hne]; [rewrite nth_set_nth_same; auto|rewrite nth_set_nth_other; auto]. }
  destruct (IH (fun u Hu => HF u (or_intror Hu)) (fun u Hu => HB u (or_intror Hu)) v1 W1) as (v2 & E2 & W2 & N3). exists v2. split; auto. split; auto. intros u [<-|Hu]; [apply (KEEP ins v1); auto|auto].
Qed.
End S.

(** ** one gate *)
Lemma cl_wf n cs c : wf_problem n cs -> ~ tautology (cl cs c) /\ forall l, In l (cl cs c) -> lvar l < n.
Proof.
  intros WF. unfold cl. destruct (nth_in_or_default c cs []) as [H|H]; [split; apply (WF _ H)|]. rewrite H. split; [intros (l & [] & _)|intros l []].
Qed.
Lemma gate_holds cs n a p F G : wf_problem n cs -> (forall c, In c F -> In (lneg p) (cl cs c)) -> (forall c, In c G -> In p (cl cs c)) -> left_total cs p (F ++ G) ->
  lit_val a p = forallb (rest a (lvar p)) (map (cl cs) F) -> holds cs a (F ++ G).
Proof.
  intros WF HF HG HT HV.
  assert (EQ : forall q x, lit_val a q = true -> lit_val (make_true a q) x = lit_val a x). { intros q x Hq. unfold make_true, lit_val in *. destruct (Nat.eqb_spec (lvar x) (lvar q)) as [->|]; auto. destruct (a (lvar q)), (lsign q), (lsign x); auto; discriminate. }
  assert (EH : forall q f, lit_val a q = true -> holds cs (make_true a q) f -> holds cs a f). { intros q f Hq H c Hc. destruct (H c Hc) as (l & Hl & E). exists l. split; auto. unfold lit_holds in *. rewrite <- (EQ q l Hq). auto. }
  destruct (lit_val a p) eqn:EP.
  - intros c Hc. apply in_app_iff in Hc. destruct Hc as [Hc|Hc]; [|exists p; split; auto]. symmetry in HV. rewrite forallb_forall in HV. specialize (HV (cl cs c) (in_map _ _ _ Hc)). unfold rest in HV. apply existsb_exists in HV. destruct HV as (l & Hl & E). apply andb_true_iff in E. exists l. split; tauto.
  - assert (EN : lit_val a (lneg p) = true) by (rewrite lit_val_neg, EP; auto). destruct (HT a) as [H|H]; [|apply (EH (lneg p)); auto]. exfalso. assert (TR : forallb (rest a (lvar p)) (map (cl cs) F) = true); [|congruence]. apply forallb_forall. intros d Hd. apply in_map_iff in Hd. destruct Hd as (c & <- & Hc).
    destruct (H c (in_or_app _ _ _ (or_introl Hc))) as (l & Hl & E). apply existsb_exists. exists l. split; auto. destruct (Nat.eqb_spec (lvar l) (lvar p)) as [EQV|NE].
    + exfalso. destruct (same_var _ _ EQV) as [->| ->].
      * destruct (cl_wf n cs c WF) as (T & _). apply T. exists p. auto.
      * unfold lit_holds in E. rewrite lit_val_neg in E. unfold lit_val, make_true in E. rewrite Nat.eqb_refl in E. destruct (lsign p); discriminate.
    + cbn [negb andb]. unfold lit_holds, lit_val, make_true in *. destruct (Nat.eqb_spec (lvar l) (lvar p)); [contradiction|auto].
Qed.

Lemma before_split {A} (x y : A) l a b : before x y l -> NoDup l -> l = a ++ y :: b -> ~ In x (y :: b).
Proof.
  intros (p & q & r & E) ND E2 HX. rewrite E2 in E. assert (HP : In x a).
  { assert (EQ : forall (s t u v : list A), NoDup (s ++ y :: t) -> s ++ y :: t = u ++ y :: v -> s = u).
    { clear. induction s as [|k s IH]; intros t u v ND E; destruct u as [|k' u]; auto; [injection E as E1 E2; subst|injection E as E1 E2; subst|injection E as E1 E2; subst; f_equal; inversion ND; eapply IH; eauto].
      - inversion ND as [|? ? N1 N2]. exfalso. apply N1, in_or_app. right. left. auto.
      - inversion ND as [|? ? N1 N2]. exfalso. apply N1, in_or_app. right. left. auto. }
    rewrite app_comm_cons, app_assoc in E. rewrite E2 in ND. apply EQ in E; auto. rewrite E. apply in_or_app. right. left. auto. }
  rewrite E2 in ND. apply in_split in HP. destruct HP as (a1 & a2 & ->). rewrite <- app_assoc in ND. apply NoDup_remove_2 in ND. apply ND, in_or_app. right. apply in_or_app. right. auto.
Qed.

(** ** the order that readGates gives *)
Definition root_lits (p : cnf) (g : gproblem) : list lit := flat_map (cl (problem p)) (roots g).
Lemma amount_ge (l : list var) v : In v l -> v < fold_left (fun m v => Nat.max m (S v)) l 0.
Proof.
  assert (H : forall l m, m <= fold_left (fun m v => Nat.max m (S v)) l m /\ (In v l -> v < fold_left (fun m v => Nat.max m (S v)) l m)). { clear. induction l as [|x l IH]; intros m; cbn [fold_left]; [split; auto; intros []|]. destruct (IH (Nat.max m (S x))) as (H1 & H2). split; [lia|]. intros [->|H]; [lia|auto]. }
  apply H.
Qed.
Definition step_of (cs : list clause) (gs : list gate) (v : var) : list (lit * list clause) :=
  match g_out (nth v gs gate_none) with Some o => [(fst (used_side (nth v gs gate_none) o), map (cl cs) (snd (used_side (nth v gs gate_none) o)))] | None => [] end.
Lemma used_var g o : lvar (fst (used_side g o)) = lvar o.
Proof. unfold used_side. destruct (_ || _); cbn [fst]; [apply lvar_neg|auto]. Qed.
Section R.
Variables (cfg : config) (p : cnf) (g : gproblem).
Hypothesis WF : wf_problem (variables p) (problem p).
Hypothesis HA : analyze cfg p = Ok g.
Let rl := root_lits p g.
Let gs := gates g.
Lemma roots_range l : In l rl -> lvar l < variables p.
Proof. intros H. apply in_flat_map in H. destruct H as (c & _ & H). apply (cl_wf _ _ c WF). auto. Qed.
Lemma reach_defined v : reachable (fun _ => false) gs rl v -> defined gs v = true.
Proof. induction 1 as [l H1 H2 H3|u v H IH (C1 & _)]; auto. Qed.
Lemma order_ok : exists ord order, readGates None (problem p) gs rl = Ok ord /\ NoDup order /\ (forall v, In v order <-> reachable (fun _ => false) gs rl v) /\
  (forall u v, In u order -> child (fun _ => false) gs u v -> before v u order) /\ o_steps ord = flat_map (step_of (problem p) gs) order /\
  NoDup (o_inputs ord) /\ (forall v, In v (o_inputs ord) <-> defined gs v = false /\ exists u, reachable (fun _ => false) gs rl u /\ exists i, In i (g_inp (nth u gs gate_none)) /\ lvar i = v) /\
  (forall v, In v order -> v < o_amount ord) /\ (forall v, In v (o_inputs ord) -> v < o_amount ord).
Proof.
  destruct (analyze_acyclic cfg p g WF HA) as (AC & IR). destruct (dfs_ok (fun _ => false) gs rl) as (es & E & (B1 & B2 & B3) & (C1 & C2) & (I1 & I2)). unfold readGates. rewrite E. cbn [bind]. eexists. exists (backtracked es). split; [reflexivity|]. cbn [o_steps o_inputs o_amount]. split; auto. split; auto. split; [apply B3, AC|]. split; [|split; [exact I1|split; [exact I2|]]].
  - unfold backtracked. apply flat_map_ext. intros v. unfold step_of, passes. destruct (g_out _); auto.
  - assert (ALL : forall v, In v (backtracked es) \/ In v (input_vars es) -> In v (flat_map (fun e => match e with EBacktrack v | ECollect v | EInput v => [v] end) es)).
    { intros v [H|H]; apply in_flat_map in H; destruct H as (e & He & H); apply in_flat_map; exists e; split; auto; destruct e; auto; destruct H. }
    split; intros v Hv; apply amount_ge, ALL; auto.
Qed.
Lemma steps_vars l : (forall v, In v l -> defined gs v = true) -> map (fun s => lvar (fst s)) (flat_map (step_of (problem p) gs) l) = l.
Proof.
  induction l as [|v l IH]; intros H; cbn [flat_map map]; auto. rewrite map_app, IH by (intros; apply H; right; auto). specialize (H v (or_introl eq_refl)). unfold defined in H. unfold step_of. destruct (g_out (nth v gs gate_none)) as [o|] eqn:EO; [|discriminate]. cbn [map app fst]. rewrite used_var. destruct (gates_left_total cfg p g v o WF HA EO) as (-> & _). auto.
Qed.
Variable (K : nat).
Hypothesis HC : backward_covered (problem p) gs.
Lemma used_clauses v o c l : g_out (nth v gs gate_none) = Some o -> In c (snd (used_side (nth v gs gate_none) o)) -> In l (cl (problem p) c) -> lvar l = lvar o \/ exists i, In i (g_inp (nth v gs gate_none)) /\ lvar i = lvar l.
Proof.
  intros EO Hc Hl. destruct (gates_ok cfg p g v o WF HA EO) as (A1 & A2 & A3 & A4 & A5 & A6 & A7 & A8). fold gs in A3, A4, A5, A6. unfold used_side in Hc. destruct (g_notMono (nth v gs gate_none)) eqn:EM; cbn [orb] in Hc.
  2: destruct (Nat.leb_spec (length (g_fwd (nth v gs gate_none))) (length (g_bwd (nth v gs gate_none)))); cbn [snd] in Hc.
  3: { apply (HC v c l o EM); auto. }
  all: destruct (Nat.eq_dec (lvar l) (lvar o)); auto; right; exists l; split; auto; apply A6; exists c; split; auto; split; auto; intros ->; rewrite lvar_neg in *; auto.
Qed.
Lemma sim_step_ok ord : readGates None (problem p) gs rl = Ok ord -> forall fill vs, wf_vectors K (o_amount ord) vs -> (forall v, In v (o_inputs ord) -> wf_vec K (fill v)) ->
  exists vs', sim_step K ord fill vs = Ok vs' /\ wf_vectors K (o_amount ord) vs' /\ (forall v, In v (o_inputs ord) -> nth v vs' [] = fill v) /\
    (forall j v, j < 64 * K -> reachable (fun _ => false) gs rl v -> holds (problem p) (sim_assignment vs' j) (gate_clauses (nth v gs gate_none))).
Proof.
  intros EO fill vs HW HF. destruct order_ok as (ord' & order & E' & ND & HR & HB & HS & IN & II & BO & BI). rewrite EO in E'. injection E' as <-.
  destruct (randomize_ok K (o_amount ord) (o_inputs ord) fill HF BI vs HW) as (v1 & E1 & W1 & N1). unfold sim_step. rewrite E1. cbn [bind].
  assert (DF : forall v, In v order -> defined gs v = true) by (intros v Hv; apply reach_defined, HR; auto). pose proof (steps_vars order DF) as SV. rewrite <- HS in SV.
  assert (IS : forall s, In s (o_steps ord) -> exists v o, In v order /\ g_out (nth v gs gate_none) = Some o /\ lvar o = v /\ s = (fst (used_side (nth v gs gate_none) o), map (cl (problem p)) (snd (used_side (nth v gs gate_none) o)))).
  { intros s Hs. rewrite HS in Hs. apply in_flat_map in Hs. destruct Hs as (v & Hv & Hs). unfold step_of in Hs. destruct (g_out (nth v gs gate_none)) as [o|] eqn:EG; [|destruct Hs]. destruct Hs as [<-|[]]. exists v, o. split; auto. split; auto. split; auto. apply (gates_left_total cfg p g v o WF HA EG). }
  assert (IV : forall s c l, In s (o_steps ord) -> In c (snd s) -> In l c -> lvar l = lvar (fst s) \/ (In (lvar l) (o_inputs ord) \/ child (fun _ => false) gs (lvar (fst s)) (lvar l)) /\ In (lvar (fst s)) order).
  { intros s c l Hs Hc Hl. destruct (IS s Hs) as (v & o & Hv & EG & Ev & ->). cbn [fst snd] in *. rewrite used_var. apply in_map_iff in Hc. destruct Hc as (i & <- & Hc). destruct (used_clauses v o i l EG Hc Hl) as [H|(i' & Hi & Ei)]; auto. right. rewrite Ev. split; auto. destruct (defined gs (lvar l)) eqn:ED; [right|left].
    - split; auto. split; auto. exists i'. auto.
    - apply II. split; auto. exists v. split; [apply HR; auto|]. exists i'. auto. }
  assert (CO : forall u v, In u order -> child (fun _ => false) gs u v -> In v order) by (intros u v Hu Hch; apply HR; apply HR in Hu; eapply r_child; eauto).
  assert (SI : forall s, In s (o_steps ord) -> In (lvar (fst s)) order) by (intros s Hs; rewrite <- SV; apply (in_map (fun s => lvar (fst s))); auto).
  destruct (propagate_ok K (o_amount ord) (o_steps ord) v1 W1) as (v2 & E2 & W2 & N2 & EV).
  - rewrite SV. auto.
  - intros s Hs. apply BO, SI. auto.
  - intros s c l Hs Hc Hl. destruct (IV s c l Hs Hc Hl) as [->|([H|H] & Hin)]; [apply BO, SI; auto|apply BI; auto|apply BO, (CO (lvar (fst s))); auto].
  - intros x s y c l EX Hc Hl. assert (Hs : In s (o_steps ord)) by (rewrite EX; apply in_or_app; right; left; auto). destruct (IV s c l Hs Hc Hl) as [->|([H|H] & Hin)]; auto; right.
    + intros HX. assert (HY : In (lvar l) order) by (rewrite <- SV, EX, map_app; apply in_or_app; auto). apply DF in HY. apply II in H. destruct H. congruence.
    + apply (before_split (lvar l) (lvar (fst s)) order (map (fun s => lvar (fst s)) x) (map (fun s => lvar (fst s)) y)); auto. rewrite <- SV, EX, map_app. auto.
  - rewrite E2. exists v2. split; auto. split; auto. split.
    + intros v Hv. rewrite N2, N1; auto. rewrite SV. intros HX. apply DF in HX. apply II in Hv. destruct Hv. congruence.
    + intros j v Hj Hv. assert (Hin : In v order) by (apply HR; auto). pose proof (DF v Hin) as D. unfold defined in D. destruct (g_out (nth v gs gate_none)) as [o|] eqn:EG; [|discriminate]. destruct (gates_ok cfg p g v o WF HA EG) as (A1 & A2 & A3 & A4 & A5 & A6 & A7 & A8). fold gs in A3, A4, A5, A6, A7.
      assert (ES : evaluated (sim_assignment v2 j) (fst (used_side (nth v gs gate_none) o), map (cl (problem p)) (snd (used_side (nth v gs gate_none) o)))). { apply EV; auto. rewrite HS. apply in_flat_map. exists v. split; auto. unfold step_of. rewrite EG. left. auto. }
      unfold evaluated in ES. cbn [fst snd] in ES. rewrite used_var in ES. unfold used_side in ES. unfold gate_clauses in *. destruct (_ || _); cbn [fst snd] in ES.
      * rewrite lneg_invol in ES. apply (gate_holds (problem p) (variables p) _ o); auto.
      * assert (HH : holds (problem p) (sim_assignment v2 j) (g_bwd (nth v gs gate_none) ++ g_fwd (nth v gs gate_none))). { apply (gate_holds (problem p) (variables p) _ (lneg o)); rewrite ?lneg_invol, ?lvar_neg; auto. intros x. assert (SW : forall f, holds (problem p) f (g_fwd (nth v gs gate_none) ++ g_bwd (nth v gs gate_none)) -> holds (problem p) f (g_bwd (nth v gs gate_none) ++ g_fwd (nth v gs gate_none))) by (intros f H c Hc; apply H; apply in_app_iff in Hc; apply in_or_app; tauto). rewrite lneg_invol. destruct (A7 x) as [H|H]; [right|left]; apply SW; auto. }
        intros c Hc. apply HH. apply in_app_iff in Hc. apply in_or_app. tauto.
Qed.
Lemma sim_steps_ok ord : readGates None (problem p) gs rl = Ok ord -> forall fills vs, wf_vectors K (o_amount ord) vs -> (forall fill v, In fill fills -> In v (o_inputs ord) -> wf_vec K (fill v)) ->
  exists hist, sim_steps K ord fills vs = Ok hist /\ (forall vs', In vs' hist -> wf_vectors K (o_amount ord) vs') /\
    Forall2 (fun (fill : var -> vec) vs' => forall v, In v (o_inputs ord) -> nth v vs' [] = fill v) fills hist /\
    (forall a v, simulated K hist a -> reachable (fun _ => false) gs rl v -> holds (problem p) a (gate_clauses (nth v gs gate_none))).
Proof.
  intros EO. induction fills as [|f fills IH]; intros vs HW HF; cbn [sim_steps]; [exists []; split; auto; split; [intros v []|split; [constructor|intros a v (x & j & [] & _)]]|].
  destruct (sim_step_ok ord EO f vs HW) as (v1 & E1 & W1 & N1 & S1); [intros v Hv; apply HF; auto; left; auto|]. rewrite E1. cbn [bind]. destruct (IH v1 W1) as (h & E2 & W2 & N2 & S2); [intros fl v Hf; apply HF; right; auto|]. rewrite E2. cbn [bind]. exists (v1 :: h). split; auto. split; [intros v' [<-|Hv]; auto|]. split; [constructor; auto|].
  intros a v (x & j & Hx & Hj & Ha) Hv. destruct Hx as [<-|Hx]; [|apply S2; auto; exists x, j; auto]. intros c Hc. destruct (S1 j v Hj Hv c Hc) as (l & Hl & E). exists l. split; auto. unfold lit_holds, lit_val in *. rewrite Ha. auto.
Qed.
End R.
