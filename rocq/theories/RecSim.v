(** Proofs about the recursive clause order: simulation with an order in which gates may be listed repeatedly. *)
Require Import List Arith Bool NArith Lia.
Require Import Verif.Base Verif.Outcome Verif.CNFModel Verif.GateModel Verif.GateSpec Verif.GateProofs Verif.GateMore Verif.DfsProofs Verif.SimModel Verif.SimSpec Verif.SimProp Verif.RecModel Verif.RecProofs.
Import ListNotations.

Definition ov (s : lit * list clause) : var := lvar (fst s).
Section S.
Variables (K size : nat).
Lemma rest_other a b o c : (forall u, u <> o -> a u = b u) -> rest a o c = rest b o c.
Proof.
  intros H. unfold rest. induction c as [|l c IH]; cbn [existsb]; auto. rewrite IH. f_equal. destruct (Nat.eqb_spec (lvar l) o) as [E|N]; auto. cbn [negb andb]. unfold lit_val. rewrite H; auto.
Qed.
Lemma evaluated_same a b (s : lit * list clause) : (forall u, u <> ov s -> a u = b u) -> evaluated a s -> evaluated b s -> forall u, a u = b u.
Proof.
  intros H EA EB u. destruct (Nat.eq_dec u (ov s)) as [E|N]; [|auto]. unfold evaluated in *.
  assert (ER : forallb (rest a (lvar (fst s))) (snd s) = forallb (rest b (lvar (fst s))) (snd s)). { clear EA EB. induction (snd s) as [|c cs IH]; cbn [forallb]; auto. rewrite IH. f_equal. apply rest_other. exact H. }
  rewrite ER, <- EB in EA. rewrite E. unfold lit_val in EA. rewrite lvar_neg in EA. fold (ov s) in EA. destruct (a (ov s)), (b (ov s)), (lsign (lneg (fst s))); auto; discriminate.
Qed.
(** the literals of a step belong to its output, to no step or to the given steps *)
Definition uses_only (all ready : list (lit * list clause)) (s : lit * list clause) : Prop :=
  forall c l, In c (snd s) -> In l c -> lvar l = ov s \/ ~ In (lvar l) (map ov all) \/ In (lvar l) (map ov ready).
Lemma propagate_dup : forall steps D vs, wf_vectors K size vs -> (forall s, In s steps -> ov s < size) -> (forall s c l, In s steps -> In c (snd s) -> In l c -> lvar l < size) ->
  (forall j t, j < 64 * K -> In t D -> evaluated (sim_assignment vs j) t) -> (forall t, In t D -> uses_only (D ++ steps) D t) ->
  (forall x s y, steps = x ++ s :: y -> In s (D ++ x) \/ (~ In (ov s) (map ov (D ++ x)) /\ uses_only (D ++ steps) (D ++ x) s)) ->
  exists vs', propagate K steps vs = Ok vs' /\ wf_vectors K size vs' /\ (forall u, ~ In u (map ov steps) -> nth u vs' [] = nth u vs []) /\
    forall j t, j < 64 * K -> In t (D ++ steps) -> evaluated (sim_assignment vs' j) t.
Proof.
  induction steps as [|s steps IH]; intros D vs HW H1 H2 HE HU HS; cbn [propagate]; [exists vs; split; auto; split; auto; split; auto; intros j t Hj Ht; rewrite app_nil_r in Ht; auto|].
  destruct (gate_ok K size s vs HW) as (v1 & E1 & W1 & N1 & EV1); [apply (H1 s); left; auto|intros c l; apply H2; left; auto|]. rewrite E1. cbn [bind].
  assert (OTH : forall j u, u <> ov s -> sim_assignment v1 j u = sim_assignment vs j u) by (intros j u Hu; unfold sim_assignment; unfold vectors, vec in *; rewrite N1; auto).
  assert (C : forall j t, j < 64 * K -> In t (D ++ [s]) -> evaluated (sim_assignment v1 j) t).
  { intros j t Hj Ht. apply in_app_or in Ht. destruct Ht as [Ht|[<-|[]]]; [|auto]. destruct (HS [] s steps eq_refl) as [H0|(H0 & _)]; rewrite app_nil_r in H0.
    - apply (evaluated_ext (sim_assignment vs j)); [|auto]. intros u _. apply (evaluated_same _ _ s); auto. intros w Hw. rewrite OTH; auto.
    - apply (evaluated_ext (sim_assignment vs j)); [|auto]. assert (NT : ov t <> ov s) by (intros E; apply H0; rewrite <- E; apply in_map; auto). intros u Hu. symmetry. apply OTH. destruct Hu as [->|(c & l & Hc & Hl & <-)]; [exact NT|].
      destruct (HU t Ht c l Hc Hl) as [E|[E|E]]; [rewrite E; auto| |]; intros EQ; [apply E; rewrite EQ; apply in_map, in_or_app; right; left; auto|rewrite EQ in E; auto]. }
  assert (EA : (D ++ [s]) ++ steps = D ++ s :: steps) by (rewrite <- app_assoc; auto).
  destruct (IH (D ++ [s]) v1 W1) as (v2 & E2 & W2 & N2 & EV2); auto.
  - intros t Ht. apply H1. right. auto.
  - intros t c l Ht. apply H2. right. auto.
  - rewrite EA. intros t Ht c l Hc Hl. assert (UT : uses_only (D ++ s :: steps) D t). { apply in_app_or in Ht. destruct Ht as [Ht|[<-|[]]]; auto. destruct (HS [] s steps eq_refl) as [H0|(_ & H0)]; rewrite app_nil_r in H0; auto. }
    destruct (UT c l Hc Hl) as [E|[E|E]]; auto. right. right. rewrite map_app. apply in_or_app. auto.
  - rewrite EA. intros x t y EX. subst steps. specialize (HS (s :: x) t y eq_refl). rewrite <- app_assoc. exact HS.
  - exists v2. split; auto. split; auto. split.
    + intros u Hu. cbn [map In] in Hu. rewrite N2 by tauto. apply N1. intros ->. apply Hu. left. auto.
    + rewrite EA in EV2. auto.
Qed.
End S.

(** ** the order that readGatesRec gives *)
Section R.
Variables (cfg : config) (p : cnf) (g : gproblem).
Hypothesis WF : wf_problem (variables p) (problem p).
Hypothesis HA : analyze cfg p = Ok g.
Let rl := root_lits p g.
Let gs := gates g.
Let np : var -> bool := fun _ => false.
Variable enabled : option (list var).
Definition rstep (v : var) : list (lit * list clause) :=
  match g_out (nth v gs gate_none) with
  | Some o => if passes enabled gs (nth v gs gate_none) o then [(fst (used_side (nth v gs gate_none) o), map (cl (problem p)) (snd (used_side (nth v gs gate_none) o)))] else []
  | None => []
  end.
Lemma rsteps_eq l : rsteps enabled (problem p) gs l = flat_map rstep l.
Proof. reflexivity. Qed.
Definition passing (v : var) : Prop := exists o, g_out (nth v gs gate_none) = Some o /\ passes enabled gs (nth v gs gate_none) o = true.
Lemma rstep_in v s : In s (rstep v) -> rstep v = [s] /\ exists o, g_out (nth v gs gate_none) = Some o /\ lvar o = v /\ ov s = v /\ passes enabled gs (nth v gs gate_none) o = true /\
  s = (fst (used_side (nth v gs gate_none) o), map (cl (problem p)) (snd (used_side (nth v gs gate_none) o))).
Proof.
  unfold rstep. intros H. destruct (g_out (nth v gs gate_none)) as [o|] eqn:EO; [|destruct H]. destruct (passes enabled gs (nth v gs gate_none) o) eqn:EP; [|destruct H]. destruct H as [<-|[]]. split; auto. exists o.
  destruct (gates_left_total cfg p g v o WF HA EO) as (EV & _). split; auto. split; auto. split; [unfold ov; cbn [fst]; rewrite used_var; auto|]. auto.
Qed.
Lemma rstep_passing v : passing v <-> exists s, rstep v = [s].
Proof.
  split.
  - intros (o & EO & EP). unfold rstep. rewrite EO, EP. eauto.
  - intros (s & E). destruct (rstep_in v s) as (_ & o & EO & _ & _ & EP & _); [rewrite E; left; auto|]. exists o. auto.
Qed.
Lemma rstep_var v s : In s (rstep v) -> ov s = v.
Proof. intros H. apply rstep_in in H. destruct H as (_ & o & _ & _ & H & _). auto. Qed.
Lemma rsteps_vars l v : In v (map ov (flat_map rstep l)) <-> In v l /\ passing v.
Proof.
  rewrite in_map_iff. split.
  - intros (s & E & H). apply in_flat_map in H. destruct H as (u & Hu & H). pose proof (rstep_var u s H) as EV. rewrite EV in E. subst u. split; auto. apply rstep_passing. exists s. apply rstep_in in H. tauto.
  - intros (H & HP). apply rstep_passing in HP. destruct HP as (s & E). exists s. split; [apply rstep_var; rewrite E; left; auto|]. apply in_flat_map. exists v. split; auto. rewrite E. left. auto.
Qed.
Lemma rsteps_split : forall l x s y, flat_map rstep l = x ++ s :: y -> exists a v b, l = a ++ v :: b /\ rstep v = [s] /\ x = flat_map rstep a /\ y = flat_map rstep b.
Proof.
  induction l as [|u l IH]; intros x s y E; cbn [flat_map] in E; [destruct x; discriminate|].
  destruct (rstep u) as [|t r] eqn:EU.
  - cbn [app] in E. destruct (IH x s y E) as (a & v & b & E1 & E2 & E3 & E4). exists (u :: a), v, b. rewrite E1. split; auto. split; auto. cbn [flat_map]. rewrite EU. auto.
  - assert (ER : r = []) by (destruct (rstep_in u t) as (E0 & _); [rewrite EU; left; auto|rewrite EU in E0; injection E0 as E0; auto]). subst r. cbn [app] in E. destruct x as [|t' x]; injection E as E1 E2.
    + subst t. exists [], u, l. split; auto.
    + subst t'. destruct (IH x s y E2) as (a & v & b & F1 & F2 & F3 & F4). exists (u :: a), v, b. rewrite F1. split; auto. split; auto. cbn [flat_map]. rewrite EU, F3. auto.
Qed.
Variable st : rst.
Hypothesis HR : roots_read gs rl st.
Let ord := mkOrder (flat_map rstep (r_order st)) (r_ins st) (r_amount st).
Variable K : nat.
Hypothesis HC : backward_covered (problem p) gs.
Lemma rec_step_ok fill vs : wf_vectors K (o_amount ord) vs -> (forall v, In v (o_inputs ord) -> wf_vec K (fill v)) ->
  exists vs', sim_step K ord fill vs = Ok vs' /\ wf_vectors K (o_amount ord) vs' /\ (forall v, In v (o_inputs ord) -> nth v vs' [] = fill v) /\
    (forall j v, j < 64 * K -> In v (map ov (o_steps ord)) -> holds (problem p) (sim_assignment vs' j) (gate_clauses (nth v gs gate_none))).
Proof.
  intros HW HF. cbn [ord o_inputs o_amount o_steps] in *.
  destruct (randomize_ok K (r_amount st) (r_ins st) fill HF (fun v Hv => t_ax _ _ _ HR v (or_intror Hv)) vs HW) as (v1 & E1 & W1 & N1). unfold sim_step, ord. cbn [o_inputs o_steps]. rewrite E1. cbn [bind].
  assert (IV : forall v s c l, In s (rstep v) -> In v (r_order st) -> In c (snd s) -> In l c -> lvar l = v \/ (In (lvar l) (r_ins st) /\ defined gs (lvar l) = false) \/ child np gs v (lvar l)).
  { intros v s c l Hs Hv Hc Hl. destruct (rstep_in v s Hs) as (_ & o & EO & EV & _ & _ & ->). cbn [snd] in Hc. apply in_map_iff in Hc. destruct Hc as (i & <- & Hc).
    destruct (used_clauses cfg p g WF HA HC v o i l EO Hc Hl) as [H|(i' & Hi & Ei)]; [left; congruence|]. right. destruct (defined gs (lvar l)) eqn:ED; [right|left].
    - split; auto. split; auto. exists i'. auto.
    - split; auto. apply (t_ins _ _ _ HR). split; auto. exists v. split; [apply (t_reach _ _ _ HR); auto|]. apply in_inputs. exists i'. auto. }
  assert (CO : forall u v, In u (r_order st) -> child np gs u v -> In v (r_order st)) by (intros u v Hu Hch; apply (t_reach _ _ _ HR); apply (t_reach _ _ _ HR) in Hu; eapply r_child; eauto).
  assert (DF : forall v, In v (r_order st) -> defined gs v = true) by (intros v Hv; apply (t_reach _ _ _ HR) in Hv; apply (reach_def gs rl); auto).
  destruct (propagate_dup K (r_amount st) (flat_map rstep (r_order st)) [] v1 W1) as (v2 & E2 & W2 & N2 & EV).
  - intros s Hs. apply in_flat_map in Hs. destruct Hs as (v & Hv & Hs). rewrite (rstep_var v s Hs). apply (t_ax _ _ _ HR). auto.
  - intros s c l Hs Hc Hl. apply in_flat_map in Hs. destruct Hs as (v & Hv & Hs). apply (t_ax _ _ _ HR). destruct (IV v s c l Hs Hv Hc Hl) as [H|[(H & _)|H]]; [rewrite H; auto|auto|left; eapply CO; eauto].
  - intros j t _ [].
  - intros t [].
  - cbn [app]. intros x s y EX. destruct (rsteps_split _ _ _ _ EX) as (a & v & b & F1 & F2 & F3 & F4). assert (Hs : In s (rstep v)) by (rewrite F2; left; auto). assert (Hv : In v (r_order st)) by (rewrite F1; apply in_or_app; right; left; auto).
    destruct (in_dec Nat.eq_dec v a) as [Ha|Ha]; [left; rewrite F3; apply in_flat_map; exists v; auto|right]. rewrite (rstep_var v s Hs). split.
    + rewrite F3, rsteps_vars. tauto.
    + intros c l Hc Hl. rewrite (rstep_var v s Hs), F3. rewrite !rsteps_vars. destruct (IV v s c l Hs Hv Hc Hl) as [H|[(H & HD)|H]]; auto.
      * right. left. intros (H' & _). apply DF in H'. congruence.
      * pose proof (t_sort _ _ _ HR a v b (lvar l) F1 H) as HIN. cbn [app] in HIN. destruct (in_dec Nat.eq_dec (lvar l) (map ov (flat_map rstep a))) as [Q|Q]; [right; right; apply rsteps_vars in Q; auto|]. right. left. intros (_ & P). apply Q, rsteps_vars. auto.
  - rewrite E2. exists v2. split; auto. split; auto. split.
    + intros v Hv. rewrite N2, N1; auto. rewrite rsteps_vars. intros (HX & _). apply DF in HX. apply (t_ins _ _ _ HR) in Hv. destruct Hv. unfold gs in *. congruence.
    + intros j v Hj Hv. apply rsteps_vars in Hv. destruct Hv as (Hin & HP). apply rstep_passing in HP. destruct HP as (s & ES0). assert (Hs : In s (rstep v)) by (rewrite ES0; left; auto).
      destruct (rstep_in v s Hs) as (_ & o & EG & EVO & _ & _ & EQ). destruct (gates_ok cfg p g v o WF HA EG) as (A1 & A2 & A3 & A4 & A5 & A6 & A7 & A8). fold gs in A3, A4, A5, A6, A7.
      assert (ES : evaluated (sim_assignment v2 j) (fst (used_side (nth v gs gate_none) o), map (cl (problem p)) (snd (used_side (nth v gs gate_none) o)))). { rewrite <- EQ. apply EV; auto. cbn [app]. apply in_flat_map. exists v. auto. }
      unfold evaluated in ES. cbn [fst snd] in ES. rewrite used_var in ES. unfold used_side in ES. unfold gate_clauses in *. destruct (_ || _); cbn [fst snd] in ES.
      * rewrite lneg_invol in ES. apply (gate_holds (problem p) (variables p) _ o); auto.
      * assert (HH : holds (problem p) (sim_assignment v2 j) (g_bwd (nth v gs gate_none) ++ g_fwd (nth v gs gate_none))). { apply (gate_holds (problem p) (variables p) _ (lneg o)); rewrite ?lneg_invol, ?lvar_neg; auto. intros x. assert (SW : forall f, holds (problem p) f (g_fwd (nth v gs gate_none) ++ g_bwd (nth v gs gate_none)) -> holds (problem p) f (g_bwd (nth v gs gate_none) ++ g_fwd (nth v gs gate_none))) by (intros f H c Hc; apply H; apply in_app_iff in Hc; apply in_or_app; tauto). rewrite lneg_invol. destruct (A7 x) as [H|H]; [right|left]; apply SW; auto. }
        intros c Hc. apply HH. apply in_app_iff in Hc. apply in_or_app. tauto.
Qed.
Lemma rec_steps_ok : forall fills vs, wf_vectors K (o_amount ord) vs -> (forall fill v, In fill fills -> In v (o_inputs ord) -> wf_vec K (fill v)) ->
  exists hist, sim_steps K ord fills vs = Ok hist /\ (forall vs', In vs' hist -> wf_vectors K (o_amount ord) vs') /\
    Forall2 (fun (fill : var -> vec) vs' => forall v, In v (o_inputs ord) -> nth v vs' [] = fill v) fills hist /\
    (forall a v, simulated K hist a -> In v (map ov (o_steps ord)) -> holds (problem p) a (gate_clauses (nth v gs gate_none))).
Proof.
  induction fills as [|f fills IH]; intros vs HW HF; cbn [sim_steps]; [exists []; split; auto; split; [intros v []|split; [constructor|intros a v (x & j & [] & _)]]|].
  destruct (rec_step_ok f vs HW) as (v1 & E1 & W1 & N1 & S1); [intros v Hv; apply HF; auto; left; auto|]. rewrite E1. cbn [bind]. destruct (IH v1 W1) as (h & E2 & W2 & N2 & S2); [intros fl v Hf; apply HF; right; auto|]. rewrite E2. cbn [bind]. exists (v1 :: h). split; auto. split; [intros v' [<-|Hv]; auto|]. split; [constructor; auto|].
  intros a v (x & j & Hx & Hj & Ha) Hv. destruct Hx as [<-|Hx]; [|apply S2; auto; exists x, j; auto]. intros c Hc. destruct (S1 j v Hj Hv c Hc) as (l & Hl & E). exists l. split; auto. unfold lit_holds, lit_val in *. rewrite Ha. auto.
Qed.
End R.
