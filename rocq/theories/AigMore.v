(** cnf2aig: the theorems about the circuit and the printed file, assembled. *)
Require Import List Arith Bool Lia Permutation.
From Coq Require Import ZifyBool ZifyNat.
Require Import Verif.Base Verif.Outcome Verif.CNFModel Verif.CNFProofs Verif.TrailProofs Verif.GateModel Verif.GateSpec Verif.BlockProofs Verif.BlockMore Verif.GatePat Verif.GateProofs Verif.GateMore Verif.GateReach Verif.AigModel Verif.AigSpec Verif.AigProofs Verif.AigLoop.
Import ListNotations.

Section M.
Variable cfg : config.
Variable p : cnf.
Variable g : gproblem.
Notation cs := (problem p).
Notation n := (variables p).
Hypothesis WF : wf_problem n cs.
Hypothesis NE : forall c, In c cs -> c <> [].
Hypothesis PN : cs <> [].
Hypothesis EA : analyze cfg p = Ok g.
Notation G v := (nth v (gates g) gate_none).
Notation gs := (normalizeRoots cs n g).

Lemma g_len : length (gates g) = n.
Proof. destruct (analyze_ok cfg p WF) as (g' & E & H & _). rewrite EA in E. injection E as <-. auto. Qed.
Lemma g_rec : recognised (gates g).
Proof. destruct (analyze_ok cfg p WF) as (g' & E & _ & _ & _ & H). rewrite EA in E. injection E as <-. auto. Qed.
Lemma g_part : Permutation (roots g ++ flat_map gate_clauses (gates g) ++ remainder g) (seq 0 (length cs)).
Proof. destruct (partition_full cfg p WF NE) as (g' & E & H). rewrite EA in E. injection E as <-. auto. Qed.
Lemma g_good v o : g_out (G v) = Some o -> lvar o = v /\ v < n /\ good cfg cs n o (G v).
Proof.
  intros E. destruct (analyze_ok cfg p WF) as (g' & E' & _ & _ & H & _). rewrite EA in E'. injection E' as <-.
  assert (Hv : v < n). { destruct (Nat.lt_ge_cases v n); auto. rewrite nth_overflow in E by (rewrite g_len; auto). discriminate. }
  destruct (H v Hv) as [H'|(o' & Ev & HG)]; [rewrite H' in E; discriminate|]. assert (o' = o) by (pose proof (gd_out _ _ _ _ _ HG); congruence). subst o'. auto.
Qed.
Lemma g_inp_def u l : In l (g_inp (G u)) -> exists o, g_out (G u) = Some o.
Proof.
  intros Hl. destruct (g_out (G u)) as [o|] eqn:E; eauto. exfalso. destruct (analyze_ok cfg p WF) as (g' & E' & _ & _ & H & _). rewrite EA in E'. injection E' as <-.
  destruct (Nat.lt_ge_cases u n) as [Hu|Hu]; [|rewrite nth_overflow in Hl by (rewrite g_len; auto); destruct Hl]. destruct (H u Hu) as [H'|(o' & Ev & HG)]; [rewrite H' in Hl; destruct Hl|]. rewrite (gd_out _ _ _ _ _ HG) in E. discriminate.
Qed.
Lemma id_lt c : In c (roots g ++ remainder g) \/ (exists v, In c (gate_clauses (G v))) -> c < length cs.
Proof.
  intros H. assert (HI : In c (seq 0 (length cs))). { apply (Permutation_in c g_part). rewrite !in_app_iff. destruct H as [H|(v & H)]; [apply in_app_or in H; tauto|]. right. left. apply in_flat_map. exists (G v). split; auto. destruct (nth_in_or_default v (gates g) gate_none) as [Hn|Hn]; auto. rewrite Hn in H. destruct H. }
  apply in_seq in HI. lia.
Qed.
Lemma cl_in c : c < length cs -> In (cl cs c) cs.
Proof. intros H. unfold cl. apply nth_In. auto. Qed.
Lemma cl_var c l : In l (cl cs c) -> lvar l < n.
Proof. intros H. apply lvar_lt. apply (cl_wf cs n WF c). auto. Qed.

(** ** the array of gates *)
Lemma gs_old v : v < n -> nth_error gs v = Some (mkAG (g_out (G v)) (map (cl cs) (g_fwd (G v)))).
Proof. intros H. unfold normalizeRoots. rewrite nth_error_app1 by (rewrite map_length, g_len; auto). rewrite nth_error_map. rewrite (nth_error_nth' (gates g) gate_none) by (rewrite g_len; auto). auto. Qed.
Lemma gs_root : nth_error gs n = Some (mkAG (Some (mkLit n false)) (map (fun c => cl cs c ++ [mkLit n true]) (roots g ++ remainder g))).
Proof. unfold normalizeRoots. rewrite nth_error_app2; rewrite map_length, g_len; auto. rewrite Nat.sub_diag. auto. Qed.
Lemma gs_len : length gs = S n.
Proof. unfold normalizeRoots. rewrite app_length, map_length, g_len. cbn. lia. Qed.

Lemma roots_ne : roots g ++ remainder g <> [].
Proof.
  intros E. apply app_eq_nil in E. destruct E as (E1 & E2). pose proof g_part as HP. rewrite E1, E2 in HP. cbn [app] in HP. rewrite app_nil_r in HP.
  destruct g_rec as (L & LN & LD & LO). assert (HL : L <> []).
  { intros ->. assert (HI : In 0 (flat_map gate_clauses (gates g))) by (apply (Permutation_in 0 (Permutation_sym HP)), in_seq; cut (length cs <> 0); [lia|]; intros E; apply PN, length_zero_iff_nil, E). apply in_flat_map in HI. destruct HI as (gt & Hg & HI). apply (In_nth _ _ gate_none) in Hg. destruct Hg as (v & Hv & <-).
    destruct (analyze_ok cfg p WF) as (g' & E' & _ & _ & H & _). rewrite EA in E'. injection E' as <-. rewrite g_len in Hv. destruct (H v Hv) as [H'|(o & Ev & HG)]; [rewrite H' in HI; destruct HI|]. apply (proj2 (LD v)). rewrite (gd_out _ _ _ _ _ HG). discriminate. }
  destruct (exists_last HL) as (x & u & EL). assert (HU : In u L) by (rewrite EL; apply in_or_app; right; left; auto). pose proof (proj1 (LD u) HU) as HO. destruct (g_out (G u)) as [o|] eqn:Eo; [|congruence].
  destruct (analyze_used cfg p g EA) as (US & _). destruct (US u o Eo) as [(c & Hc & _)|(w & Hw)]; [rewrite E1 in Hc; destruct Hc|]. destruct (g_inp_def w o Hw) as (ow & Ew). assert (HW : In w L) by (apply LD; congruence).
  destruct (in_split _ _ HW) as (a & b & E). pose proof (LO a w b E o Hw) as HN. destruct (g_good u o Eo) as (Eu & _). rewrite Eu in HN. apply HN. clear - E EL LN.
  destruct (exists_last (l := w :: b)) as (y & z & Ez); [discriminate|]. rewrite E, Ez, app_assoc in EL. apply app_inj_tail in EL. destruct EL as (_ & <-). rewrite Ez. apply in_or_app. right. left. auto.
Qed.
Lemma rest_root c : rest (mkLit n false) (cl cs c ++ [mkLit n true]) = cl cs c.
Proof.
  unfold rest. rewrite filter_app, lneg_mk. cbn [negb filter]. rewrite Nat.eqb_refl. cbn [negb]. rewrite app_nil_r.
  pose proof (cl_var c) as HV. induction (cl cs c) as [|l r IH]; auto. cbn [filter]. destruct (Nat.eqb_spec l (mkLit n true)) as [->|]; [exfalso; specialize (HV _ (or_introl eq_refl)); rewrite lvar_mk in HV; lia|]. cbn [negb]. f_equal. apply IH. intros q Hq. apply HV. right. auto.
Qed.
Lemma gates_HG : forall v ag o, nth_error gs v = Some ag -> a_out ag = Some o ->
  lvar o = v /\ a_fwd ag <> [] /\ forall c, In c (a_fwd ag) -> NoDup c /\ ~ tautology c /\ In (lneg o) c /\ vars_le n c /\ rest o c <> [].
Proof.
  intros v ag o E EO. assert (Hv : v < S n) by (rewrite <- gs_len; apply nth_error_Some; congruence). destruct (Nat.eq_dec v n) as [->|Hne].
  - rewrite gs_root in E. injection E as <-. cbn [a_out a_fwd] in *. injection EO as <-. split; [apply lvar_mk|]. split; [pose proof roots_ne as HN; destruct (roots g ++ remainder g); [contradiction|discriminate]|]. intros c Hc. apply in_map_iff in Hc. destruct Hc as (i & <- & Hi).
    destruct (cl_wf cs n WF i) as (ND & NT & NV). assert (HX : forall l, In l (cl cs i) -> lvar l <> n) by (intros l Hl; apply cl_var in Hl; lia). split; [|split; [|split; [|split]]].
    + apply nodup_app; auto; [repeat constructor; intros []|]. intros l Hl [<-|[]]. apply (HX _ Hl). apply lvar_mk.
    + intros (l & H1 & H2). rewrite !in_app_iff in H1, H2. destruct H1 as [H1|[<-|[]]], H2 as [H2|[H2|[]]].
      * apply NT. exists l. auto.
      * apply (HX _ H1). rewrite <- (lneg_invol l), <- H2, lvar_neg. apply lvar_mk.
      * apply (HX _ H2). rewrite lvar_neg. apply lvar_mk.
      * rewrite lneg_mk in H2. apply mkLit_inj in H2. destruct H2. discriminate.
    + rewrite lneg_mk. apply in_or_app. right. left. auto.
    + intros l Hl. apply in_app_or in Hl. destruct Hl as [Hl|[<-|[]]]; [apply cl_var in Hl; lia|rewrite lvar_mk; auto].
    + rewrite rest_root. apply NE, cl_in, id_lt. auto.
  - rewrite gs_old in E by lia. injection E as <-. cbn [a_out a_fwd] in *. destruct (g_good v o EO) as (Ev & Hvn & HG). split; auto. split; [pose proof (gd_ne _ _ _ _ _ HG); destruct (g_fwd (G v)); [contradiction|discriminate]|].
    intros c Hc. apply in_map_iff in Hc. destruct Hc as (i & <- & Hi). destruct (cl_wf cs n WF i) as (ND & NT & NV). split; auto. split; auto. split; [apply (gd_fwd _ _ _ _ _ HG); auto|]. split; [intros l Hl; apply cl_var in Hl; lia|].
    intros ER. assert (EU : cl cs i = [lneg o]).
    { assert (HA : forall l, In l (cl cs i) -> l = lneg o) by (intros l Hl; destruct (Nat.eq_dec l (lneg o)); auto; exfalso; assert (HX : In l (rest o (cl cs i))) by (apply rest_in; auto); rewrite ER in HX; destruct HX).
      pose proof (gd_fwd _ _ _ _ _ HG i Hi) as HX. destruct (cl cs i) as [|a [|b r]]; [destruct HX|f_equal; apply HA; left; auto|]. exfalso. inversion ND as [|? ? N1 N2]. apply N1. rewrite (HA a), (HA b); auto; [left; auto|right; left; auto|left; auto]. }
    destruct (analyze_used cfg p g EA) as (_ & [US|US]); [|rewrite US in EO; discriminate]. assert (Hr : In i (roots g)). { apply US. unfold unit_ids. apply filter_In. split; [apply in_seq; pose proof (id_lt i) as HL; cut (i < length cs); [lia|apply HL; right; exists v; apply in_or_app; auto]|rewrite EU; auto]. }
    assert (ND2 : NoDup (roots g ++ flat_map gate_clauses (gates g) ++ remainder g)) by (apply (Permutation_NoDup (Permutation_sym g_part)), seq_NoDup).
    assert (HX : In i (flat_map gate_clauses (gates g) ++ remainder g)). { apply in_or_app. left. apply in_flat_map. exists (G v). split; [apply nth_In; rewrite g_len; auto|apply in_or_app; auto]. }
    clear - ND2 Hr HX. induction (roots g) as [|r rs IH]; [destruct Hr|]. inversion ND2 as [|? ? N1 N2]. destruct Hr as [->|Hr]; [apply N1, in_or_app; auto|auto].
Qed.
Lemma gout_root : gout gs n = Some (mkLit n false).
Proof. unfold gout. rewrite gs_root. auto. Qed.
Lemma gout_old v : v < n -> gout gs v = g_out (G v).
Proof. intros H. unfold gout. rewrite gs_old; auto. Qed.
Lemma gfwd_root : gfwd gs n = map (fun c => cl cs c ++ [mkLit n true]) (roots g ++ remainder g).
Proof. unfold gfwd. rewrite gs_root. auto. Qed.
Lemma gfwd_old v : v < n -> gfwd gs v = map (cl cs) (g_fwd (G v)).
Proof. intros H. unfold gfwd. rewrite gs_old; auto. Qed.
Lemma gout_g v o : g_out (G v) = Some o -> gout gs v = Some o.
Proof. intros E. destruct (g_good v o E) as (_ & H & _). rewrite gout_old; auto. Qed.
Lemma occ_uses l : occ gs l <-> gate_uses cs g l.
Proof.
  split.
  - intros (u & o & c & E & Hc & Hl). assert (Hu : u <= n) by (apply (gout_le gs n gs_len gates_HG u o E)). destruct (Nat.eq_dec u n) as [->|Hne].
    + rewrite gfwd_root in Hc. rewrite gout_root in E. injection E as <-. apply in_map_iff in Hc. destruct Hc as (i & <- & Hi). rewrite rest_root in Hl. left. exists i. auto.
    + rewrite gfwd_old in Hc by lia. rewrite gout_old in E by lia. apply in_map_iff in Hc. destruct Hc as (i & <- & Hi). apply rest_in in Hl. right. exists u. destruct (g_good u o E) as (_ & _ & HG). apply (gd_inp _ _ _ _ _ HG). exists i. tauto.
  - intros [(i & Hi & Hl)|(u & Hl)].
    + exists n, (mkLit n false), (cl cs i ++ [mkLit n true]). split; [apply gout_root|]. split; [rewrite gfwd_root; apply in_map_iff; exists i; auto|]. rewrite rest_root. auto.
    + destruct (g_inp_def u l Hl) as (o & E). destruct (g_good u o E) as (_ & Hu & HG). apply (gd_inp _ _ _ _ _ HG) in Hl. destruct Hl as (i & Hi & Hl & Hne). exists u, o, (cl cs i). split; [apply gout_g; auto|]. split; [rewrite gfwd_old by auto; apply in_map; auto|]. apply rest_in. auto.
Qed.

(** ** the circuit *)
Section C.
Variable a : aig.
Variable R : lit -> Prop.
Hypothesis CR : created gs n a R.

Lemma R_step l q c : R l -> In c (gfwd gs (lvar l)) -> In q (rest l c) -> (exists o, g_out (G (lvar q)) = Some o) -> R q.
Proof.
  intros H1 H2 H3 (o & E). destruct (cr_closed _ _ _ _ CR l c q H1 H2 H3) as [(_ & H)|(H & _)]; auto. exfalso. apply gout_g in E. assert (HD : defg gs (lvar q) = true) by (apply defg_out; eauto). congruence.
Qed.
Lemma all_reached v o : g_out (G v) = Some o -> R o.
Proof.
  destruct g_rec as (L & LN & LD & LO). destruct (analyze_used cfg p g EA) as (US & _).
  assert (H : forall y x, L = x ++ y -> forall u, In u y -> forall o, g_out (G u) = Some o -> R o).
  { induction y as [|u y IH]; intros x EL w Hw o' Eo; [destruct Hw|]. assert (EL' : L = (x ++ [u]) ++ y) by (rewrite <- app_assoc; auto). destruct Hw as [<-|Hw]; [|apply (IH _ EL' w Hw o' Eo)].
    destruct (g_good u o' Eo) as (Eu & Hu & _). destruct (US u o' Eo) as [(c & Hc & Ho)|(w & Hw)].
    - apply (R_step (mkLit n false) o' (cl cs c ++ [mkLit n true])); [apply (cr_start _ _ _ _ CR)| | |rewrite Eu; eauto]; [rewrite lvar_mk, gfwd_root; apply in_map_iff; exists c; split; auto; apply in_or_app; auto|rewrite rest_root; auto].
    - destruct (g_inp_def w o' Hw) as (ow & Ew). assert (HW : In w L) by (apply LD; congruence). assert (HWy : In w y).
      { rewrite EL in HW. apply in_app_or in HW. destruct HW as [HW|[<-|HW]]; auto; exfalso.
        - destruct (in_split _ _ HW) as (a1 & b1 & E1). apply (LO a1 w (b1 ++ u :: y)) with (l := o'); auto; [rewrite EL, E1, <- app_assoc; auto|]. rewrite Eu. right. apply in_or_app. right. left. auto.
        - apply (LO x u y EL o' Hw). left. auto. }
      pose proof (IH _ EL' w HWy ow Ew) as HR. destruct (g_good w ow Ew) as (Eww & Hwn & HG). apply (gd_inp _ _ _ _ _ HG) in Hw. destruct Hw as (i & Hi & Hl & Hne).
      apply (R_step ow o' (cl cs i)); auto; [rewrite Eww, gfwd_old by auto; apply in_map; auto|apply rest_in; auto|rewrite Eu; eauto]. }
  intros E. apply (H L [] eq_refl v); auto. apply LD. congruence.
Qed.

Lemma sem_clause x l c : sem gs x l = true -> In c (gfwd gs (lvar l)) -> exists q, In q (rest l c) /\ lit_holds x q.
Proof. unfold sem. intros H Hc. rewrite forallb_forall in H. specialize (H c Hc). apply existsb_exists in H. exact H. Qed.
Lemma circuit_sound x : evaluation a x -> lit_val x (aig_root a) = true -> sat x cs.
Proof.
  intros HE HR c Hc. apply (In_nth _ _ []) in Hc. destruct Hc as (i & Hi & <-). fold (cl cs i). assert (HI : In i (roots g ++ flat_map gate_clauses (gates g) ++ remainder g)) by (apply (Permutation_in i (Permutation_sym g_part)), in_seq; split; [apply Nat.le_0_l|exact Hi]).
  rewrite (cr_root _ _ _ _ CR) in HR. assert (HRT : In i (roots g ++ remainder g) -> sat_clause x (cl cs i)).
  { intros H. rewrite (cr_fwd _ _ _ _ CR x HE _ (cr_start _ _ _ _ CR)) in HR. destruct (sem_clause x (mkLit n false) (cl cs i ++ [mkLit n true]) HR) as (q & Hq & HH); [rewrite lvar_mk, gfwd_root; apply in_map_iff; exists i; auto|]. rewrite rest_root in Hq. exists q. auto. }
  rewrite !in_app_iff in HI. destruct HI as [HI|[HI|HI]]; [apply HRT, in_or_app; auto| |apply HRT, in_or_app; auto]. clear HRT.
  apply in_flat_map in HI. destruct HI as (gt & Hg & HI). apply (In_nth _ _ gate_none) in Hg. destruct Hg as (v & Hv & <-). destruct (g_out (G v)) as [o|] eqn:Eo.
  2:{ exfalso. destruct (analyze_ok cfg p WF) as (g' & E' & _ & _ & H & _). rewrite EA in E'. injection E' as <-. rewrite g_len in Hv. destruct (H v Hv) as [H'|(o' & Ev & HG)]; [rewrite H' in HI; destruct HI|rewrite (gd_out _ _ _ _ _ HG) in Eo; discriminate]. }
  pose proof (all_reached v o Eo) as Ro. destruct (g_good v o Eo) as (Ev & Hvn & HG). pose proof (cr_fwd _ _ _ _ CR x HE o Ro) as HS. assert (GF : forall j, In j (g_fwd (G v)) -> In (cl cs j) (gfwd gs (lvar o))) by (intros j Hj; rewrite Ev, gfwd_old by auto; apply in_map; auto).
  apply in_app_or in HI. destruct HI as [HI|HI].
  - destruct (lit_val x o) eqn:EV.
    + destruct (sem_clause x o (cl cs i) (eq_sym HS) (GF i HI)) as (q & Hq & HH). apply rest_in in Hq. exists q. tauto.
    + exists (lneg o). split; [apply (gd_fwd _ _ _ _ _ HG); auto|]. unfold lit_holds. rewrite lit_val_neg, EV. auto.
  - destruct (lit_val x o) eqn:EV; [exists o; split; auto; apply (gd_bwd _ _ _ _ _ HG); auto|]. symmetry in HS. unfold sem in HS.
    assert (HX : exists d, In d (gfwd gs (lvar o)) /\ existsb (lit_val x) (rest o d) = false). { clear - HS. induction (gfwd gs (lvar o)) as [|d f IH]; [discriminate|]. cbn [forallb] in HS. destruct (existsb (lit_val x) (rest o d)) eqn:E; [|exists d; split; auto; left; auto]. destruct (IH HS) as (d' & H1 & H2). exists d'. split; auto. right. auto. }
    destruct HX as (d & Hd & HX). rewrite Ev, gfwd_old in Hd by auto. apply in_map_iff in Hd. destruct Hd as (j & <- & Hj). destruct (gd_blocked _ _ _ _ _ HG i j HI Hj) as (l & H1 & H2).
    assert (HF : forall q, In q (rest o (cl cs j)) -> lit_val x q = false). { intros q Hq. destruct (lit_val x q) eqn:EQ; auto. assert (HY : existsb (lit_val x) (rest o (cl cs j)) = true) by (apply existsb_exists; exists q; auto). congruence. }
    assert (HC : forall q, In q (resolvent o (cl cs i) (cl cs j)) -> lit_val x q = true -> sat_clause x (cl cs i)). { intros q Hq Hv2. unfold resolvent in Hq. apply in_app_or in Hq. destruct Hq as [Hq|Hq]; [apply filter_In in Hq; exists q; split; [tauto|exact Hv2]|]. rewrite (HF q) in Hv2; [discriminate|exact Hq]. }
    destruct (lit_val x l) eqn:EL; [apply (HC l); auto|apply (HC (lneg l)); auto; rewrite lit_val_neg, EL; auto].
Qed.

(** ** evaluation in topological order *)
Definition set_gate (x : assignment) (v : var) : assignment :=
  match gout gs v with Some o => setv x v (xorb (sem gs x o) (lsign o)) | None => x end.
Definition inputs_of (u : var) (q : var) : Prop := exists o c l, gout gs u = Some o /\ In c (gfwd gs u) /\ In l (rest o c) /\ lvar l = q.
Lemma sem_agree x y u o : gout gs u = Some o -> (forall q, inputs_of u q -> x q = y q) -> sem gs x o = sem gs y o.
Proof.
  intros E H. unfold sem. apply forallb_ext_in. intros c Hc. destruct (HG' gs n gates_HG u o E) as (Eu & _). rewrite Eu in Hc. assert (HH : forall l, In l (rest o c) -> lit_val x l = lit_val y l) by (intros l Hl; unfold lit_val; rewrite (H (lvar l)); auto; exists o, c, l; auto).
  induction (rest o c) as [|l r IH]; auto. cbn [existsb]. rewrite (HH l (or_introl eq_refl)), IH; auto. intros; apply HH; right; auto.
Qed.
Lemma eval_ok : forall K x, NoDup K -> (forall s u t, K = s ++ u :: t -> forall q, inputs_of u q -> ~ In q (u :: t)) ->
  let x' := fold_left set_gate K x in (forall v, ~ In v K -> x' v = x v) /\ (forall u o, In u K -> gout gs u = Some o -> lit_val x' o = sem gs x' o).
Proof.
  induction K as [|u K IH]; intros x ND HO; cbv zeta; cbn [fold_left]; [split; auto; intros u o []|]. inversion ND as [|? ? N1 N2]. subst.
  assert (HO' : forall s w t, K = s ++ w :: t -> forall q, inputs_of w q -> ~ In q (w :: t)) by (intros s w t E; apply (HO (u :: s)); rewrite E; auto).
  destruct (IH (set_gate x u) N2 HO') as (A & B). cbv zeta in A, B. set (x' := fold_left set_gate K (set_gate x u)) in *. assert (SG : forall v, v <> u -> set_gate x u v = x v) by (intros v Hv; unfold set_gate; destruct (gout gs u); auto; unfold setv; destruct (Nat.eqb_spec v u); congruence).
  split; [intros v Hv; rewrite A, SG; auto; intros E; apply Hv; [left|right]; auto|]. intros w o [<-|Hw] E; [|apply (B w); auto].
  assert (X1 : x' u = set_gate x u u) by (apply A; auto). rewrite (sem_agree x' x u o E).
  - destruct (HG' gs n gates_HG u o E) as (Eu & _). unfold lit_val. rewrite Eu, X1. unfold set_gate. rewrite E. unfold setv. rewrite Nat.eqb_refl. rewrite xorb_assoc, xorb_nilpotent, xorb_false_r. auto.
  - intros q Hq. pose proof (HO [] u K eq_refl q Hq) as HN. rewrite A, SG; auto; intros E2; apply HN; [left|right]; auto.
Qed.
(** the gates in topological order, the root last *)
Lemma topo : exists K, NoDup K /\ (forall v, In v K <-> defg gs v = true) /\ (forall s u t, K = s ++ u :: t -> forall q, inputs_of u q -> ~ In q (u :: t)).
Proof.
  destruct g_rec as (L & LN & LD & LO). exists (L ++ [n]). assert (LL : forall v, In v L -> v < n) by (intros v Hv; apply LD in Hv; destruct (g_out (G v)) as [o|] eqn:E; [|congruence]; apply (g_good v o E)).
  split; [apply nodup_app; auto; [repeat constructor; intros []|intros v Hv [<-|[]]; apply LL in Hv; lia]|]. split.
  - intros v. rewrite in_app_iff, defg_out. split.
    + intros [H|[<-|[]]]; [|exists (mkLit n false); apply gout_root]. pose proof (LL v H). apply LD in H. destruct (g_out (G v)) as [o|] eqn:E; [|congruence]. exists o. apply gout_g. auto.
    + intros (o & E). assert (Hv : v <= n) by (apply (gout_le gs n gs_len gates_HG v o E)). destruct (Nat.eq_dec v n) as [->|Hne]; [right; left; auto|left]. rewrite gout_old in E by lia. apply LD. congruence.
  - intros s u t E q (o & c & l & Eo & Hc & Hl & <-). assert (Hq : lvar l < n).
    { assert (Hu : u <= n) by (apply (gout_le gs n gs_len gates_HG u o Eo)). destruct (Nat.eq_dec u n) as [->|Hne].
      - rewrite gfwd_root in Hc. rewrite gout_root in Eo. injection Eo as <-. apply in_map_iff in Hc. destruct Hc as (i & <- & _). rewrite rest_root in Hl. apply (cl_var i); auto.
      - rewrite gfwd_old in Hc by lia. apply in_map_iff in Hc. destruct Hc as (i & <- & _). apply rest_in in Hl. apply (cl_var i); tauto. }
    destruct (list_eq_dec Nat.eq_dec t []) as [->|Ht]; [|destruct (exists_last Ht) as (t0 & z & ->)].
    + apply app_inj_tail in E. destruct E as (_ & E). intros [E0|[]]. rewrite <- E0, <- E in Hq. apply (Nat.lt_irrefl _ Hq).
    + rewrite app_comm_cons, app_assoc in E. apply app_inj_tail in E. destruct E as (E & <-). assert (HU : In u L) by (rewrite E; apply in_or_app; right; left; auto). pose proof (LL u HU) as Hu. rewrite gfwd_old in Hc by auto. rewrite gout_old in Eo by auto. apply in_map_iff in Hc. destruct Hc as (i & <- & Hi).
      assert (HI : In l (g_inp (G u))) by (destruct (g_good u o Eo) as (_ & _ & HG); apply (gd_inp _ _ _ _ _ HG); exists i; apply rest_in in Hl; tauto).
      pose proof (LO s u t0 E l HI) as HN. rewrite app_comm_cons, in_app_iff. intros [H|[E0|[]]]; [auto|]. rewrite <- E0 in Hq. apply (Nat.lt_irrefl _ Hq).
Qed.
Lemma R_gate l : R l -> lvar l = n /\ l = mkLit n false \/ lvar l < n /\ g_out (G (lvar l)) = Some l.
Proof.
  intros H. pose proof (cr_out _ _ _ _ CR l H) as E. pose proof (gout_le gs n gs_len gates_HG _ _ E) as Hl. destruct (Nat.eq_dec (lvar l) n) as [El|Hne].
  - left. split; auto. rewrite El, gout_root in E. congruence.
  - right. assert (Hlt : lvar l < n) by lia. rewrite gout_old in E by auto. auto.
Qed.
Lemma circuit_complete m : sat m cs -> exists x, evaluation a x /\ lit_val x (aig_root a) = true /\ forall v, In v (aig_inputs a) -> x v = m v.
Proof.
  intros HM. destruct topo as (K & KN & KD & KO). set (m' := setv m n true). set (x := fold_left set_gate K m'). destruct (eval_ok K m' KN KO) as (A & B). cbv zeta in A, B. fold x in A, B.
  assert (MC : forall l c, R l -> lit_holds m' l -> In c (gfwd gs (lvar l)) -> exists q, In q (rest l c) /\ lit_holds m' q).
  { intros l c HR HL Hc. assert (HX : exists i, i < length cs /\ (forall q, In q (cl cs i) -> lit_holds m' q -> In q (rest l c))).
    { destruct (R_gate l HR) as [(_ & ->)|(Hlt & E)].
      - rewrite lvar_mk, gfwd_root in Hc. apply in_map_iff in Hc. destruct Hc as (i & <- & Hi). exists i. split; [apply id_lt; auto|]. intros q Hq _. rewrite rest_root. auto.
      - rewrite gfwd_old in Hc by auto. apply in_map_iff in Hc. destruct Hc as (i & <- & Hi). exists i. split; [apply id_lt; right; exists (lvar l); apply in_or_app; auto|]. intros q Hq Hh. apply rest_in. split; auto. intros ->. unfold lit_holds in *. rewrite lit_val_neg, HL in Hh. discriminate. }
    destruct HX as (i & Hi & HX). destruct (HM (cl cs i) (cl_in i Hi)) as (q & Hq & Hh). assert (Hh' : lit_holds m' q). { unfold lit_holds, lit_val, m', setv in *. destruct (Nat.eqb_spec (lvar q) n) as [E|]; auto. pose proof (cl_var i q Hq). lia. } exists q. split; auto. }
  assert (MO : forall s t, K = s ++ t -> forall l, In (lvar l) s -> R l -> lit_holds m' l -> lit_holds x l).
  { induction s as [|u s IH] using rev_ind; intros t E l Hl HR Hm; [destruct Hl|]. rewrite <- app_assoc in E. apply in_app_or in Hl. destruct Hl as [Hl|[EU|[]]]; [apply (IH _ E l Hl HR Hm)|subst u].
    pose proof (cr_out _ _ _ _ CR l HR) as EO. unfold lit_holds. rewrite (B (lvar l) l); auto; [|rewrite E; apply in_or_app; right; left; auto]. unfold sem. apply forallb_forall. intros c Hc. apply existsb_exists. destruct (MC l c HR Hm Hc) as (q & Hq & Hh). exists q. split; auto.
    destruct (cr_closed _ _ _ _ CR l c q HR Hc Hq) as [(HD & HRq)|(HD & _)].
    - apply (IH _ E q); auto. assert (HK : In (lvar q) K) by (apply KD; auto). rewrite E in HK. apply in_app_or in HK. destruct HK as [HK|HK]; auto. exfalso. apply (KO s (lvar l) t E (lvar q)); auto. exists l, c, q. auto.
    - unfold lit_holds, lit_val in *. rewrite A; auto. intros HK. apply KD in HK. congruence. }
  assert (RN : lvar (mkLit n false) = n) by apply lvar_mk.
  assert (XR : lit_holds x (mkLit n false)). { apply (MO K []); [rewrite app_nil_r; auto|rewrite RN; apply KD, defg_out; exists (mkLit n false); apply gout_root|apply (cr_start _ _ _ _ CR)|]. unfold lit_holds, lit_val, m', setv. rewrite lvar_mk, lsign_mk, Nat.eqb_refl. auto. }
  destruct (cr_bwd _ _ _ _ CR x) as (x' & AG & EV); [intros l HR; apply (B (lvar l)); [apply KD, defg_out; exists l|]; apply (cr_out _ _ _ _ CR); auto|].
  exists x'. split; auto. split; [rewrite (cr_root _ _ _ _ CR); unfold lit_holds, lit_val in *; rewrite lvar_mk in *; rewrite <- AG; auto|].
  intros v Hv. destruct (cr_in _ _ _ _ CR v Hv) as ((Hvn & HD) & _). rewrite <- AG by lia. rewrite A; [|intros HK; apply KD in HK; congruence]. unfold m', setv. destruct (Nat.eqb_spec v n) as [->|]; auto. exfalso. assert (HX : defg gs n = true) by (apply defg_out; exists (mkLit n false); apply gout_root). congruence.
Qed.
Lemma no_negated v o : g_out (G v) = Some o -> ~ gate_uses cs g (lneg o).
Proof.
  intros E HU. destruct (g_good v o E) as (Ev & Hv & _). apply occ_uses in HU. destruct HU as (u & ou & c & Eu & Hc & Hl). assert (HR : R ou).
  { pose proof (gout_le gs n gs_len gates_HG _ _ Eu) as Hu. destruct (Nat.eq_dec u n) as [->|Hne]; [rewrite gout_root in Eu; injection Eu as <-; apply (cr_start _ _ _ _ CR)|]. rewrite gout_old in Eu by lia. apply (all_reached u); auto. }
  destruct (HG' gs n gates_HG u ou Eu) as (EV & _). assert (HR2 : R (lneg o)) by (apply (R_step ou (lneg o) c); [auto|rewrite EV; auto|auto|rewrite lvar_neg, Ev; eauto]).
  apply (cr_out _ _ _ _ CR) in HR2. rewrite lvar_neg, Ev, (gout_g v o E) in HR2. apply (lneg_neq o). congruence.
Qed.
End C.
End M.
