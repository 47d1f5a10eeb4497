(** When a pair of clause sets around an output literal is a functional definition. *)
Require Import List Arith Bool NArith Lia Permutation Sorted.
From Coq Require Import ZifyBool ZifyNat ZifyN.
Require Import Verif.Base Verif.Outcome Verif.CNFModel Verif.CNFProofs Verif.TrailProofs Verif.GateModel Verif.GateSpec Verif.BlockProofs Verif.BlockMore.
Import ListNotations.

Lemma to_set_in l x : In x (to_set l) <-> In x l.
Proof. unfold to_set. rewrite unique_in by apply sort_sorted. apply sort_in. Qed.
Lemma ssorted_nodup l : StronglySorted lt l -> NoDup l.
Proof. induction 1 as [|x l HS IH HF]; constructor; auto. rewrite Forall_forall in HF. intros H. apply HF in H. lia. Qed.
Lemma to_set_nodup l : NoDup (to_set l).
Proof. apply ssorted_nodup, unique_strict, sort_sorted. Qed.

Definition restv (o : lit) (c : clause) : clause := filter (fun l => negb (lvar l =? lvar o)) c.
Lemma restv_in o c l : In l (restv o c) <-> In l c /\ lvar l <> lvar o.
Proof. unfold restv. rewrite filter_In, negb_true_iff, Nat.eqb_neq. reflexivity. Qed.
Lemma make_true_self x o : lit_holds (make_true x o) o.
Proof. unfold lit_holds, lit_val, make_true. rewrite Nat.eqb_refl. destruct (lsign o); auto. Qed.
Lemma make_true_other x o l : lvar l <> lvar o -> (lit_holds (make_true x o) l <-> lit_holds x l).
Proof. intros H. unfold lit_holds, lit_val, make_true. apply Nat.eqb_neq in H. rewrite H. reflexivity. Qed.
(** a clause with the negation of the literal that is made true *)
Lemma sat_rest x o c : In (lneg o) c -> ~ tautology c -> (sat_clause (make_true x o) c <-> sat_clause x (restv o c)).
Proof.
  intros Ho HT. split.
  - intros (l & Hl & H). destruct (Nat.eq_dec (lvar l) (lvar o)) as [E|E].
    + exfalso. destruct (same_var _ _ E) as [->| ->]; [apply HT; exists o; auto|]. apply lit_holds_neg in H. apply H, make_true_self.
    + exists l. split; [apply restv_in; auto|]. apply (make_true_other x o l E). auto.
  - intros (l & Hl & H). apply restv_in in Hl. destruct Hl as (Hl & E). exists l. split; auto. apply make_true_other; auto.
Qed.

Section G.
Variable cs : list clause.
Variable n : nat.
Hypothesis WF : wf_problem n cs.
Notation C := (cl cs).
Definition rest_of (o : lit) (c : nat) : clause := restv o (cl cs c).

Variable o : lit.
Variables fwd bwd : list nat.
Hypothesis HF : forall c, In c fwd -> In (lneg o) (C c).
Hypothesis HB : forall c, In c bwd -> In o (C c).

Lemma holds_true x : holds cs (make_true x o) (fwd ++ bwd) <-> forall c, In c fwd -> sat_clause x (rest_of o c).
Proof.
  unfold holds, rest_of. split; intros H c Hc.
  - apply sat_rest; [auto|apply (cl_wf cs n WF)|]. apply H, in_or_app. auto.
  - apply in_app_or in Hc. destruct Hc as [Hc|Hc]; [apply sat_rest; auto; apply (cl_wf cs n WF)|]. exists o. split; auto. apply make_true_self.
Qed.
Lemma rest_neg c : rest_of o c = restv (lneg o) (C c).
Proof. unfold rest_of, restv. rewrite lvar_neg. auto. Qed.
Lemma holds_false x : holds cs (make_true x (lneg o)) (fwd ++ bwd) <-> forall c, In c bwd -> sat_clause x (rest_of o c).
Proof.
  unfold holds. split; intros H c Hc.
  - rewrite rest_neg. apply sat_rest; [rewrite lneg_invol; auto|apply (cl_wf cs n WF)|]. apply H, in_or_app. auto.
  - apply in_app_or in Hc. destruct Hc as [Hc|Hc]; [exists (lneg o); split; auto; apply make_true_self|]. apply sat_rest; [rewrite lneg_invol; auto|apply (cl_wf cs n WF)|]. rewrite <- rest_neg. auto.
Qed.
Lemma all_dec x f : {forall c, In c f -> sat_clause x (rest_of o c)} + {exists c, In c f /\ ~ sat_clause x (rest_of o c)}.
Proof.
  induction f as [|c f [IH|IH]].
  - left. intros c [].
  - destruct (sat_clause_dec x (rest_of o c)); [left|right]; [intros d [<-|H]; auto|exists c; split; auto; left; auto].
  - right. destruct IH as (d & H & H'). exists d. split; auto. right. auto.
Qed.

Hypothesis HT : forall c d, In c bwd -> In d fwd -> tautology (resolvent o (C c) (C d)).
(** a clash *)
Lemma clash c d : In c bwd -> In d fwd -> exists l, In l (rest_of o c) /\ In (lneg l) (rest_of o d).
Proof.
  intros Hc Hd. destruct (HT c d Hc Hd) as (l & Ha & Hb). unfold resolvent in *. apply in_app_or in Ha. apply in_app_or in Hb. rewrite !filter_In, !negb_true_iff, !Nat.eqb_neq in Ha, Hb.
  assert (T1 : ~ tautology (C c)) by apply (cl_wf cs n WF). assert (T2 : ~ tautology (C d)) by apply (cl_wf cs n WF). specialize (HB c Hc). specialize (HF d Hd).
  assert (HV : forall l, In l (C c) -> l <> o -> lvar l <> lvar o). { intros y Hy Hn E. destruct (same_var _ _ E) as [->| ->]; auto. apply T1. exists o. auto. }
  unfold rest_of. destruct Ha as [(Ha & Na)|(Ha & Na)]; destruct Hb as [(Hb & Nb)|(Hb & Nb)].
  - exfalso. apply T1. exists l. auto.
  - exists l. rewrite !restv_in, lvar_neg. auto.
  - exists (lneg l). rewrite !restv_in, lneg_invol. specialize (HV _ Hb Nb). rewrite lvar_neg in *. auto.
  - exfalso. apply T2. exists l. auto.
Qed.
Lemma gate_left_total : left_total cs o (fwd ++ bwd).
Proof.
  intros x. rewrite holds_true, holds_false. destruct (all_dec x fwd) as [H|(d & Hd & Nd)]; auto. destruct (all_dec x bwd) as [H|(c & Hc & Nc)]; auto. exfalso.
  destruct (clash c d Hc Hd) as (l & H1 & H2). destruct (lit_holds_or x l) as [H|H]; [apply Nc|apply Nd]; eexists; eauto.
Qed.
Lemma gate_functional : (forall x, exists c, In c (fwd ++ bwd) /\ ~ sat_clause x (rest_of o c)) -> functional cs o (fwd ++ bwd).
Proof.
  intros H x. destruct (H x) as (c & Hc & Nc). destruct (gate_left_total x) as [L|L]; [left|right]; split; auto; rewrite ?holds_true, ?holds_false in *; intros L'; apply in_app_or in Hc; destruct Hc; apply Nc; auto.
Qed.
(** the clauses without the output are contradictory *)
Lemma unsat_functional : unsat (map (fun c => restv o (C c)) (fwd ++ bwd)) -> functional cs o (fwd ++ bwd).
Proof.
  intros HU. apply gate_functional. intros x. destruct (all_dec x (fwd ++ bwd)) as [H|H]; auto. exfalso. apply (HU x). intros c Hc. apply in_map_iff in Hc. destruct Hc as (d & <- & Hd). apply H. auto.
Qed.

(** ** Patterns *)
Definition fwd_inp : list lit := to_set (flat_map (fun c => filter (fun l => negb (l =? lneg o)) (C c)) fwd).
Definition bwd_inp : list lit := to_set (map lneg (flat_map (fun c => filter (fun l => negb (l =? o)) (C c)) bwd)).
Lemma fwd_rest c l : In c fwd -> (In l (C c) /\ l <> lneg o <-> In l (rest_of o c)).
Proof.
  intros Hc. unfold rest_of. rewrite restv_in. split; intros (A & A'); split; auto.
  - intros E. destruct (same_var _ _ E) as [->| ->]; auto. destruct (cl_wf cs n WF c) as (_ & T & _). apply T. exists o. auto.
  - intros ->. rewrite lvar_neg in A'. auto.
Qed.
Lemma bwd_rest c l : In c bwd -> (In l (C c) /\ l <> o <-> In l (rest_of o c)).
Proof.
  intros Hc. unfold rest_of. rewrite restv_in. split; intros (A & A'); split; auto.
  intros E. destruct (same_var _ _ E) as [->| ->]; auto. destruct (cl_wf cs n WF c) as (_ & T & _). apply T. exists o. auto.
Qed.
Lemma fwd_inp_in l : In l fwd_inp <-> exists c, In c fwd /\ In l (rest_of o c).
Proof.
  unfold fwd_inp. rewrite to_set_in, in_flat_map. split; intros (c & Hc & H); exists c; split; auto.
  - apply filter_In in H. rewrite negb_true_iff, Nat.eqb_neq in H. apply fwd_rest; auto.
  - apply filter_In. rewrite negb_true_iff, Nat.eqb_neq. apply fwd_rest; auto.
Qed.
Lemma bwd_inp_in l : In l bwd_inp <-> exists c, In c bwd /\ In (lneg l) (rest_of o c).
Proof.
  unfold bwd_inp. rewrite to_set_in, in_map_iff. split.
  - intros (k & <- & H). apply in_flat_map in H. destruct H as (c & Hc & H). exists c. split; auto. rewrite lneg_invol. apply filter_In in H. rewrite negb_true_iff, Nat.eqb_neq in H. apply bwd_rest; auto.
  - intros (c & Hc & H). exists (lneg l). split; [apply lneg_invol|]. apply in_flat_map. exists c. split; auto. apply filter_In. rewrite negb_true_iff, Nat.eqb_neq. apply bwd_rest; auto.
Qed.
Lemma rest_len c k : (In c fwd \/ In c bwd) -> length (C c) = S k -> length (rest_of o c) = k.
Proof.
  intros Hc HL. destruct (cl_wf cs n WF c) as (N & T & _). assert (E : exists y, In y (C c) /\ lvar y = lvar o) by (destruct Hc as [Hc|Hc]; [exists (lneg o)|exists o]; rewrite ?lvar_neg; auto).
  destruct E as (y & Hy & Ey). unfold rest_of. clear HF HB HT Hc. assert (ER : forall l, In l (C c) -> lvar l = lvar o -> l = y). { intros l Hl E. rewrite <- Ey in E. destruct (same_var _ _ E) as [->| ->]; auto. exfalso. apply T. exists y. auto. }
  apply in_split in Hy. destruct Hy as (a & b & EC). rewrite EC in *. unfold restv. rewrite filter_app. cbn [filter]. rewrite Ey, Nat.eqb_refl. cbn [negb].
  assert (EF : forall u, (forall l, In l u -> In l (a ++ y :: b) /\ l <> y) -> filter (fun l => negb (lvar l =? lvar o)) u = u). { induction u as [|z u IH]; intros Hu; auto. cbn [filter]. destruct (Nat.eqb_spec (lvar z) (lvar o)) as [E|E]; cbn [negb]. - exfalso. destruct (Hu z (or_introl eq_refl)) as (U1 & U2). apply U2, ER; auto. - f_equal. apply IH. intros l Hl. apply Hu. right. auto. }
  apply NoDup_remove_2 in N. rewrite !EF; [rewrite app_length in *; cbn [length] in HL; lia|..]; intros l Hl; (split; [apply in_or_app; cbn; auto|intros ->; apply N, in_or_app; auto]).
Qed.
Lemma rest_size2 c l : (In c fwd \/ In c bwd) -> length (C c) = 2 -> In l (rest_of o c) -> rest_of o c = [l].
Proof.
  intros Hc HL Hl. apply (rest_len c 1 Hc) in HL. destruct (rest_of o c) as [|y [|z r]]; cbn in HL, Hl; try discriminate. destruct Hl as [->|[]]. auto.
Qed.
Hypothesis HE : fwd_inp = bwd_inp.
Lemma pat_or c : fwd = [c] -> (forall d, In d bwd -> length (C d) = 2) -> functional cs o (fwd ++ bwd).
Proof.
  intros E H2. apply gate_functional. intros x. assert (Hcf : In c fwd) by (rewrite E; left; auto). destruct (sat_clause_dec x (rest_of o c)) as [(l & Hl & H)|H]; [|exists c; split; auto; apply in_or_app; auto].
  assert (HI : In l bwd_inp) by (rewrite <- HE; apply fwd_inp_in; eauto). apply bwd_inp_in in HI. destruct HI as (d & Hd & HL). exists d. split; [apply in_or_app; auto|]. rewrite (rest_size2 d (lneg l)); auto. intros (k & [<-|[]] & Hk). apply lit_holds_neg in Hk. auto.
Qed.
Lemma pat_and d : bwd = [d] -> (forall c, In c fwd -> length (C c) = 2) -> functional cs o (fwd ++ bwd).
Proof.
  intros E H2. apply gate_functional. intros x. assert (Hcf : In d bwd) by (rewrite E; left; auto). destruct (sat_clause_dec x (rest_of o d)) as [(l & Hl & H)|H]; [|exists d; split; auto; apply in_or_app; auto].
  assert (HI : In (lneg l) fwd_inp) by (rewrite HE; apply bwd_inp_in; exists d; rewrite lneg_invol; auto). apply fwd_inp_in in HI. destruct HI as (c & Hc & HL). exists c. split; [apply in_or_app; auto|]. rewrite (rest_size2 c (lneg l)); auto. intros (k & [<-|[]] & Hk). apply lit_holds_neg in Hk. auto.
Qed.

(** ** The 2^n pattern with complete clauses *)
Fixpoint allb (m : nat) : list (list bool) := match m with O => [[]] | S m => map (cons true) (allb m) ++ map (cons false) (allb m) end.
Lemma allb_in : forall m l, In l (allb m) <-> length l = m.
Proof.
  induction m as [|m IH]; intros l; cbn [allb].
  - destruct l; cbn; split; auto; [intros [H|[]]; discriminate|discriminate].
  - rewrite in_app_iff, !in_map_iff. split; [intros [(y & <- & H)|(y & <- & H)]; apply IH in H; cbn; lia|]. destruct l as [|[] l]; cbn [length]; intros H; [discriminate|left|right]; exists l; split; auto; apply IH; lia.
Qed.
Lemma allb_len m : length (allb m) = 2 ^ m.
Proof. induction m as [|m IH]; auto. cbn [allb]. rewrite app_length, !map_length, IH. cbn. lia. Qed.
Lemma NoDup_map_inj {A B} (f : A -> B) l : NoDup l -> (forall x y, In x l -> In y l -> f x = f y -> x = y) -> NoDup (map f l).
Proof.
  induction 1 as [|x l Hx HN IH]; intros H; cbn [map]; constructor.
  - intros HI. apply in_map_iff in HI. destruct HI as (y & E & Hy). apply Hx. rewrite <- (H y x); cbn; auto.
  - apply IH. intros a b Ha Hb. apply H; right; auto.
Qed.
Definition vars_inp : list nat := to_set (map lvar fwd_inp).
Lemma vars_in v : In v vars_inp <-> exists l, In l fwd_inp /\ lvar l = v.
Proof. unfold vars_inp. rewrite to_set_in, in_map_iff. split; intros (l & A & A'); exists l; auto. Qed.
Lemma rest_vars c l : In c (fwd ++ bwd) -> In l (rest_of o c) -> In (lvar l) vars_inp.
Proof.
  intros Hc Hl. apply vars_in. apply in_app_or in Hc. destruct Hc as [Hc|Hc].
  - exists l. split; auto. apply fwd_inp_in. eauto.
  - exists (lneg l). split; [|apply lvar_neg]. rewrite HE. apply bwd_inp_in. exists c. rewrite lneg_invol. auto.
Qed.
Definition patt (c : nat) : list bool := map (fun v => existsb (Nat.eqb (mkLit v false)) (rest_of o c)) vars_inp.
Hypothesis HSZ : forall c, In c (fwd ++ bwd) -> length (C c) = S (length vars_inp).
Lemma rest_full c v : In c (fwd ++ bwd) -> In v vars_inp -> exists l, In l (rest_of o c) /\ lvar l = v.
Proof.
  intros Hc Hv. assert (EL : length (rest_of o c) = length vars_inp) by (apply rest_len; [apply in_app_or; auto|apply HSZ; auto]).
  destruct (cl_wf cs n WF c) as (N & T & _).
  assert (HN : NoDup (map lvar (rest_of o c))). { apply NoDup_map_inj. - unfold rest_of, restv. apply NoDup_filter. auto. - intros x y Hx Hy E. apply restv_in in Hx. apply restv_in in Hy. destruct (same_var _ _ E) as [->| ->]; auto. exfalso. apply T. exists y. tauto. }
  assert (HI : incl vars_inp (map lvar (rest_of o c))). { apply NoDup_length_incl; auto; [rewrite map_length; lia|]. intros y Hy. apply in_map_iff in Hy. destruct Hy as (l & <- & Hl). apply (rest_vars c); auto. }
  apply HI in Hv. apply in_map_iff in Hv. destruct Hv as (l & E & Hl). eauto.
Qed.
Lemma patt_lit c l : In c (fwd ++ bwd) -> In (lvar l) vars_inp -> (In l (rest_of o c) <-> existsb (Nat.eqb (mkLit (lvar l) false)) (rest_of o c) = negb (lsign l)).
Proof.
  intros Hc Hv. destruct (cl_wf cs n WF c) as (N & T & _). destruct (rest_full c _ Hc Hv) as (k & Hk & Ek).
  assert (NT : forall y, In y (rest_of o c) -> ~ In (lneg y) (rest_of o c)). { intros y H1 H2. apply restv_in in H1. apply restv_in in H2. apply T. exists y. tauto. }
  destruct (existsb _ _) eqn:EX.
  - apply mem_spec in EX. split.
    + intros Hl. destruct (lsign l) eqn:ES; auto. exfalso. apply (NT _ EX). rewrite lneg_mk. cbn [negb]. rewrite <- ES, <- lit_eta. auto.
    + intros E. rewrite (lit_eta l). destruct (lsign l); [discriminate|auto].
  - assert (NX : ~ In (mkLit (lvar l) false) (rest_of o c)) by (intros H; apply mem_spec in H; congruence). split.
    + intros Hl. destruct (lsign l) eqn:ES; auto. exfalso. apply NX. rewrite <- ES, <- lit_eta. auto.
    + intros E. destruct (lsign l) eqn:ES; [|discriminate]. rewrite (lit_eta l), ES. rewrite (lit_eta k), Ek in Hk. destruct (lsign k); [auto|contradiction].
Qed.
Lemma patt_same c d : In c (fwd ++ bwd) -> In d (fwd ++ bwd) -> patt c = patt d -> forall l, In l (rest_of o c) <-> In l (rest_of o d).
Proof.
  intros Hc Hd E l. assert (EV : forall v, In v vars_inp -> existsb (Nat.eqb (mkLit v false)) (rest_of o c) = existsb (Nat.eqb (mkLit v false)) (rest_of o d)).
  { unfold patt in E. intros v Hv. clear - E Hv. induction vars_inp as [|w r IH]; [destruct Hv|]. cbn [map] in E. injection E as E1 E2. destruct Hv as [->|Hv]; auto. }
  split; intros H.
  - pose proof (rest_vars c l Hc H) as HV. apply patt_lit; auto. rewrite <- EV by auto. apply patt_lit; auto.
  - pose proof (rest_vars d l Hd H) as HV. apply patt_lit; auto. rewrite EV by auto. apply patt_lit; auto.
Qed.
Hypothesis NF : NoDup fwd.
Hypothesis NB : NoDup bwd.
Hypothesis HD : forall c d, In c (fwd ++ bwd) -> In d (fwd ++ bwd) -> (forall l, In l (C c) <-> In l (C d)) -> c = d.
Lemma pat_full : length fwd = length bwd -> 2 * length fwd = 2 ^ length vars_inp -> functional cs o (fwd ++ bwd).
Proof.
  intros EL E2. apply gate_functional. intros x.
  assert (HX : forall c d, In c bwd -> In d fwd -> patt c <> patt d). { intros c d Hc Hd E. destruct (clash c d Hc Hd) as (l & H1 & H2). apply (patt_same c d) in H1; auto; [|apply in_or_app; auto|apply in_or_app; auto]. destruct (cl_wf cs n WF d) as (_ & T & _). apply restv_in in H1. apply restv_in in H2. apply T. exists l. tauto. }
  assert (HR : forall c l, In c fwd -> (In l (C c) <-> In l (rest_of o c) \/ l = lneg o)). { intros c l Hc. rewrite <- fwd_rest by auto. specialize (HF c Hc). split; [intros H; destruct (Nat.eq_dec l (lneg o)); auto|intros [[H _]| ->]; auto]. }
  assert (HR' : forall c l, In c bwd -> (In l (C c) <-> In l (rest_of o c) \/ l = o)). { intros c l Hc. rewrite <- bwd_rest by auto. specialize (HB c Hc). split; [intros H; destruct (Nat.eq_dec l o); auto|intros [[H _]| ->]; auto]. }
  assert (ND : NoDup (fwd ++ bwd)). { clear - NF NB HF HB WF. revert HF. induction NF as [|c f Hc _ IH]; intros HF; cbn [app]; auto. inversion NF; subst. constructor; [|apply IH; auto; intros; apply HF; right; auto]. rewrite in_app_iff. intros [H|H]; auto. destruct (cl_wf cs n WF c) as (_ & T & _). apply T. exists o. split; auto. apply HF. left. auto. }
  assert (NP : NoDup (map patt (fwd ++ bwd))).
  { apply NoDup_map_inj; auto. intros c d Hc Hd E. apply HD; auto. intros l. pose proof (patt_same c d Hc Hd E l) as HS. apply in_app_or in Hc. apply in_app_or in Hd. destruct Hc as [Hc|Hc]; destruct Hd as [Hd|Hd].
    - rewrite (HR c), (HR d), HS; auto. reflexivity.
    - exfalso. apply (HX d c); auto.
    - exfalso. apply (HX c d); auto.
    - rewrite (HR' c), (HR' d), HS; auto. reflexivity. }
  assert (HI : incl (allb (length vars_inp)) (map patt (fwd ++ bwd))). { apply NoDup_length_incl; auto; [rewrite map_length, app_length, allb_len; lia|]. intros y Hy. apply in_map_iff in Hy. destruct Hy as (c & <- & _). apply allb_in. unfold patt. apply map_length. }
  assert (HM : In (map (fun v => negb (x v)) vars_inp) (map patt (fwd ++ bwd))) by (apply HI, allb_in, map_length). apply in_map_iff in HM. destruct HM as (c & E & Hc). exists c. split; auto. intros (l & Hl & H).
  pose proof (rest_vars c l Hc Hl) as HV. apply (patt_lit c l Hc HV) in Hl. assert (EV : existsb (Nat.eqb (mkLit (lvar l) false)) (rest_of o c) = negb (x (lvar l))). { unfold patt in E. clear - E HV. induction vars_inp as [|w r IH]; [destruct HV|]. cbn [map] in E. injection E as E1 E2. destruct HV as [->|HV]; auto. }
  rewrite EV in Hl. unfold lit_holds, lit_val in H. destruct (x (lvar l)), (lsign l); discriminate.
Qed.
End G.
