(** cnf2aig: the printed file. *)
Require Import List Arith Bool Lia Permutation.
From Coq Require Import ZifyBool ZifyNat.
Require Import Verif.Base Verif.Outcome Verif.CNFModel Verif.CNFProofs Verif.TrailProofs Verif.GateModel Verif.GateSpec Verif.BlockProofs Verif.BlockMore Verif.GatePat Verif.GateProofs Verif.GateMore Verif.GateReach Verif.AigModel Verif.AigSpec Verif.AigProofs Verif.AigLoop Verif.AigMore.
Import ListNotations.

Definition pl (neg : list bool) (l : lit) : lit := if nth (lvar l) neg false then lneg l else l.
Definition pb (neg : list bool) (b : band) : nat * nat * nat :=
  let '(o, l, r) := b in (pl neg o, pl neg l, match r with Some q => pl neg q | None => 1 end).
Definition fits (k : nat) (b : band) : Prop := let '(o, l, r) := b in lvar o < k /\ lvar l < k /\ forall q, r = Some q -> lvar q < k.

Lemma printLit_ok neg l : lvar l < length neg -> printLit neg (Some l) = Ok (pl neg l).
Proof. intros H. unfold printLit, pl. rewrite (nth_error_nth' neg false H). auto. Qed.
Lemma printLit_err neg l : (exists k, printLit neg l = Ok k) \/ printLit neg l = Err UB.
Proof. destruct l as [l|]; cbn [printLit]; [destruct (nth_error neg (lvar l)); eauto|eauto]. Qed.
Lemma printLit_inv neg l k : printLit neg (Some l) = Ok k -> lvar l < length neg.
Proof. unfold printLit. destruct (nth_error neg (lvar l)) eqn:E; [|discriminate]. intros _. apply nth_error_Some. congruence. Qed.
Lemma print_inputs_ok neg vs : (forall v, In v vs -> v < length neg) -> print_inputs neg vs = Ok (map (fun v => pl neg (mkLit v false)) vs).
Proof.
  induction vs as [|v vs IH]; intros H; auto. cbn [print_inputs map]. rewrite printLit_ok by (rewrite lvar_mk; apply H; left; auto). cbn [bind]. rewrite IH by (intros; apply H; right; auto). auto.
Qed.
Lemma print_inputs_err neg vs : (exists k, print_inputs neg vs = Ok k) \/ print_inputs neg vs = Err UB.
Proof.
  induction vs as [|v vs IH]; cbn [print_inputs]; eauto. destruct (printLit_err neg (Some (mkLit v false))) as [(k & ->)| ->]; auto. cbn [bind]. destruct IH as [(y & ->)| ->]; cbn [bind]; eauto.
Qed.
Lemma print_ands_ok neg bs : (forall b, In b bs -> fits (length neg) b) -> print_ands neg bs = Ok (map (pb neg) bs).
Proof.
  induction bs as [|((o & l) & r) bs IH]; intros H; auto. cbn [print_ands map]. destruct (H _ (or_introl eq_refl)) as (H1 & H2 & H3). rewrite !printLit_ok by auto. cbn [bind].
  assert (E : printLit neg r = Ok (match r with Some q => pl neg q | None => 1 end)) by (destruct r as [q|]; auto; apply printLit_ok; auto). rewrite E. cbn [bind]. rewrite IH by (intros; apply H; right; auto). auto.
Qed.
Lemma print_ands_err neg bs : (exists k, print_ands neg bs = Ok k) \/ print_ands neg bs = Err UB.
Proof.
  induction bs as [|((o & l) & r) bs IH]; cbn [print_ands]; eauto. destruct (printLit_err neg (Some o)) as [(k & ->)| ->]; auto. destruct (printLit_err neg (Some l)) as [(k2 & ->)| ->]; auto. destruct (printLit_err neg r) as [(k3 & ->)| ->]; auto. cbn [bind]. destruct IH as [(y & ->)| ->]; cbn [bind]; eauto.
Qed.
Lemma print_ands_inv neg bs q : print_ands neg bs = Ok q -> forall b, In b bs -> lvar (bout b) < length neg.
Proof.
  revert q. induction bs as [|((o & l) & r) bs IH]; intros q E b Hb; [destruct Hb|]. cbn [print_ands] in E. destruct (printLit neg (Some o)) as [k|] eqn:E1; [|discriminate]. cbn [bind] in E. destruct (printLit neg (Some l)) as [k2|]; [|discriminate]. cbn [bind] in E. destruct (printLit neg r) as [k3|]; [|discriminate]. cbn [bind] in E. destruct (print_ands neg bs) as [t|]; [|discriminate].
  destruct Hb as [<-|Hb]; [apply (printLit_inv _ _ _ E1)|apply (IH _ eq_refl b Hb)].
Qed.
Lemma mark_err bs : forall neg, (exists k, mark_negated bs neg = Ok k /\ length k = length neg) \/ mark_negated bs neg = Err UB.
Proof.
  induction bs as [|((o & l) & r) bs IH]; intros neg; cbn [mark_negated]; [eauto|]. destruct (lsign o); [|apply IH]. destruct (lvar o <? length neg); auto. destruct (IH (set_nth (lvar o) true neg)) as [(k & E & HL)|E]; auto. left. exists k. split; auto. rewrite HL. apply set_nth_length.
Qed.
Lemma mark_ok bs : forall neg, (forall b, In b bs -> lvar (bout b) < length neg) ->
  exists k, mark_negated bs neg = Ok k /\ length k = length neg /\ forall v, nth v k false = true <-> nth v neg false = true \/ exists b, In b bs /\ lsign (bout b) = true /\ lvar (bout b) = v.
Proof.
  induction bs as [|((o & l) & r) bs IH]; intros neg H; cbn [mark_negated].
  - exists neg. split; auto. split; auto. intros v. split; auto. intros [H'|(b & [] & _)]. auto.
  - pose proof (H _ (or_introl eq_refl)) as Ho. cbn [bout fst] in Ho. destruct (lsign o) eqn:ES.
    + destruct (Nat.ltb_spec (lvar o) (length neg)); [|lia]. destruct (IH (set_nth (lvar o) true neg)) as (k & E & HL & HN); [intros b Hb; rewrite set_nth_length; apply H; right; auto|]. exists k. rewrite set_nth_length in HL. split; auto. split; auto. intros v. rewrite HN.
      destruct (Nat.eq_dec v (lvar o)) as [->|Hne].
      * rewrite nth_set_nth_same by auto. split; auto. intros _. right. exists (o, l, r). split; [left; auto|]. auto.
      * rewrite nth_set_nth_other by auto. split; (intros [H'|(b & Hb & H1 & H2)]; [auto|right]); [exists b; split; [right|]; auto|]. destruct Hb as [<-|Hb]; [cbn [bout fst] in H2; congruence|exists b; auto].
    + destruct (IH neg) as (k & E & HL & HN); [intros b Hb; apply H; right; auto|]. exists k. split; auto. split; auto. intros v. rewrite HN. split; (intros [H'|(b & Hb & H1 & H2)]; [auto|right]); [exists b; split; [right|]; auto|]. destruct Hb as [<-|Hb]; [cbn [bout fst] in H1; congruence|exists b; auto].
Qed.
Lemma pl_var neg l : lvar (pl neg l) = lvar l.
Proof. unfold pl. destruct (nth (lvar l) neg false); auto. apply lvar_neg. Qed.
Lemma pl_val neg x y l : (forall v, y v = xorb (x v) (nth v neg false)) -> lit_val y (pl neg l) = lit_val x l.
Proof.
  intros H. unfold pl. destruct (nth (lvar l) neg false) eqn:E; [rewrite lit_val_neg|]; unfold lit_val; rewrite H, E; destruct (x (lvar l)), (lsign l); auto.
Qed.

Fixpoint idx (v : nat) (K : list nat) : nat := match K with [] => 0 | u :: r => if u =? v then 0 else S (idx v r) end.
Lemma idx_app v : forall s t, In v s -> idx v (s ++ t) < length s.
Proof. induction s as [|u s IH]; intros t H; [destruct H|]. cbn [app idx length]. destruct (Nat.eqb_spec u v); [lia|]. destruct H as [H|H]; [congruence|]. specialize (IH t H). lia. Qed.
Lemma idx_mid v : forall s t, ~ In v s -> idx v (s ++ v :: t) = length s.
Proof. induction s as [|u s IH]; intros t H; cbn [app idx length]; [rewrite Nat.eqb_refl; auto|]. destruct (Nat.eqb_spec u v) as [->|]; [exfalso; apply H; left; auto|]. rewrite IH; auto. intros H'. apply H. right. auto. Qed.

Lemma nodup_map_on {A B} (h : A -> B) l : (forall x y, In x l -> In y l -> h x = h y -> x = y) -> NoDup l -> NoDup (map h l).
Proof.
  induction l as [|x l IH]; intros H ND; [constructor|]. inversion ND as [|? ? N1 N2]. subst. cbn [map]. constructor; [|apply IH; auto; intros; apply H; auto; right; auto].
  intros HI. apply in_map_iff in HI. destruct HI as (y & E & Hy). apply N1. rewrite <- (H y x); auto; [right|left]; auto.
Qed.

Section P.
Variable cfg : config.
Variable p : cnf.
Variable g : gproblem.
Notation cs := (problem p).
Notation n := (variables p).
Hypothesis WF : wf_problem n cs.
Hypothesis NE : forall c, In c cs -> c <> [].
Hypothesis PN : cs <> [].
Hypothesis EA : analyze cfg p = Ok g.
Notation gs := (normalizeRoots cs n g).
Variable a : aig.
Variable R : lit -> Prop.
Hypothesis CR : created gs n a R.
Let LEN : length gs = S n := gs_len cfg p g WF EA.
Let HG := gates_HG cfg p g WF NE PN EA.

Lemma R_le l : R l -> lvar l <= n.
Proof. intros H. apply (gout_le gs n LEN HG (lvar l) l). apply (cr_out _ _ _ _ CR); auto. Qed.
Lemma print_undef : aig_vars a <> S n -> printAIG a = Err UB.
Proof.
  intros H. pose proof (cr_vars _ _ _ _ CR) as HV. destruct (cr_perm _ _ _ _ CR) as (V & F & _ & _ & HP & HF).
  assert (HI : In (aig_vars a) (map lvar F)) by (rewrite HF; apply in_seq; change (@variables) with variables in *; lia). apply in_map_iff in HI. destruct HI as (l & El & Hl).
  assert (HB : In l (map bout (aig_ands a))) by (apply (Permutation_in l (Permutation_sym HP)), in_or_app; auto). apply in_map_iff in HB. destruct HB as (b & Eb & Hb).
  unfold printAIG. destruct (mark_err (aig_ands a) (repeat false (aig_vars a))) as [(neg & -> & HL)| ->]; auto. cbn [bind]. rewrite repeat_length in HL.
  destruct (print_inputs_err neg (aig_inputs a)) as [(i & ->)| ->]; auto. cbn [bind]. destruct (printLit_err neg (Some (aig_root a))) as [(o & ->)| ->]; auto. cbn [bind]. destruct (print_ands_err neg (aig_ands a)) as [(q & E)| ->]; auto. exfalso.
  pose proof (print_ands_inv _ _ _ E b Hb) as HX. rewrite Eb, HL in HX. assert (EV : lvar l = aig_vars a) by exact El. rewrite EV in HX. apply (Nat.lt_irrefl _ HX).
Qed.

Hypothesis NF : aig_vars a = S n.
Lemma outs : NoDup (map bout (aig_ands a)) /\ forall l, In l (map bout (aig_ands a)) <-> R l.
Proof.
  destruct (cr_perm _ _ _ _ CR) as (V & F & ND & HV & HP & HF). rewrite NF, Nat.sub_diag in HF. cbn [seq] in HF. apply map_eq_nil in HF. subst F. rewrite app_nil_r in HP. split; [apply (Permutation_NoDup (Permutation_sym HP)); auto|]. intros l. rewrite <- HV. split; apply Permutation_in; auto. apply Permutation_sym. auto.
Qed.
Lemma out_R o l r : In (o, l, r) (aig_ands a) -> R o.
Proof. intros H. apply outs. apply in_map_iff. exists (o, l, r). auto. Qed.
Lemma op_R o l r q : In (o, l, r) (aig_ands a) -> q = l \/ r = Some q -> exists d q', In d (gfwd gs (lvar o)) /\ In q' (rest o d) /\ lvar q' = lvar q.
Proof.
  intros H Hq. destruct (cr_ops _ _ _ _ CR o l r H q Hq) as [(l' & d & q' & H1 & H2 & H3 & H4 & H5)|H1]; [|exfalso; rewrite NF in H1; lia]. assert (El : l' = o) by (apply H5, R_le, (out_R o l r); auto). subst l'. exists d, q'. auto.
Qed.
Lemma rest_le o d q : R o -> In d (gfwd gs (lvar o)) -> In q (rest o d) -> lvar q <= n.
Proof. intros H H1 H2. apply (cr_out _ _ _ _ CR) in H. destruct (HG' gs n HG _ _ H) as (_ & _ & HC). destruct (HC d H1) as (_ & _ & _ & HV & _). apply HV. apply rest_in in H2. tauto. Qed.
Lemma all_fit b : In b (aig_ands a) -> fits (S n) b.
Proof.
  destruct b as ((o & l) & r). intros H. pose proof (out_R o l r H) as HO. split; [|split].
  - pose proof (R_le o HO). lia.
  - destruct (op_R o l r l H (or_introl eq_refl)) as (d & q' & H1 & H2 & H3). rewrite <- H3. pose proof (rest_le o d q' HO H1 H2). lia.
  - intros q Hq. destruct (op_R o l r q H (or_intror Hq)) as (d & q' & H1 & H2 & H3). rewrite <- H3. pose proof (rest_le o d q' HO H1 H2). lia.
Qed.
Lemma print_def : exists neg,
  printAIG a = Ok (mkAiger (S n) (length (aig_inputs a)) 0 1 (length (aig_ands a)) (map (fun v => mkLit v false) (aig_inputs a)) (mkLit n false) (map (pb neg) (aig_ands a)))
  /\ forall v, nth v neg false = true <-> exists l, R l /\ lsign l = true /\ lvar l = v.
Proof.
  unfold printAIG. destruct (mark_ok (aig_ands a) (repeat false (aig_vars a))) as (neg & -> & HL & HN).
  { intros b Hb. rewrite repeat_length, NF. pose proof (all_fit b Hb) as HF. destruct b as ((o & l) & r). exact (proj1 HF). }
  rewrite repeat_length, NF in HL. assert (HN' : forall v, nth v neg false = true <-> exists l, R l /\ lsign l = true /\ lvar l = v).
  { intros v. rewrite HN. split.
    - intros [H|(b & Hb & H1 & H2)]; [rewrite nth_repeat in H; discriminate|]. exists (bout b). split; auto. apply outs, in_map. auto.
    - intros (l & H1 & H2 & H3). right. apply outs in H1. apply in_map_iff in H1. destruct H1 as (b & <- & Hb). exists b. auto. }
  exists neg. split; auto. cbn [bind]. rewrite print_inputs_ok by (intros v Hv; rewrite HL; destruct (cr_in _ _ _ _ CR v Hv) as ((H & _) & _); lia). cbn [bind].
  rewrite (cr_root _ _ _ _ CR), printLit_ok by (rewrite lvar_mk, HL; lia). cbn [bind]. rewrite print_ands_ok by (intros b Hb; rewrite HL; apply all_fit; auto). cbn [bind]. rewrite NF.
  assert (EI : map (fun v => pl neg (mkLit v false)) (aig_inputs a) = map (fun v => mkLit v false) (aig_inputs a)).
  { apply map_ext_in. intros v Hv. unfold pl. rewrite lvar_mk. destruct (nth v neg false) eqn:E; auto. exfalso. apply HN' in E. destruct E as (l & H1 & _ & <-). apply (cr_out _ _ _ _ CR) in H1. destruct (cr_in _ _ _ _ CR _ Hv) as ((_ & H) & _). assert (defg gs (lvar l) = true) by (apply defg_out; eauto). congruence. }
  assert (ER : pl neg (mkLit n false) = mkLit n false).
  { unfold pl. rewrite lvar_mk. destruct (nth n neg false) eqn:E; auto. exfalso. apply HN' in E. destruct E as (l & H1 & H2 & H3). apply (cr_out _ _ _ _ CR) in H1. rewrite H3, (gout_root cfg p g WF EA) in H1. injection H1 as <-. rewrite lsign_mk in H2. discriminate. }
  rewrite EI, ER. auto.
Qed.

Section F.
Variable neg : list bool.
Hypothesis HN : forall v, nth v neg false = true <-> exists l, R l /\ lsign l = true /\ lvar l = v.
Notation f := (mkAiger (S n) (length (aig_inputs a)) 0 1 (length (aig_ands a)) (map (fun v => mkLit v false) (aig_inputs a)) (mkLit n false) (map (pb neg) (aig_ands a))).

Lemma pl_R l : R l -> pl neg l = mkLit (lvar l) false.
Proof.
  intros H. unfold pl. destruct (nth (lvar l) neg false) eqn:E.
  - apply HN in E. destruct E as (q & H1 & H2 & H3). assert (q = l) by (apply (cr_out _ _ _ _ CR) in H1; apply (cr_out _ _ _ _ CR) in H; congruence). subst q. rewrite (lit_eta (lneg l)), lvar_neg, lsign_neg, H2. auto.
  - assert (ES : lsign l = false) by (destruct (lsign l) eqn:ES; auto; assert (nth (lvar l) neg false = true) by (apply HN; exists l; auto); congruence). rewrite (lit_eta l) at 1. rewrite ES. auto.
Qed.
Lemma input_plain v : In v (aig_inputs a) -> nth v neg false = false.
Proof.
  intros Hv. destruct (nth v neg false) eqn:E; auto. exfalso. apply HN in E. destruct E as (l & H1 & _ & <-). apply (cr_out _ _ _ _ CR) in H1. destruct (cr_in _ _ _ _ CR _ Hv) as ((_ & H) & _). assert (defg gs (lvar l) = true) by (apply defg_out; eauto). congruence.
Qed.
Lemma root_plain : nth n neg false = false.
Proof.
  destruct (nth n neg false) eqn:E; auto. exfalso. apply HN in E. destruct E as (l & H1 & H2 & H3). apply (cr_out _ _ _ _ CR) in H1. rewrite H3, (gout_root cfg p g WF EA) in H1. injection H1 as <-. rewrite lsign_mk in H2. discriminate.
Qed.
Lemma file_sound y : aiger_evaluation f y -> lit_val y (f_output f) = true -> exists m, sat m cs /\ forall v, In (mkLit v false) (f_inputs f) -> m v = y v.
Proof.
  intros (Y0 & HE) HO. cbn [f_output f_ands f_inputs] in *. set (x := fun v => xorb (y v) (nth v neg false)). assert (HX : forall v, y v = xorb (x v) (nth v neg false)) by (intros v; unfold x; rewrite xorb_assoc, xorb_nilpotent, xorb_false_r; auto).
  exists x. split.
  - apply (circuit_sound cfg p g WF NE EA a R CR x).
    + intros o l r H. rewrite <- (pl_val neg x y o HX), <- (pl_val neg x y l HX). rewrite (HE (pl neg o) (pl neg l) (match r with Some q => pl neg q | None => 1 end)) by (apply in_map_iff; exists (o, l, r); auto). f_equal. destruct r as [q|]; [apply (pl_val neg x y q HX)|]. change 1 with (mkLit 0 true). unfold operand, lit_val. rewrite lvar_mk, lsign_mk, Y0. auto.
    + rewrite (cr_root _ _ _ _ CR). unfold lit_val in *. rewrite lvar_mk in *. unfold x. rewrite root_plain, xorb_false_r. auto.
  - intros v Hv. apply in_map_iff in Hv. destruct Hv as (w & Ew & Hw). apply mkLit_inj in Ew. destruct Ew as (-> & _). unfold x. rewrite (input_plain v Hw), xorb_false_r. auto.
Qed.

Hypothesis N0 : forall c l, In c cs -> In l c -> lvar l <> 0.
Lemma occ_clause q : occ gs q -> exists c, In c cs /\ In q c.
Proof.
  intros H. apply (occ_uses cfg p g WF NE PN EA) in H. destruct H as [(i & Hi & Hq)|(u & Hq)].
  - exists (cl cs i). split; auto. apply cl_in, (id_lt cfg p g WF NE EA). auto.
  - destruct (g_inp_def cfg p g WF EA u q Hq) as (o & E). destruct (g_good cfg p g WF EA u o E) as (_ & Hu & HGd). apply (gd_inp _ _ _ _ _ HGd) in Hq. destruct Hq as (i & Hi & Hl & _). exists (cl cs i). split; auto. apply cl_in, (id_lt cfg p g WF NE EA). right. exists u. apply in_or_app. auto.
Qed.
Lemma npos : n <> 0.
Proof.
  intros E. destruct (exists_last PN) as (s & c & EC). assert (Hc : In c cs) by (rewrite EC; apply in_or_app; right; left; auto). pose proof (NE c Hc) as HC. destruct (WF c Hc) as (_ & _ & HW). destruct c as [|l c]; [auto|]. pose proof (HW l (or_introl eq_refl)) as HX. apply lvar_lt in HX. rewrite E in HX. inversion HX.
Qed.
Lemma R_pos l : R l -> lvar l <> 0.
Proof.
  intros H. destruct (R_gate cfg p g WF NE PN EA a R CR l H) as [(E & _)|(Hlt & E)]; [rewrite E; apply npos|]. destruct (g_good cfg p g WF EA _ l E) as (_ & _ & HGd). pose proof (gd_ne _ _ _ _ _ HGd) as HF. destruct (g_fwd (nth (lvar l) (gates g) gate_none)) as [|i r] eqn:EF; [congruence|].
  rewrite <- (lvar_neg l). apply (N0 (cl cs i)); [|apply (gd_fwd _ _ _ _ _ HGd); rewrite EF; left; auto]. apply cl_in, (id_lt cfg p g WF NE EA). right. exists (lvar l). apply in_or_app. left. rewrite EF. left. auto.
Qed.
Lemma rest_pos o d q : R o -> In d (gfwd gs (lvar o)) -> In q (rest o d) -> lvar q <> 0.
Proof. intros H H1 H2. destruct (occ_clause q) as (c & Hc & Hq); [exists (lvar o), o, d; split; auto; apply (cr_out _ _ _ _ CR); auto|]. apply (N0 c); auto. Qed.
Lemma file_complete m : sat m cs -> exists y, aiger_evaluation f y /\ lit_val y (f_output f) = true /\ forall v, In (mkLit v false) (f_inputs f) -> y v = m v.
Proof.
  intros HM. destruct (circuit_complete cfg p g WF NE PN EA a R CR m HM) as (x & HE & HO & HI). cbn [f_output f_ands f_inputs].
  set (x0 := setv x 0 (nth 0 neg false)). set (y := fun v => xorb (x0 v) (nth v neg false)).
  assert (X0 : forall l, lvar l <> 0 -> lit_val x0 l = lit_val x l) by (intros l Hl; unfold lit_val, x0, setv; destruct (Nat.eqb_spec (lvar l) 0); [contradiction|auto]).
  exists y. split; [split|split].
  - unfold y, x0, setv. rewrite Nat.eqb_refl. apply xorb_nilpotent.
  - intros o l r H. apply in_map_iff in H. destruct H as (((o' & l') & r') & E & Hb). injection E as <- <- <-. pose proof (out_R _ _ _ Hb) as HR. assert (HY : forall v, y v = xorb (x0 v) (nth v neg false)) by auto.
    rewrite (pl_val neg x0 y o' HY), (pl_val neg x0 y l' HY), X0 by (apply R_pos; auto). rewrite X0.
    2:{ destruct (op_R o' l' r' l' Hb (or_introl eq_refl)) as (d & q' & H1 & H2 & <-). apply (rest_pos o' d); auto. }
    rewrite (HE _ _ _ Hb). f_equal. destruct r' as [q|]; cbn [operand].
    + rewrite (pl_val neg x0 y q HY), X0; auto. destruct (op_R o' l' (Some q) q Hb (or_intror eq_refl)) as (d & q' & H1 & H2 & <-). apply (rest_pos o' d); auto.
    + change 1 with (mkLit 0 true). unfold lit_val. rewrite lvar_mk, lsign_mk. unfold y, x0, setv. rewrite Nat.eqb_refl, xorb_nilpotent. auto.
  - rewrite (cr_root _ _ _ _ CR) in HO. rewrite <- HO. unfold lit_val. rewrite lvar_mk. unfold y, x0, setv. rewrite root_plain, xorb_false_r. destruct (Nat.eqb_spec n 0) as [E|]; auto. exfalso. apply npos. auto.
  - intros v Hv. apply in_map_iff in Hv. destruct Hv as (w & Ew & Hw). apply mkLit_inj in Ew. destruct Ew as (-> & _). unfold y, x0, setv. rewrite (input_plain v Hw), xorb_false_r. destruct (Nat.eqb_spec v 0) as [->|]; auto. exfalso. destruct (cr_in _ _ _ _ CR 0 Hw) as (_ & q & Hq & E0). destruct (occ_clause q Hq) as (c & Hc & Hqc). apply (N0 c q); auto.
Qed.
Lemma outs_map : map and_output (map (pb neg) (aig_ands a)) = map (fun l => mkLit (lvar l) false) (map bout (aig_ands a)).
Proof.
  rewrite !map_map. apply map_ext_in. intros ((o & l) & r) Hb. cbn [pb and_output bout fst]. apply pl_R, (out_R o l r). auto.
Qed.
Lemma file_format : aiger_format f.
Proof.
  destruct outs as (OD & OR). destruct topo with (cfg := cfg) (p := p) (g := g) as (K & KN & KD & KO); auto.
  assert (VK : forall l, R l -> In (lvar l) K) by (intros l H; apply KD, defg_out; exists l; apply (cr_out _ _ _ _ CR); auto).
  constructor; cbn [h_I h_L h_O h_A h_M f_inputs f_ands f_output]; auto.
  - rewrite map_length. auto.
  - rewrite map_length. auto.
  - rewrite outs_map. apply nodup_app.
    + apply FinFun.Injective_map_NoDup; [intros v w E; apply mkLit_inj in E; tauto|apply (cr_nodup _ _ _ _ CR)].
    + apply nodup_map_on; auto. intros l q Hl Hq E. apply OR in Hl. apply OR in Hq. apply mkLit_inj in E. destruct E as (E & _). apply (cr_out _ _ _ _ CR) in Hl. apply (cr_out _ _ _ _ CR) in Hq. congruence.
    + intros k Hk Hk2. apply in_map_iff in Hk. destruct Hk as (v & <- & Hv). apply in_map_iff in Hk2. destruct Hk2 as (l & E & Hl). apply mkLit_inj in E. destruct E as (<- & _). apply OR in Hl. destruct (cr_in _ _ _ _ CR _ Hv) as ((_ & H) & _). assert (defg gs (lvar l) = true) by (apply KD, VK; auto). congruence.
  - rewrite outs_map. intros k Hk. apply in_app_or in Hk. destruct Hk as [Hk|Hk]; apply in_map_iff in Hk.
    + destruct Hk as (v & <- & Hv). exists v. split; auto. destruct (cr_in _ _ _ _ CR v Hv) as ((H & _) & q & Hq & E0). destruct (occ_clause q Hq) as (c & Hc & Hqc). pose proof (N0 c q Hc Hqc) as HZ. assert (v <> 0) by (intros ->; auto). lia.
    + destruct Hk as (l & <- & Hl). apply OR in Hl. exists (lvar l). split; auto. pose proof (R_le l Hl). pose proof (R_pos l Hl). lia.
  - rewrite outs_map. assert (KR : forall l, R l -> In (mkLit (lvar l) false) (map (fun v => mkLit v false) (aig_inputs a) ++ map (fun l => mkLit (lvar l) false) (map bout (aig_ands a)))) by (intros l Hl; apply in_or_app; right; apply in_map_iff; exists l; split; auto; apply OR; auto).
    assert (KO2 : forall o l r q, In (o, l, r) (aig_ands a) -> q = l \/ r = Some q -> In (mkLit (lvar q) false) (map (fun v => mkLit v false) (aig_inputs a) ++ map (fun l => mkLit (lvar l) false) (map bout (aig_ands a)))).
    { intros o l r q Hb Hq. destruct (op_R o l r q Hb Hq) as (d & q' & H1 & H2 & <-). destruct (cr_closed _ _ _ _ CR o d q' (out_R _ _ _ Hb) H1 H2) as [(_ & H)|(_ & H)]; [apply KR; auto|]. apply in_or_app. left. apply in_map_iff. exists (lvar q'). auto. }
    intros k [->|(o & l & r & H & Hk)]; [right; apply KR, (cr_start _ _ _ _ CR)|]. apply in_map_iff in H. destruct H as (((o' & l') & r') & E & Hb). injection E as <- <- <-. destruct Hk as [->| ->].
    + right. rewrite pl_var. apply (KO2 o' l' r' l' Hb). auto.
    + destruct r' as [q|]; [|left; auto]. right. rewrite pl_var. apply (KO2 o' l' (Some q) q Hb). auto.
  - exists (fun v => idx v K). intros o l r H k Hk HI. rewrite outs_map in HI. apply in_map_iff in HI. destruct HI as (q & Eq & Hq). apply mkLit_inj in Eq. destruct Eq as (Eq & _). apply OR in Hq. pose proof (R_pos q Hq) as HQ0. apply VK in Hq. rewrite Eq in Hq, HQ0.
    apply in_map_iff in H. destruct H as (((o' & l') & r') & E & Hb). injection E as <- <- <-. rewrite pl_var. pose proof (out_R _ _ _ Hb) as HR. destruct (in_split _ _ (VK o' HR)) as (s & t & EK).
    assert (HK : exists q, (q = l' \/ r' = Some q) /\ lvar q = lvar k). { destruct Hk as [->| ->]; [exists l'; rewrite pl_var; auto|]. destruct r' as [z|]; [exists z; rewrite pl_var; auto|]. exfalso. apply HQ0. reflexivity. }
    destruct HK as (z & Hz & Ez). destruct (op_R o' l' r' z Hb Hz) as (d & q' & H1 & H2 & E3). rewrite <- Ez, <- E3 in *.
    assert (HIn : inputs_of p g (lvar o') (lvar q')) by (exists o', d, q'; split; [apply (cr_out _ _ _ _ CR); auto|auto]).
    pose proof (KO s (lvar o') t EK _ HIn) as HNI. rewrite EK in Hq. apply in_app_or in Hq. destruct Hq as [Hq|Hq]; [|contradiction]. 
    assert (E1 : idx (lvar o') K = length s) by (rewrite EK; apply idx_mid; rewrite EK in KN; apply NoDup_remove_2 in KN; intros HS; apply KN, in_or_app; auto).
    assert (E2 : idx (lvar q') K < length s) by (rewrite EK; apply idx_app; auto). rewrite E1. exact E2.
Qed.
End F.
End P.

Lemma circuit_main cfg p a : wf_problem (variables p) (problem p) -> (forall c, In c (problem p) -> c <> []) -> problem p <> [] ->
  cnf2aig_circuit cfg p = Ok a ->
  exists g R, analyze cfg p = Ok g /\ created (normalizeRoots (problem p) (variables p) g) (variables p) a R.
Proof.
  intros WF NE PN E. unfold cnf2aig_circuit in E. destruct (analyze cfg p) as [g|] eqn:EA; [|discriminate]. cbn [bind] in E.
  destruct (create_ok _ _ (gs_len cfg p g WF EA) (gates_HG cfg p g WF NE PN EA) (gout_root cfg p g WF EA)) as [(a' & R & E' & CR)|(E' & _)]; rewrite E' in E; [|discriminate]. injection E as <-. eauto.
Qed.
Lemma circuit_models cfg p a : wf_problem (variables p) (problem p) -> (forall c, In c (problem p) -> c <> []) -> problem p <> [] ->
  cnf2aig_circuit cfg p = Ok a ->
  (forall x, evaluation a x -> lit_val x (aig_root a) = true -> sat x (problem p)) /\
  (forall m, sat m (problem p) -> exists x, evaluation a x /\ lit_val x (aig_root a) = true /\ forall v, In v (aig_inputs a) -> x v = m v).
Proof.
  intros WF NE PN E. destruct (circuit_main cfg p a WF NE PN E) as (g & R & EA & CR). split; [apply (circuit_sound cfg p g WF NE EA a R CR)|apply (circuit_complete cfg p g WF NE PN EA a R CR)].
Qed.
Lemma circuit_defined cfg p : wf_problem (variables p) (problem p) -> (forall c, In c (problem p) -> c <> []) -> problem p <> [] ->
  exists g, analyze cfg p = Ok g /\
  (((forall v o, g_out (nth v (gates g) gate_none) = Some o -> ~ gate_uses (problem p) g (lneg o)) /\ exists a, cnf2aig_circuit cfg p = Ok a) \/
   ((exists v o, g_out (nth v (gates g) gate_none) = Some o /\ gate_uses (problem p) g (lneg o)) /\ cnf2aig_circuit cfg p = Err UB)).
Proof.
  intros WF NE PN. destruct (analyze_ok cfg p WF) as (g & EA & _). exists g. split; auto. unfold cnf2aig_circuit. rewrite EA. cbn [bind].
  destruct (create_ok _ _ (gs_len cfg p g WF EA) (gates_HG cfg p g WF NE PN EA) (gout_root cfg p g WF EA)) as [(a & R & E & CR)|(E & o & HO & HB)].
  - left. split; [apply (no_negated cfg p g WF NE PN EA a R CR)|eauto].
  - right. split; auto. pose proof (gout_le _ _ (gs_len cfg p g WF EA) (gates_HG cfg p g WF NE PN EA) _ _ HO) as Hle. destruct HB as (u & ou & c & Eu & Hc & Hl). assert (HOC : occ (normalizeRoots (problem p) (variables p) g) (lneg o)) by (exists u, ou, c; auto).
    destruct (Nat.eq_dec (lvar o) (variables p)) as [En|Hne].
    + exfalso. destruct (occ_clause cfg p g WF NE PN EA _ HOC) as (d & Hd & Hq). destruct (WF d Hd) as (_ & _ & HV). pose proof (HV _ Hq) as HX. rewrite lvar_neg, En in HX. apply (Nat.lt_irrefl _ HX).
    + exists (lvar o), o. split; [|apply (occ_uses cfg p g WF NE PN EA); auto]. rewrite (gout_old cfg p g WF EA) in HO; auto. clear - Hle Hne. apply Nat.le_neq. auto.
Qed.
Lemma print_main cfg p a : wf_problem (variables p) (problem p) -> (forall c, In c (problem p) -> c <> []) -> problem p <> [] ->
  cnf2aig_circuit cfg p = Ok a -> S (variables p) <= aig_vars a /\
  ((aig_vars a = S (variables p) /\ exists f, printAIG a = Ok f) \/ (S (variables p) < aig_vars a /\ printAIG a = Err UB)).
Proof.
  intros WF NE PN E. destruct (circuit_main cfg p a WF NE PN E) as (g & R & EA & CR). pose proof (cr_vars _ _ _ _ CR) as HV. split; auto. destruct (Nat.eq_dec (aig_vars a) (S (variables p))) as [En|Hne].
  - left. split; auto. destruct (print_def cfg p g WF NE PN EA a R CR En) as (neg & -> & _). eauto.
  - right. split; [lia|]. apply (print_undef cfg p g WF EA a R CR Hne).
Qed.
Lemma file_main cfg p f : wf_problem (variables p) (problem p) -> cnf2aig cfg p = Ok f ->
  (forall x, aiger_evaluation f x -> lit_val x (f_output f) = true -> exists m, sat m (problem p) /\ forall v, In (mkLit v false) (f_inputs f) -> m v = x v) /\
  ((forall c l, In c (problem p) -> In l c -> lvar l <> 0) ->
   aiger_format f /\ forall m, sat m (problem p) -> exists x, aiger_evaluation f x /\ lit_val x (f_output f) = true /\ forall v, In (mkLit v false) (f_inputs f) -> x v = m v).
Proof.
  intros WF E. unfold cnf2aig in E.
  assert (TF : forall k, k < 2 -> aiger_format (mkAiger 0 0 0 1 0 [] k [])).
  { intros k Hk. constructor; cbn; auto; [constructor|intros ? []| |exists (fun _ => 0); intros ? ? ? []]. intros q [->|(o & l & r & [] & _)]. left. destruct k as [|[|k]]; auto. lia. }
  destruct (Nat.eqb_spec (length (problem p)) 0) as [E0|E0].
  { injection E as <-. apply length_zero_iff_nil in E0. rewrite E0. split.
    - intros x _ _. exists x. split; [intros c []|auto].
    - intros _. split; [apply TF; lia|]. intros m _. exists (fun _ => false). split; [split; auto; intros ? ? ? []|]. split; [auto|intros v []]. }
  destruct ((variables p =? 0) || existsb (fun c => length c =? 0) (problem p)) eqn:EE.
  { injection E as <-. assert (US : exists c, In c (problem p) /\ c = []).
    { apply orb_true_iff in EE. destruct EE as [EE|EE].
      - apply Nat.eqb_eq in EE. destruct (problem p) as [|c r] eqn:EP; [exfalso; apply E0; auto|]. exists c. split; [left; auto|]. destruct c as [|l c]; auto. exfalso. destruct (WF (l :: c) (or_introl eq_refl)) as (_ & _ & HV). specialize (HV l (or_introl eq_refl)). rewrite EE in HV. inversion HV.
      - apply existsb_exists in EE. destruct EE as (c & Hc & HL). apply Nat.eqb_eq in HL. exists c. split; auto. apply length_zero_iff_nil. auto. }
    destruct US as (c & Hc & ->). split.
    - intros x (X0 & _) HO. cbn [f_output] in HO. change 0 with (mkLit 0 false) in HO. unfold lit_val in HO. rewrite lvar_mk, lsign_mk, X0 in HO. discriminate.
    - intros _. split; [apply TF; lia|]. intros m HM. destruct (HM [] Hc) as (l & [] & _). }
  apply orb_false_iff in EE. destruct EE as (EV & EE). assert (NE : forall c, In c (problem p) -> c <> []). { intros c Hc ->. assert (HX : existsb (fun c => length c =? 0) (problem p) = true) by (apply existsb_exists; exists []; auto). congruence. }
  assert (PN : problem p <> []) by (intros E1; rewrite E1 in E0; apply E0; auto). destruct (cnf2aig_circuit cfg p) as [a|] eqn:EC; [|discriminate]. cbn [bind] in E. destruct (circuit_main cfg p a WF NE PN EC) as (g & R & EA & CR).
  destruct (Nat.eq_dec (aig_vars a) (S (variables p))) as [NF|Hne]; [|rewrite (print_undef cfg p g WF EA a R CR Hne) in E; discriminate]. destruct (print_def cfg p g WF NE PN EA a R CR NF) as (neg & EP & HN). rewrite EP in E. injection E as <-.
  split; [apply (file_sound cfg p g WF NE EA a R CR neg HN)|]. intros N0. split; [apply (file_format cfg p g WF NE PN EA a R CR NF neg HN N0)|apply (file_complete cfg p g WF NE PN EA a R CR NF neg HN N0)].
Qed.
