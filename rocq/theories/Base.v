(** Specification vocabulary shared by all theorem statements: literals, clauses,
    assignments, satisfaction and entailment.  Nothing in this file models code; it is
    the independent reference the models are compared with.

    A literal is a natural number: variable [v], positive = [2*v], negative = [2*v+1]
    (this is the integer [x] of struct Lit in src/candy/core/SolverTypes.h:84-143; the
    int32/bit-level version of it and its agreement with this one is in LitModel.v). *)
Require Import List Arith Bool Lia.
Import ListNotations.

Definition var := nat.
Definition lit := nat.
Definition clause := list lit.
Definition formula := list clause.

Definition mkLit (v : var) (neg : bool) : lit := 2 * v + (if neg then 1 else 0).
Definition lvar (l : lit) : var := Nat.div2 l.
Definition lsign (l : lit) : bool := Nat.odd l.
Definition lneg (l : lit) : lit := if Nat.odd l then pred l else S l.

(** Total assignments and satisfaction. *)
Definition assignment := var -> bool.
Definition lit_val (a : assignment) (l : lit) : bool := xorb (a (lvar l)) (lsign l).
Definition lit_holds (a : assignment) (l : lit) : Prop := lit_val a l = true.
Definition sat_clause (a : assignment) (c : clause) : Prop := exists l, In l c /\ lit_holds a l.
Definition sat (a : assignment) (F : formula) : Prop := forall c, In c F -> sat_clause a c.
Definition satisfiable (F : formula) : Prop := exists a, sat a F.
Definition unsat (F : formula) : Prop := forall a, ~ sat a F.
Definition entails (F : formula) (c : clause) : Prop := forall a, sat a F -> sat_clause a c.
Definition equiv (F G : formula) : Prop := forall a, sat a F <-> sat a G.
Definition tautology (c : clause) : Prop := exists l, In l c /\ In (lneg l) c.

(** Executable versions, used to evaluate concrete examples. *)
Definition sat_clauseb (a : assignment) (c : clause) : bool := existsb (lit_val a) c.
Definition satb (a : assignment) (F : formula) : bool := forallb (sat_clauseb a) F.

(** A list of literals read as a conjunction (assumptions, a trail). *)
Definition units (ls : list lit) : formula := map (fun l => [l]) ls.

(** Elementary facts. *)
Lemma lvar_mk v s : lvar (mkLit v s) = v.
Proof.
  unfold lvar, mkLit. destruct s.
  - replace (2 * v + 1) with (S (2 * v)) by lia. apply Nat.div2_succ_double.
  - rewrite Nat.add_0_r. apply Nat.div2_double.
Qed.

Lemma lsign_mk v s : lsign (mkLit v s) = s.
Proof.
  unfold lsign, mkLit. destruct s; rewrite Nat.odd_add, Nat.odd_mul; reflexivity.
Qed.

Lemma lit_eta l : l = mkLit (lvar l) (lsign l).
Proof.
  unfold mkLit, lvar, lsign.
  pose proof (Nat.div2_odd l) as H. rewrite H at 1.
  destruct (Nat.odd l); simpl; lia.
Qed.

Lemma mkLit_inj v s v' s' : mkLit v s = mkLit v' s' -> v = v' /\ s = s'.
Proof.
  intros H. split.
  - rewrite <- (lvar_mk v s), H. apply lvar_mk.
  - rewrite <- (lsign_mk v s), H. apply lsign_mk.
Qed.

Lemma lneg_mk v s : lneg (mkLit v s) = mkLit v (negb s).
Proof.
  unfold lneg. change (Nat.odd (mkLit v s)) with (lsign (mkLit v s)). rewrite lsign_mk.
  unfold mkLit. destruct s; simpl; lia.
Qed.

Lemma lvar_neg l : lvar (lneg l) = lvar l.
Proof. rewrite (lit_eta l), lneg_mk, !lvar_mk. reflexivity. Qed.

Lemma lsign_neg l : lsign (lneg l) = negb (lsign l).
Proof. rewrite (lit_eta l), lneg_mk, !lsign_mk. reflexivity. Qed.

Lemma lneg_invol l : lneg (lneg l) = l.
Proof. rewrite (lit_eta l), !lneg_mk, negb_involutive. reflexivity. Qed.

Lemma lneg_neq l : lneg l <> l.
Proof.
  intros H. apply (f_equal lsign) in H. rewrite lsign_neg in H. destruct (lsign l); discriminate.
Qed.

Lemma lneg_inj l l' : lneg l = lneg l' -> l = l'.
Proof. intros H. rewrite <- (lneg_invol l), H. apply lneg_invol. Qed.

Lemma same_var l l' : lvar l = lvar l' -> l = l' \/ l = lneg l'.
Proof.
  intros H. rewrite (lit_eta l), (lit_eta l'), H, lneg_mk.
  destruct (lsign l), (lsign l'); auto.
Qed.

Lemma lit_val_neg a l : lit_val a (lneg l) = negb (lit_val a l).
Proof. unfold lit_val. rewrite lvar_neg, lsign_neg. destruct (a (lvar l)), (lsign l); reflexivity. Qed.

Lemma lit_holds_neg a l : lit_holds a (lneg l) <-> ~ lit_holds a l.
Proof.
  unfold lit_holds. rewrite lit_val_neg. destruct (lit_val a l); simpl; split; congruence.
Qed.

Lemma lit_holds_dec a l : {lit_holds a l} + {~ lit_holds a l}.
Proof. unfold lit_holds. destruct (lit_val a l); [left|right]; congruence. Qed.

Lemma lit_holds_or a l : lit_holds a l \/ lit_holds a (lneg l).
Proof. rewrite lit_holds_neg. destruct (lit_holds_dec a l); auto. Qed.

Lemma sat_clauseb_spec a c : sat_clauseb a c = true <-> sat_clause a c.
Proof. unfold sat_clauseb, sat_clause, lit_holds. apply existsb_exists. Qed.

Lemma satb_spec a F : satb a F = true <-> sat a F.
Proof.
  unfold satb, sat. rewrite forallb_forall.
  split; intros H c Hc; apply sat_clauseb_spec, H, Hc.
Qed.

Lemma sat_clause_dec a c : {sat_clause a c} + {~ sat_clause a c}.
Proof.
  destruct (sat_clauseb a c) eqn:E.
  - left. apply sat_clauseb_spec; auto.
  - right. rewrite <- sat_clauseb_spec. congruence.
Qed.

Lemma sat_cons a c F : sat a (c :: F) <-> sat_clause a c /\ sat a F.
Proof.
  unfold sat; simpl. split.
  - intros H; split; [apply H; auto | intros d Hd; apply H; auto].
  - intros [H1 H2] d [<-|Hd]; auto.
Qed.

Lemma sat_nil a : sat a [].
Proof. intros c []. Qed.

Lemma sat_app a F G : sat a (F ++ G) <-> sat a F /\ sat a G.
Proof.
  unfold sat. split.
  - intros H. split; intros c Hc; apply H, in_app_iff; auto.
  - intros [H1 H2] c Hc. apply in_app_iff in Hc. destruct Hc; auto.
Qed.

Lemma sat_incl a F G : incl G F -> sat a F -> sat a G.
Proof. intros Hi Hs c Hc. apply Hs, Hi, Hc. Qed.

Lemma sat_clause_incl a c d : incl c d -> sat_clause a c -> sat_clause a d.
Proof. intros Hi (l & Hl & Ha). exists l; auto. Qed.

Lemma sat_clause_nil a : ~ sat_clause a [].
Proof. intros (l & [] & _). Qed.

Lemma sat_clause_unit a l : sat_clause a [l] <-> lit_holds a l.
Proof.
  split.
  - intros (x & [->|[]] & H); auto.
  - intros H. exists l; simpl; auto.
Qed.

Lemma sat_clause_cons a l c : sat_clause a (l :: c) <-> lit_holds a l \/ sat_clause a c.
Proof.
  unfold sat_clause; simpl. split.
  - intros (x & [->|H] & Hx); eauto.
  - intros [H|(x & Hx & H)]; eauto.
Qed.

Lemma sat_clause_app a c d : sat_clause a (c ++ d) <-> sat_clause a c \/ sat_clause a d.
Proof.
  unfold sat_clause. split.
  - intros (x & H & Hx). apply in_app_iff in H. destruct H; eauto.
  - intros [(x & H & Hx)|(x & H & Hx)]; exists x; rewrite in_app_iff; auto.
Qed.

Lemma sat_units a ls : sat a (units ls) <-> forall l, In l ls -> lit_holds a l.
Proof.
  unfold sat, units. split.
  - intros H l Hl. apply sat_clause_unit, H, in_map_iff. eauto.
  - intros H c Hc. apply in_map_iff in Hc. destruct Hc as (l & <- & Hl).
    apply sat_clause_unit; auto.
Qed.

Lemma taut_sat a c : tautology c -> sat_clause a c.
Proof.
  intros (l & H1 & H2). destruct (lit_holds_or a l); [exists l | exists (lneg l)]; auto.
Qed.

Lemma entails_trans F G c : (forall d, In d G -> entails F d) -> entails G c -> entails F c.
Proof. intros H1 H2 a Ha. apply H2. intros d Hd. apply H1; auto. Qed.

Lemma entails_in F c : In c F -> entails F c.
Proof. intros H a Ha. apply Ha, H. Qed.

Lemma entails_nil_unsat F : entails F [] <-> unsat F.
Proof.
  split.
  - intros H a Ha. destruct (H a Ha) as (l & [] & _).
  - intros H a Ha. destruct (H a Ha).
Qed.
