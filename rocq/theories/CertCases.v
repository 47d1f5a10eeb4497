(** Proofs that a checker rejects: what every reading of the lines before a clause leaves, and sets of
    literals closed under unit propagation. *)
Require Import List Arith Bool NArith Permutation Lia.
Require Import Verif.Base Verif.Outcome Verif.DbModel Verif.PropSpec Verif.SolverModel Verif.SolverSpec Verif.CertSpec Verif.CertProofs.
Import ListNotations.

Fixpoint drop_same (c : clause) (P : formula) : formula :=
  match P with [] => [] | d :: r => if sameb c d then r else d :: drop_same c r end.
Fixpoint run (P : formula) (ls : list cline) : formula :=
  match ls with
  | [] => P
  | CAdd c :: r => run (c :: P) r
  | CDel c :: r => run (drop_same c P) r
  end.
Lemma cnt_drop e c P : 0 < cnt c P -> cnt e (drop_same c P) + (if sameb e c then 1 else 0) = cnt e P.
Proof.
  induction P as [|d r IH]; cbn [drop_same]; [cbn; lia|]. rewrite cnt_cons. destruct (sameb c d) eqn:E.
  - intros _. rewrite cnt_cons. apply sameb_spec in E. rewrite (sameb_cong e c d E). lia.
  - intros H. rewrite !cnt_cons. specialize (IH ltac:(lia)). lia.
Qed.
Definition alike (P P' : formula) : Prop := forall e, cnt e P = cnt e P'.
Lemma alike_in P P' d : alike P P' -> In d P -> exists d', In d' P' /\ same_lits d d'.
Proof.
  intros H Hd. apply cnt_pos. rewrite <- (H d). unfold cnt. assert (K : In d (filter (sameb d) P)) by (apply filter_In; split; auto; apply sameb_spec, same_refl).
  destruct (filter (sameb d) P); [destruct K|cbn; lia].
Qed.
Lemma alike_sym P P' : alike P P' -> alike P' P. Proof. intros H e. symmetry. auto. Qed.

Lemma drat_split P ls Q : drat_derivation P ls Q -> forall ls1 c ls2 P0, ls = ls1 ++ CAdd c :: ls2 -> alike P P0 ->
  exists P', alike P' (run P0 ls1) /\ (rup P' c \/ rat P' c).
Proof.
  induction 1 as [P|P a ls Q H1 H2 IH|P1 c' P2 a ls Q H1 H2 IH]; intros ls1 c ls2 P0 E HA.
  - destruct ls1; discriminate.
  - destruct ls1 as [|x ls1]; cbn [app] in E; injection E as <- ->; [exists P; auto|]. cbn [run]. apply (IH ls1 c ls2 (a :: P0) eq_refl).
    intros e. rewrite !cnt_cons, (HA e). auto.
  - destruct ls1 as [|x ls1]; cbn [app] in E; [discriminate|]. injection E as <- ->. cbn [run]. apply (IH ls1 c ls2 _ eq_refl).
    intros e. assert (Hc : forall x, cnt x (P1 ++ c' :: P2) = cnt x (P1 ++ P2) + (if sameb x a then 1 else 0)).
    { intros x. rewrite !cnt_app, cnt_cons, (sameb_cong x a c' H1). lia. }
    assert (K := cnt_drop e a P0). rewrite <- (HA a), <- (HA e), !Hc in K. assert (sameb a a = true) by (apply sameb_spec, same_refl).
    rewrite H in K. specialize (K ltac:(lia)). lia.
Qed.
Lemma derivation_drat P ls Q : derivation P ls Q -> drat_derivation P ls Q.
Proof. induction 1; [apply dr_nil|apply dr_add; auto|apply dr_del; auto]. Qed.
Lemma rup_split P ls Q : derivation P ls Q -> forall ls1 c ls2 P0, ls = ls1 ++ CAdd c :: ls2 -> alike P P0 ->
  exists P', alike P' (run P0 ls1) /\ rup P' c.
Proof.
  induction 1 as [P|P a ls Q H1 H2 IH|P1 c' P2 a ls Q H1 H2 IH]; intros ls1 c ls2 P0 E HA.
  - destruct ls1; discriminate.
  - destruct ls1 as [|x ls1]; cbn [app] in E; injection E as <- ->; [exists P; auto|]. cbn [run]. apply (IH ls1 c ls2 (a :: P0) eq_refl).
    intros e. rewrite !cnt_cons, (HA e). auto.
  - destruct ls1 as [|x ls1]; cbn [app] in E; [discriminate|]. injection E as <- ->. cbn [run]. apply (IH ls1 c ls2 _ eq_refl).
    intros e. assert (Hc : forall x, cnt x (P1 ++ c' :: P2) = cnt x (P1 ++ P2) + (if sameb x a then 1 else 0)).
    { intros x. rewrite !cnt_app, cnt_cons, (sameb_cong x a c' H1). lia. }
    assert (K := cnt_drop e a P0). rewrite <- (HA a), <- (HA e), !Hc in K. assert (sameb a a = true) by (apply sameb_spec, same_refl).
    rewrite H in K. specialize (K ltac:(lia)). lia.
Qed.

Definition memb (l : lit) (T : list lit) : bool := existsb (Nat.eqb l) T.
Lemma memb_in l T : memb l T = true <-> In l T.
Proof.
  unfold memb. rewrite existsb_exists. split; [intros (x & H & E); apply Nat.eqb_eq in E; subst; auto|intros H; exists l; split; auto; apply Nat.eqb_refl].
Qed.
(** [T] contains [A], is closed under unit propagation on [P] and falsifies no clause *)
Definition stable (P : formula) (A T : list lit) : bool :=
  forallb (fun l => memb l T) A &&
  forallb (fun c => negb (forallb (fun m => memb (lneg m) T) c) &&
                    forallb (fun l => memb l T || negb (forallb (fun m => (m =? l) || memb (lneg m) T) c)) c) P.
Lemma stable_up P P' A T l : alike P' P -> stable P A T = true -> up P' A l -> In l T.
Proof.
  intros HA H HU. unfold stable in H. apply andb_true_iff in H. destruct H as (H1 & H2). rewrite forallb_forall in H1, H2.
  induction HU as [l Hl|c l Hc Hl Hm IH]; [apply memb_in; auto|]. destruct (alike_in P' P c HA Hc) as (c' & C1 & C2).
  specialize (H2 c' C1). apply andb_true_iff in H2. destruct H2 as (_ & H2). rewrite forallb_forall in H2. specialize (H2 l (proj1 (C2 l) Hl)).
  apply orb_true_iff in H2. destruct H2 as [H2|H2]; [apply memb_in; auto|]. exfalso. apply negb_true_iff in H2.
  assert (K : forallb (fun m => (m =? l) || memb (lneg m) T) c' = true); [|congruence].
  apply forallb_forall. intros m M. apply orb_true_iff. destruct (Nat.eqb_spec m l) as [|Hn]; auto. right. apply memb_in. apply IH; auto. apply C2. auto.
Qed.
Lemma stable_rup P P' c T : alike P' P -> stable P (map lneg c) T = true -> ~ rup P' c.
Proof.
  intros HA H (d & D1 & D2). destruct (alike_in P' P d HA D1) as (d' & E1 & E2). assert (H0 := H). unfold stable in H.
  apply andb_true_iff in H. destruct H as (_ & H). rewrite forallb_forall in H. specialize (H d' E1). apply andb_true_iff in H. destruct H as (H & _).
  apply negb_true_iff in H. assert (K : forallb (fun m => memb (lneg m) T) d' = true); [|congruence].
  apply forallb_forall. intros m M. apply memb_in. apply (stable_up P P' (map lneg c) T); auto. apply D2. apply E2. auto.
Qed.
Lemma up_assume P A A' l : (forall m, In m A <-> In m A') -> up P A l -> up P A' l.
Proof. intros HA H. induction H as [l Hl|c l Hc Hl Hm IH]; [apply up_assumed; apply HA; auto|apply (up_unit P A' c l); auto]. Qed.
(** some resolvent on the first literal is not [rup] *)
Lemma stable_rat P P' p r d T : alike P' P -> In d P -> In (lneg p) d ->
  stable P (map lneg ((p :: r) ++ filter (fun m => negb (Nat.eqb m (lneg p))) d)) T = true -> ~ rat P' (p :: r).
Proof.
  intros HA Hd Hp H (q & r' & E & HR). injection E as <- <-. destruct (alike_in P P' d (alike_sym _ _ HA) Hd) as (d' & D1 & D2).
  specialize (HR d' D1 (proj1 (D2 _) Hp)). apply (stable_rup P P' _ T HA H). destruct HR as (x & X1 & X2). exists x. split; auto. intros m Hm.
  apply (up_assume P' (map lneg ((p :: r) ++ filter (fun m => negb (Nat.eqb m (lneg p))) d'))); [|apply X2; auto].
  intros k. rewrite !in_map_iff. split; intros (y & Y1 & Y2); exists y; split; auto; rewrite in_app_iff, filter_In in *; rewrite (D2 y) in *; tauto.
Qed.

(** ** Concrete histories *)
Definition okb (n : nat) (c : list lit) : bool :=
  (fix nd l := match l with [] => true | x :: r => negb (memb x r) && nd r end) (map lvar c) && forallb (fun l => lvar l <? n) c.
Lemma okb_ok n c : okb n c = true -> clause_ok n c.
Proof.
  intros H. apply andb_true_iff in H. destruct H as (H & H0). split.
  - revert H. generalize (map lvar c). clear. induction l as [|x r IH]; intros H; [constructor|]. apply andb_true_iff in H. destruct H as (A & B).
    constructor; auto. intros Hx. apply memb_in in Hx. rewrite Hx in A. discriminate.
  - intros l Hl. rewrite forallb_forall in H0. apply Nat.ltb_lt. auto.
Qed.
Fixpoint play (C : cfg) (F : formula) (s : solver) (ops : list sop) : option (formula * solver) :=
  match ops with
  | [] => Some (F, s)
  | SInit n cs lemma :: r =>
    if forallb (okb (max n (nvars s))) cs
    then match solver_init n cs lemma s with Ok s' => play C (F ++ cs) s' r | Err _ => None end else None
  | SAssume ls :: r => if forallb (fun l => lvar l <? nvars s) ls then play C F (solver_assume ls s) r else None
  | SCallback cb :: r => play C F (setLearntCallback cb s) r
  | SSolve orc fuel :: r => match solve C orc fuel s with Ok (_, s') => play C F s' r | Err _ => None end
  end.
Lemma play_reach C (ok : sop -> Prop) ops : Forall ok ops -> forall F s F' s', sreach C ok F s -> play C F s ops = Some (F', s') -> sreach C ok F' s'.
Proof.
  induction 1 as [|o r Ho Hr IH]; intros F s F' s' HR E; cbn [play] in E; [injection E as <- <-; auto|]. destruct o as [n cs lemma|ls|cb|O fuel].
  - destruct (forallb (okb (max n (nvars s))) cs) eqn:Ec; [|discriminate]. destruct (solver_init n cs lemma s) as [s1|] eqn:E1; [|discriminate].
    apply (IH (F ++ cs) s1); auto. apply (sr_init C ok F s n cs lemma); auto. apply Forall_forall. rewrite forallb_forall in Ec. intros c Hc. apply okb_ok. auto.
  - destruct (forallb (fun l => lvar l <? nvars s) ls) eqn:Ec; [|discriminate]. apply (IH F (solver_assume ls s)); auto. apply sr_assume; auto.
    rewrite forallb_forall in Ec. intros l Hl. apply Nat.ltb_lt. auto.
  - apply (IH F (setLearntCallback cb s)); auto. apply sr_callback; auto.
  - destruct (solve C O fuel s) as [(x & s1)|] eqn:E1; [|discriminate]. apply (IH F s1); auto. apply (sr_solve C ok F s O fuel x); auto.
Qed.
Lemma play_new C (ok : sop -> Prop) ops F s : Forall ok ops -> play C [] (solver_new C) ops = Some (F, s) -> sreach C ok F s.
Proof. intros H E. apply (play_reach C ok ops H [] (solver_new C)); auto. apply sr_new. Qed.
