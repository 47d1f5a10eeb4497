(** Concrete proofs with RAT lemmas for the examples and refutations of C50. *)
Require Import List Arith Bool Lia NArith Verif.Base Verif.DbModel Verif.DRATSpec Verif.CertSpec Verif.DRATRatSpec Verif.DRATAcceptCases.
Import ListNotations.

(** ** Unit propagation decided *)
Definition mem_lit (l : lit) (S : list lit) : bool := existsb (Nat.eqb l) S.
Definition unit_step (S : list lit) (c : clause) : list lit :=
  filter (fun l => negb (mem_lit l S) && forallb (fun m => (m =? l) || mem_lit (lneg m) S) c) c ++ S.
Fixpoint up_run (fuel : nat) (P : formula) (S : list lit) : list lit :=
  match fuel with 0 => S | Datatypes.S f => up_run f P (fold_left unit_step P S) end.
Definition rupb (P : formula) (c : clause) : bool :=
  let S := up_run 8 P (map lneg c) in existsb (fun d => forallb (fun m => mem_lit (lneg m) S) d) P.
Lemma mem_lit_in l S : mem_lit l S = true <-> In l S.
Proof.
  unfold mem_lit. rewrite existsb_exists. split; [intros (x & H & E); apply Nat.eqb_eq in E; subst; auto|intros H; exists l; split; auto; apply Nat.eqb_refl].
Qed.
Lemma unit_step_up P A c S : In c P -> (forall l, In l S -> up P A l) -> forall l, In l (unit_step S c) -> up P A l.
Proof.
  intros Hc HS l Hl. apply in_app_or in Hl. destruct Hl as [Hl|Hl]; auto. apply filter_In in Hl. destruct Hl as [Hl E]. apply andb_prop in E. destruct E as [_ E].
  apply (up_unit _ _ c l); auto. intros m Hm Hn. rewrite forallb_forall in E. specialize (E m Hm). apply orb_prop in E. destruct E as [E|E]; [apply Nat.eqb_eq in E; contradiction|].
  apply HS. apply mem_lit_in. auto.
Qed.
Lemma fold_up P A cs : incl cs P -> forall S, (forall l, In l S -> up P A l) -> forall l, In l (fold_left unit_step cs S) -> up P A l.
Proof.
  induction cs as [|c r IH]; intros HI S HS l Hl; cbn [fold_left] in Hl; auto. apply (IH (fun x Hx => HI x (or_intror Hx)) (unit_step S c)); auto.
  apply unit_step_up; auto. apply HI. left. auto.
Qed.
Lemma up_run_up P A f : forall S, (forall l, In l S -> up P A l) -> forall l, In l (up_run f P S) -> up P A l.
Proof. induction f as [|f IH]; intros S HS l Hl; cbn [up_run] in Hl; auto. apply (IH (fold_left unit_step P S)); auto. apply fold_up; auto. apply incl_refl. Qed.
Lemma rupb_ok P c : rupb P c = true -> rup P c.
Proof.
  unfold rupb. intros H. apply existsb_exists in H. destruct H as (d & H1 & H2). exists d. split; auto. intros m Hm. rewrite forallb_forall in H2. specialize (H2 m Hm).
  apply mem_lit_in in H2. apply (up_run_up P (map lneg c) 8 (map lneg c)); auto. intros l Hl. apply up_assumed. auto.
Qed.
(** a set of literals that contains the assumptions and is closed under unit propagation *)
Definition closedb (P : formula) (S : list lit) : bool :=
  forallb (fun c => forallb (fun l => mem_lit l S || negb (forallb (fun m => (m =? l) || mem_lit (lneg m) S) c)) c &&
                    negb (forallb (fun m => mem_lit (lneg m) S) c)) P.
Lemma not_rup P c : closedb P (map lneg c) = true -> ~ rup P c.
Proof.
  intros H (d & Hd & Hm). unfold closedb in H. rewrite forallb_forall in H.
  assert (HU : forall l, up P (map lneg c) l -> In l (map lneg c)).
  { intros l Hl. induction Hl as [l Hl|e l He Hl _ IH]; auto. specialize (H e He). apply andb_prop in H. destruct H as [H _]. rewrite forallb_forall in H. specialize (H l Hl).
    apply orb_prop in H. destruct H as [H|H]; [apply mem_lit_in; auto|]. exfalso. apply negb_true_iff in H.
    assert (X : forallb (fun m => (m =? l) || mem_lit (lneg m) (map lneg c)) e = true).
    { apply forallb_forall. intros m Hm'. destruct (Nat.eqb_spec m l); auto. cbn [orb]. apply mem_lit_in. auto. }
    congruence. }
  specialize (H d Hd). apply andb_prop in H. destruct H as [_ H]. apply negb_true_iff in H.
  assert (X : forallb (fun m => mem_lit (lneg m) (map lneg c)) d = true) by (apply forallb_forall; intros m Hm'; apply mem_lit_in; auto). congruence.
Qed.

(** ** RAT lemmas decided *)
Definition tautb (c : clause) : bool := existsb (fun l => mem_lit (lneg l) c) c.
Definition ratb (R P : formula) (p : lit) (c : clause) : bool :=
  mem_lit p c && forallb (fun d => negb (mem_lit (lneg p) d) || (let r := c ++ filter (fun m => negb (m =? lneg p)) d in tautb r || rupb P r)) R.
Lemma ratb_ok R P p c : ratb R P p c = true -> rat_on R P p c.
Proof.
  unfold ratb. intros H. apply andb_prop in H. destruct H as [H1 H2]. split; [apply mem_lit_in; auto|]. intros d Hd Hp. rewrite forallb_forall in H2. specialize (H2 d Hd).
  apply mem_lit_in in Hp. rewrite Hp in H2. cbn [negb orb] in H2. apply orb_prop in H2. destruct H2 as [H2|H2]; [left|right; apply rupb_ok; auto].
  apply existsb_exists in H2. destruct H2 as (l & L1 & L2). exists l. split; auto. apply mem_lit_in. auto.
Qed.
Ltac rline := apply dp_add; [left; apply rupb_ok; vm_compute; reflexivity|].
Ltac ratline q := apply dp_add; [right; exists q; apply ratb_ok; vm_compute; reflexivity|].
Ltac srline := apply sp_add; [left; apply rupb_ok; vm_compute; reflexivity|].

(** every clause of two or more literals that is added has a literal whose negation is no unit clause so far; decided *)
Fixpoint openb (U : formula) (ls : list cline) : bool :=
  match ls with
  | [] => true
  | CAdd c :: r => ((length c <? 2) || existsb (fun l => no_unitb (lneg l) U) c) && openb (U ++ [c]) r
  | CDel _ :: r => openb U r
  end.
Lemma openb_ok ls : forall U, openb U ls = true ->
  forall l1 c l2, ls = l1 ++ CAdd c :: l2 -> 2 <= length c -> exists l, In l c /\ ~ In [lneg l] (U ++ lemmas l1).
Proof.
  induction ls as [|[x|x] r IH]; intros U H l1 c l2 E Hc; cbn [openb] in H; [destruct l1; discriminate| |].
  - apply andb_prop in H. destruct H as [H1 H2]. destruct l1 as [|y l1].
    + injection E as -> ->. cbn [lemmas]. rewrite app_nil_r. apply orb_prop in H1. destruct H1 as [H1|H1]; [apply Nat.ltb_lt in H1; lia|].
      apply existsb_exists in H1. destruct H1 as (l & L1 & L2). exists l. split; auto. apply no_unit_by. auto.
    + injection E as <- ->. destruct (IH _ H2 l1 c l2 eq_refl Hc) as (l & L1 & L2). exists l. split; auto. cbn [lemmas]. rewrite <- app_assoc in L2. exact L2.
  - destruct l1 as [|y l1]; [discriminate|]. injection E as <- ->. cbn [lemmas]. apply (IH U H l1 c l2); auto.
Qed.
Definition unitsb (F : formula) : bool := forallb (fun c => match c with [l] => no_unitb (lneg l) F | _ => true end) F.
Lemma unitsb_ok F : unitsb F = true -> forall l, In [l] F -> ~ In [lneg l] F.
Proof. unfold unitsb. intros H l Hl. rewrite forallb_forall in H. specialize (H [l] Hl). cbn in H. apply no_unit_by. auto. Qed.

(** ** The eight clauses over three variables and further variables *)
(** in all cases a clause with the variable 4 (or 5) keeps the other literals of the lemma from being RAT *)
(** the clause [6; 0] is blocked by [7; 1]; unit propagation does not find it *)
Definition b_all : formula := a_all ++ [[1; 8]; [7; 1]].
Definition b_lines : list cline := CAdd [6; 0] :: a_lines.
Lemma b_strict : exists Q, strict_proof b_all b_all b_lines Q.
Proof.
  eexists. unfold b_lines, a_lines.
  apply sp_add. { right. exists 6. split; [apply ratb_ok; vm_compute; reflexivity|]. exists [7; 1]. cbn. tauto. }
  srline. apply (sp_del _ [[0; 2]; [6; 0]] [0; 2; 4]); [intros l; cbn; tauto|]. cbn [app].
  srline. srline. srline. apply sp_nil.
Qed.
(** the same clause when the negation of its new variable occurs nowhere *)
Definition p_all : formula := a_all ++ [[1; 8]].
Lemma p_drat : exists Q, drat_proof p_all b_lines Q.
Proof.
  eexists. unfold b_lines, a_lines. ratline 6. rline. apply (dp_del [[0; 2]; [6; 0]] [0; 2; 4]); [intros l; cbn; tauto|]. cbn [app].
  rline. rline. rline. apply dp_nil.
Qed.
(** a unit clause with the negation is deleted before *)
Definition u_all : formula := b_all ++ [[7]].
Definition u_lines : list cline := CDel [7] :: b_lines.
Lemma u_drat : exists Q, drat_proof u_all u_lines Q.
Proof.
  eexists. unfold u_lines, b_lines, a_lines. apply (dp_del b_all [7]); [intros l; tauto|]. unfold b_all, a_all. cbn [app].
  ratline 6. rline. apply (dp_del [[0; 2]; [6; 0]] [0; 2; 4]); [intros l; cbn; tauto|]. cbn [app]. rline. rline. rline. apply dp_nil.
Qed.
(** a clause is deleted, added and deleted again *)
Fixpoint all_over (n : nat) : formula :=
  match n with 0 => [[]] | S m => flat_map (fun c => [2 * m :: c; 2 * m + 1 :: c]) (all_over m) end.
Definition t_all : formula := [9; 2] :: [9; 2; 4] :: [9; 2; 5] :: [9; 1] :: [1; 10] :: all_over 4.
Definition t_lines : list cline := [CDel [9; 2]; CAdd [9; 2]; CDel [9; 2]; CAdd [8; 0]; CAdd [0; 2; 4]; CAdd [0; 2]; CAdd [0; 3; 4]; CAdd [0];
  CAdd [2; 4]; CAdd [2]; CAdd [4]; CAdd []].
Lemma t_drat : exists Q, drat_proof t_all t_lines Q.
Proof.
  eexists. unfold t_lines, t_all.
  apply (dp_del [] [9; 2]); [intros l; tauto|]. cbn [app]. rline. apply (dp_del [] [9; 2]); [intros l; tauto|]. cbn [app].
  ratline 8. rline. rline. rline. rline. rline. rline. rline. rline. apply dp_nil.
Qed.
(** the definition of a new variable as the conjunction of two others *)
Definition e_lines : list cline := [CAdd [8; 1; 3]; CAdd [9; 0]; CAdd [9; 2]; CAdd [0; 2; 4]; CAdd [0; 2]; CAdd [0; 3; 4]; CAdd [0];
  CAdd [2; 4]; CAdd [2]; CAdd [4]; CAdd []].
Definition e_all : formula := [0; 10] :: [2; 10] :: all_over 4.
Lemma e_drat : exists Q, drat_proof e_all e_lines Q.
Proof.
  eexists. unfold e_lines. ratline 8. ratline 9. ratline 9. rline. rline. rline. rline. rline. rline. rline. rline. apply dp_nil.
Qed.
