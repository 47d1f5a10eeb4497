(** Concrete proofs for the examples and refutations of C50. *)
Require Import List Arith Lia NArith Verif.Base Verif.Outcome Verif.DbModel Verif.SolverModel Verif.SolverSpec Verif.DRATModel Verif.DRATSpec
  Verif.CertSpec Verif.CertProofs Verif.CertCases.
Import ListNotations.

Definition properb (n : nat) (c : clause) : bool := okb n c && (length c <? 10).
Lemma properb_ok n c : properb n c = true -> proper n c.
Proof.
  intros K. apply andb_prop in K. destruct K as (K1 & K2).
  apply okb_ok in K1. destruct K1 as (K1 & K3). apply Nat.ltb_lt in K2. split; [exact K1|]. split; [exact K3|lia].
Qed.
Lemma proper_all n F : forallb (properb n) F = true -> forall c, In c F -> proper n c.
Proof. intros H c Hc. rewrite forallb_forall in H. apply properb_ok. auto. Qed.
Definition line_clause (x : cline) : clause := match x with CAdd c => c | CDel c => c end.
Lemma proper_lines n ls : forallb (properb n) (map line_clause ls) = true -> forall c, In (CAdd c) ls \/ In (CDel c) ls -> proper n c.
Proof.
  intros H c Hc. apply (proper_all n _ H). apply in_map_iff. destruct Hc as [Hc|Hc]; [exists (CAdd c)|exists (CDel c)]; auto.
Qed.
Ltac up_by d := apply (up_unit _ _ d); [cbn; tauto|cbn; tauto|let m := fresh "m" in let Hm := fresh "Hm" in let Hn := fresh "Hn" in
  intros m Hm Hn; cbn in Hm; repeat (destruct Hm as [<-|Hm]; [try (exfalso; apply Hn; reflexivity)|]); try destruct Hm; cbn].
Ltac assumed := apply up_assumed; cbn; tauto.
Ltac each := let m := fresh "m" in let Hm := fresh "Hm" in intros m Hm; cbn in Hm; repeat (destruct Hm as [<-|Hm]; [cbn|]); try destruct Hm.
Ltac rup_by d := exists d; split; [cbn; tauto|each]; try assumed.

Definition a_all : formula := [[0; 2; 4]; [0; 2; 5]; [0; 3; 4]; [0; 3; 5]; [1; 2; 4]; [1; 2; 5]; [1; 3; 4]; [1; 3; 5]].
Definition a_lines : list cline := [CAdd [0; 2]; CDel [4; 0; 2]; CAdd [0]; CAdd [2]; CAdd []].
Lemma a_derivation : exists Q, derivation a_all a_lines Q.
Proof.
  eexists. unfold a_lines. constructor.
  { rup_by [0; 2; 5]. up_by [0; 2; 4]; assumed. }
  apply (d_del [[0; 2]] [0; 2; 4]); [intros l; cbn; tauto|]. cbn [app].
  constructor. { rup_by [0; 3; 5]. - up_by [0; 2]; assumed. - up_by [0; 3; 4]; [assumed|]. up_by [0; 2]; assumed. }
  assert (U : forall P A, In [0] P -> up P A 0). { intros P A H. apply (up_unit _ _ [0]); [exact H|cbn; tauto|]. intros m [<-|[]] Hm. contradiction Hm; reflexivity. }
  assert (U' : forall P A, In [2] P -> up P A 2). { intros P A H. apply (up_unit _ _ [2]); [exact H|cbn; tauto|]. intros m [<-|[]] Hm. contradiction Hm; reflexivity. }
  constructor. { rup_by [1; 2; 5]. - apply U. cbn; tauto. - up_by [1; 2; 4]; [apply U; cbn; tauto|assumed]. }
  constructor; [|constructor].
  { rup_by [1; 3; 5]. - apply U. cbn; tauto. - apply U'. cbn; tauto. - up_by [1; 3; 4]; [apply U; cbn; tauto|apply U'; cbn; tauto]. }
Qed.
Definition no_unitb (l : lit) (F : formula) : bool := forallb (fun c => match c with [m] => negb (m =? l) | _ => true end) F.
Lemma no_unit_by l F : no_unitb l F = true -> ~ In [l] F.
Proof. intros H Hl. unfold no_unitb in H. rewrite forallb_forall in H. specialize (H [l] Hl). cbn in H. rewrite Nat.eqb_refl in H. discriminate. Qed.
Lemma a_open l1 c l2 : a_lines = l1 ++ CAdd c :: l2 -> 2 <= length c -> ~ In (CAdd []) l1 -> exists l, In l c /\ ~ In [lneg l] (a_all ++ lemmas l1).
Proof.
  intros E Hx _. unfold a_lines in E.
  destruct l1 as [|y1 l1]; [injection E as <- <-; exists 0; split; [cbn; tauto|apply no_unit_by; vm_compute; reflexivity]|]. injection E as <- E.
  destruct l1 as [|y1 l1]; [discriminate E|]. injection E as <- E.
  destruct l1 as [|y1 l1]; [injection E as <- <-; exists 0; split; [cbn; tauto|apply no_unit_by; vm_compute; reflexivity]|]. injection E as <- E.
  destruct l1 as [|y1 l1]; [injection E as <- <-; exists 2; split; [cbn; tauto|apply no_unit_by; vm_compute; reflexivity]|]. injection E as <- E.
  destruct l1 as [|y1 l1]; [injection E as <- E; cbn in Hx; lia|]. injection E as _ E. destruct l1; discriminate E.
Qed.

(** three clauses that unit propagation refutes once the lemma [1; 5] is there *)
Definition m_all : formula := [[4]; [0]; [1; 2]; [1; 3]].
Lemma m_up P A : In [4] P -> In [0] P -> up P A 4 /\ up P A 0.
Proof.
  intros H H'. split; [apply (up_unit _ _ [4]); [exact H|cbn; tauto|]|apply (up_unit _ _ [0]); [exact H'|cbn; tauto|]];
    intros m [<-|[]] Hm; contradiction Hm; reflexivity.
Qed.
Lemma m_rup P c : In [4] P -> In [0] P -> In [1; 2] P -> In [1; 3] P -> rup P c.
Proof.
  intros H1 H2 H3 H4. destruct (m_up P (map lneg c) H1 H2) as (U1 & U2). exists [1; 3]. split; [exact H4|]. each; [exact U2|].
  apply (up_unit _ _ [1; 2]); [exact H3|cbn; tauto|]. each; intros Hn; [exact U2|contradiction Hn; reflexivity].
Qed.
Lemma m_rup' P c : In [4] P -> In [0] P -> In [1; 5] P -> rup P c.
Proof. intros H1 H2 H3. destruct (m_up P (map lneg c) H1 H2) as (U1 & U2). exists [1; 5]. split; [exact H3|]. each; [exact U2|exact U1]. Qed.
Lemma m_derivation_del : exists Q, derivation m_all [CAdd [1; 5]; CDel [1; 3]; CAdd []] Q.
Proof.
  eexists. constructor; [apply m_rup; cbn; tauto|].
  apply (d_del [[1; 5]; [4]; [0]; [1; 2]] [1; 3]); [intros l; tauto|]. cbn [app]. constructor; [apply m_rup'; cbn; tauto|constructor].
Qed.
Lemma m_derivation_rep : exists Q, derivation m_all [CAdd [1; 5]; CAdd [5; 1]; CAdd []] Q.
Proof.
  eexists. constructor; [apply m_rup; cbn; tauto|]. constructor; [apply m_rup; cbn; tauto|]. constructor; [apply m_rup; cbn; tauto|constructor].
Qed.
