(** Proofs about the listing of the gates. *)
Require Import List Arith NArith String Bool Lia Permutation.
Require Import Verif.Base Verif.Outcome Verif.CNFModel Verif.CNFProofs Verif.DimacsModel Verif.MainModel Verif.GateModel Verif.GateSpec Verif.BlockProofs Verif.GateProofs Verif.GateMore
  Verif.ListGatesModel Verif.ListGatesSpec.
Import ListNotations.
Open Scope list_scope.

Definition pnone : pgate := mkPG None [] [] [].
Definition pdef (gs : list pgate) (v : var) : bool := match pg_out (nth v gs pnone) with Some _ => true | None => false end.
Definition ptext (gs : list pgate) (v : var) : list nat := match pg_out (nth v gs pnone) with Some o => gate_text o (nth v gs pnone) | None => [] end.
(** inputs of the gates that are not done *)
Fixpoint rem (gs : list pgate) (done : list bool) : nat :=
  match gs, done with
  | g :: gs, d :: done => ((if d then 0 else List.length (pg_inp g)) + rem gs done)%nat
  | _, _ => 0%nat
  end.
Lemma rem_set : forall gs done v g, nth_error gs v = Some g -> nth_error done v = Some false ->
  rem gs done = (List.length (pg_inp g) + rem gs (set_nth v true done))%nat.
Proof.
  induction gs as [|h gs IH]; intros done v g H1 H2; [destruct v; discriminate|]. destruct done as [|d done]; [destruct v; discriminate|].
  destruct v as [|v]; cbn in H1, H2; [injection H1 as ->; injection H2 as ->; reflexivity|]. cbn [rem]. change (set_nth (S v) true (d :: done)) with (d :: set_nth v true done). cbn [rem]. rewrite (IH done v g H1 H2). lia.
Qed.
Lemma rem_new : forall gs n, (rem gs (repeat false n) <= List.length (flat_map pg_inp gs))%nat.
Proof. induction gs as [|g gs IH]; intros [|n]; cbn; try lia. rewrite app_length. specialize (IH n). lia. Qed.
Lemma done_set : forall (done : list bool) v w, (v < List.length done)%nat -> nth w (set_nth v true done) true = if Nat.eqb w v then true else nth w done true.
Proof.
  induction done as [|d done IH]; intros v w H; cbn in H; [lia|]. destruct v as [|v]; destruct w as [|w]; auto. change (set_nth (S v) true (d :: done)) with (d :: set_nth v true done). cbn. apply IH. lia.
Qed.
Lemma done_len : forall (done : list bool) v, List.length (set_nth v true done) = List.length done.
Proof. induction done as [|d done IH]; intros [|v]; auto. change (set_nth (S v) true (d :: done)) with (d :: set_nth v true done). cbn. auto. Qed.

Section Loop.
Variable gs : list pgate.
Hypothesis INP : forall g l, In g gs -> In l (pg_inp g) -> (lvar l < List.length gs)%nat.
Lemma loop_ok : forall fuel done q, List.length done = List.length gs -> (forall l, In l q -> (lvar l < List.length gs)%nat) ->
  (List.length q + rem gs done <= fuel)%nat ->
  exists vs, print_loop fuel gs done q = Ok (flat_map (ptext gs) vs) /\ NoDup vs /\
    (forall v, In v vs -> nth v done true = false /\ pdef gs v = true) /\
    (forall l, In l q -> pdef gs (lvar l) = true -> nth (lvar l) done true = true \/ In (lvar l) vs) /\
    (forall u l, In u vs -> In l (pg_inp (nth u gs pnone)) -> pdef gs (lvar l) = true -> nth (lvar l) done true = true \/ In (lvar l) vs) /\
    (forall a v b, vs = a ++ v :: b -> (exists l, In l q /\ lvar l = v) \/ exists u l, In u a /\ In l (pg_inp (nth u gs pnone)) /\ lvar l = v).
Proof.
  induction fuel as [|fuel IH]; intros done q HD HQ HF.
  - destruct q as [|l q]; [|cbn in HF; lia]. exists []. cbn. split; auto. split; [constructor|]. do 3 (split; [intros; contradiction|]). intros [|x a] v b H; discriminate.
  - destruct q as [|l q]. { exists []. cbn. split; auto. split; [constructor|]. do 3 (split; [intros; contradiction|]). intros [|x a] v b H; discriminate. }
    assert (HV : (lvar l < List.length gs)%nat) by (apply HQ; left; auto). assert (HQ' : forall x, In x q -> (lvar x < List.length gs)%nat) by (intros x Hx; apply HQ; right; auto). cbn [List.length] in HF.
    cbn [print_loop]. destruct (nth_error gs (lvar l)) as [g|] eqn:EG; [|apply nth_error_None in EG; lia]. pose proof (nth_error_nth gs (lvar l) pnone EG) as EN.
    destruct (pg_out g) as [o|] eqn:EO.
    2:{ destruct (IH done q HD HQ' ltac:(lia)) as (vs & E & A1 & A2 & A3 & A4 & A5). exists vs. split; auto. split; auto. split; auto. split; [|split; auto].
        - intros x [<-|Hx] Hd; auto. unfold pdef in Hd. rewrite EN, EO in Hd. discriminate.
        - intros a v b H. destruct (A5 a v b H) as [(x & Hx & Hv)|H']; [left; exists x; split; [right; auto|auto]|right; auto]. }
    destruct (nth_error done (lvar l)) as [d|] eqn:ED; [|apply nth_error_None in ED; lia]. pose proof (nth_error_nth done (lvar l) true ED) as EDN. destruct d.
    { destruct (IH done q HD HQ' ltac:(lia)) as (vs & E & A1 & A2 & A3 & A4 & A5). exists vs. split; auto. split; auto. split; auto. split; [|split; auto].
      - intros x [<-|Hx] Hd; auto.
      - intros a v b H. destruct (A5 a v b H) as [(x & Hx & Hv)|H']; [left; exists x; split; [right; auto|auto]|right; auto]. }
    assert (HVD : (lvar l < List.length done)%nat) by lia.
    destruct (IH (set_nth (lvar l) true done) (q ++ pg_inp g)) as (vs & E & A1 & A2 & A3 & A4 & A5).
    { rewrite done_len. auto. }
    { intros x Hx. apply in_app_iff in Hx. destruct Hx as [Hx|Hx]; [auto|]. apply (INP g); auto. apply nth_error_In in EG. auto. }
    { rewrite app_length. pose proof (rem_set gs done (lvar l) g EG ED). lia. }
    assert (DS : forall w, nth w (set_nth (lvar l) true done) true = if Nat.eqb w (lvar l) then true else nth w done true) by (intros w; apply done_set; auto).
    assert (UP : forall w, nth w (set_nth (lvar l) true done) true = true \/ In w vs -> nth w done true = true \/ In w (lvar l :: vs)).
    { intros w [H|H]; [|right; right; auto]. rewrite DS in H. destruct (Nat.eqb w (lvar l)) eqn:EW; [apply Nat.eqb_eq in EW; right; left; auto|left; auto]. }
    exists (lvar l :: vs). split.
    { rewrite E. cbn [bind flat_map]. unfold ptext at 2. rewrite EN, EO. reflexivity. }
    split. { constructor; auto. intros H. apply A2 in H. destruct H as (H & _). rewrite DS, Nat.eqb_refl in H. discriminate. }
    split. { intros v [<-|H]; [split; auto; unfold pdef; rewrite EN, EO; auto|]. destruct (A2 v H) as (B & C). split; auto. rewrite DS in B. destruct (Nat.eqb v (lvar l)); [discriminate|auto]. }
    split. { intros x [<-|Hx] Hd; [right; left; auto|]. apply UP, A3; auto. apply in_or_app. auto. }
    split. { intros u x [<-|Hu] Hx Hd; apply UP; [apply A3; auto; apply in_or_app; right; rewrite EN in Hx; auto|apply (A4 u x); auto]. }
    intros a v b H. destruct a as [|a0 a]; cbn in H; injection H as H1 H2; [left; exists l; split; [left; auto|auto]|]. subst a0.
    destruct (A5 a v b H2) as [(x & Hx & Hv)|(u & x & Hu & Hx & Hv)].
    + apply in_app_iff in Hx. destruct Hx as [Hx|Hx]; [left; exists x; split; [right; auto|auto]|]. right. exists (lvar l), x. split; [left; auto|]. rewrite EN. auto.
    + right. exists u, x. split; [right; auto|auto].
Qed.
End Loop.

Lemma pg_nth cs g v : nth v (pgates cs g) pnone = (let gt := nth v (gates g) gate_none in mkPG (g_out gt) (map (cl cs) (g_fwd gt)) (map (cl cs) (g_bwd gt)) (g_inp gt)).
Proof. unfold pgates. change pnone with ((fun gt => mkPG (g_out gt) (map (cl cs) (g_fwd gt)) (map (cl cs) (g_bwd gt)) (g_inp gt)) gate_none). rewrite map_nth. reflexivity. Qed.
Lemma pg_defined cs g v : pdef (pgates cs g) v = defined (gates g) v.
Proof. unfold pdef. rewrite pg_nth. reflexivity. Qed.
Lemma formula_paragraph cs f : formula_text (map (cl cs) f) = paragraph cs f.
Proof.
  unfold formula_text, paragraph. f_equal. induction f as [|c f IH]; auto. cbn [map List.concat flat_map]. rewrite IH. do 2 f_equal. unfold clause_text. rewrite flat_map_concat_map. reflexivity.
Qed.
Lemma ptext_described cs g v : ptext (pgates cs g) v = described cs g v.
Proof.
  unfold ptext, described. rewrite pg_nth. cbn [pg_out]. destruct (g_out (nth v (gates g) gate_none)) as [o|] eqn:E; auto. unfold gate_text. cbn [pg_fwd pg_bwd]. rewrite !formula_paragraph. reflexivity.
Qed.
Lemma flat_ext {A B} (f g : A -> list B) l : (forall x, f x = g x) -> flat_map f l = flat_map g l.
Proof. intros H. induction l as [|x l IH]; cbn; auto. rewrite H, IH. auto. Qed.
Lemma flat_ext_in {A B} (f g : A -> list B) l : (forall x, In x l -> f x = g x) -> flat_map f l = flat_map g l.
Proof. induction l as [|x l IH]; intros H; cbn; auto. rewrite H by (left; auto). rewrite IH; auto. intros y Hy. apply H. right. auto. Qed.
Lemma root_lits cs g l : In l (List.concat (proots cs g)) <-> exists c, In c (roots g) /\ In l (cl cs c).
Proof.
  unfold proots. rewrite in_concat. split.
  - intros (x & Hx & Hl). apply in_map_iff in Hx. destruct Hx as (c & <- & Hc). exists c. auto.
  - intros (c & Hc & Hl). exists (cl cs c). split; auto. apply in_map. auto.
Qed.
Lemma list_ok cfg p g : wf_problem (variables p) (problem p) -> analyze cfg p = Ok g ->
  exists vs, NoDup vs /\ (forall v, In v vs <-> defined (gates g) v = true) /\ top_down (problem p) g vs /\
    printGates (variables p) (pgates (problem p) g) (proots (problem p) g) = Ok (flat_map (described (problem p) g) vs).
Proof.
  intros WF E. destruct (analyze_acyclic cfg p g WF E) as (_ & HR). destruct (analyze_ok cfg p WF) as (g' & E' & HL & _). rewrite E in E'. injection E' as <-.
  assert (LR : forall l, In l (List.concat (proots (problem p) g)) -> (lvar l < variables p)%nat).
  { intros l Hl. apply root_lits in Hl. destruct Hl as (c & _ & Hl). apply lvar_lt, (cl_wf _ _ WF c). auto. }
  destruct (HR _ LR) as (R1 & R2). assert (PL : List.length (pgates (problem p) g) = variables p) by (unfold pgates; rewrite map_length; auto).
  destruct (loop_ok (pgates (problem p) g)) with (fuel := (List.length (List.concat (proots (problem p) g)) + List.length (flat_map pg_inp (pgates (problem p) g)))%nat) (done := repeat false (variables p)) (q := List.concat (proots (problem p) g)) as (vs & EP & A1 & A2 & A3 & A4 & A5).
  - intros h l Hh Hl. unfold pgates in Hh. apply in_map_iff in Hh. destruct Hh as (gt & <- & Hg). cbn in Hl. rewrite PL, <- HL. apply (R2 gt); auto.
  - rewrite repeat_length. auto.
  - intros l Hl. rewrite PL. auto.
  - pose proof (rem_new (pgates (problem p) g) (variables p)). lia.
  - assert (NF : forall v, pdef (pgates (problem p) g) v = true -> nth v (repeat false (variables p)) true = true -> False).
    { intros v Hd Hn. destruct (Nat.lt_ge_cases v (variables p)) as [H|H]; [rewrite (nth_indep _ true false) in Hn by (rewrite repeat_length; auto); rewrite nth_repeat in Hn; discriminate|].
      unfold pdef in Hd. rewrite nth_overflow in Hd by (rewrite PL; auto). discriminate. }
    exists vs. split; auto. split; [|split].
    + intros v. split; [intros Hv; rewrite <- (pg_defined (problem p)); apply A2; auto|]. intros Hd.
      destruct (g_out (nth v (gates g) gate_none)) as [o|] eqn:EO; [|unfold defined in Hd; rewrite EO in Hd; discriminate].
      destruct (monotone_ok cfg p g v o WF E EO) as (OC & _).
      assert (ALL : forall l, occurs (flat_map (cl (problem p)) (roots g)) (gates g) l -> defined (gates g) (lvar l) = true -> In (lvar l) vs).
      { intros l H. induction H as [l Hl|u q l Hq IH Hu Hl|u q l Hq IH Hu Hl]; intros D.
        - rewrite <- (pg_defined (problem p)) in D. destruct (A3 l) as [H|H]; auto; [|destruct (NF _ D H)]. apply root_lits. apply in_flat_map in Hl. auto.
        - destruct (gates_left_total cfg p g u q WF E Hu) as (Eu & _). rewrite Eu in IH. rewrite <- (pg_defined (problem p)) in D.
          destruct (A4 u l) as [H|H]; auto; [apply IH; unfold defined; rewrite Hu; auto|rewrite pg_nth; auto|destruct (NF _ D H)].
        - destruct (gates_left_total cfg p g u q WF E Hu) as (Eu & _). rewrite lvar_neg, Eu in IH. rewrite <- (pg_defined (problem p)) in D. rewrite <- lvar_neg in D |- *.
          destruct (A4 u (lneg l)) as [H|H]; auto; [apply IH; unfold defined; rewrite Hu; auto|rewrite pg_nth; auto|destruct (NF _ D H)]. }
      destruct (gates_left_total cfg p g v o WF E EO) as (Ev & _). rewrite <- Ev. apply ALL; auto. rewrite Ev. auto.
    + intros a v b H. destruct (A5 a v b H) as [(l & Hl & Hv)|(u & l & Hu & Hl & Hv)].
      * left. apply root_lits in Hl. destruct Hl as (c & Hc & Hl). exists c, l. auto.
      * right. exists u, l. rewrite pg_nth in Hl. auto.
    + unfold printGates. rewrite EP. f_equal. apply flat_ext. intros v. apply ptext_described.
Qed.
Lemma list_normal cfg p g : wf_problem (variables p) (problem p) -> analyze cfg p = Ok g ->
  printGates (variables p) (fst (pnormal (problem p) (variables p) g)) (snd (pnormal (problem p) (variables p) g)) = Err UB.
Proof.
  intros WF E. destruct (analyze_ok cfg p WF) as (g' & E' & HL & _). rewrite E in E'. injection E' as <-. unfold printGates, pnormal. cbn [fst snd List.concat app List.length plus]. cbn [print_loop].
  rewrite lvar_mk. unfold pgates. rewrite nth_error_app2 by (rewrite map_length, HL; auto). rewrite map_length, HL, Nat.sub_diag. cbn [nth_error pg_out].
  assert (N : nth_error (repeat false (variables p)) (variables p) = None) by (apply nth_error_None; rewrite repeat_length; auto). rewrite N. reflexivity.
Qed.
Lemma list_count cfg p g vs : wf_problem (variables p) (problem p) -> analyze cfg p = Ok g -> NoDup vs -> (forall v, In v vs <-> defined (gates g) v = true) ->
  List.length vs = gate_count g.
Proof.
  intros WF E ND HV. destruct (counts_ok cfg p g WF E) as ((l & LN & LI & <-) & _). apply Permutation_length. apply NoDup_Permutation; auto. intros v. rewrite HV, LI. tauto.
Qed.
(** ** With one more mark: the listing after normalizeRoots *)
Lemma closed_all cfg p g (vs : list var) v : wf_problem (variables p) (problem p) -> analyze cfg p = Ok g ->
  (forall l, In l (flat_map (cl (problem p)) (roots g)) -> defined (gates g) (lvar l) = true -> In (lvar l) vs) ->
  (forall u l, In u vs -> defined (gates g) u = true -> In l (g_inp (nth u (gates g) gate_none)) -> defined (gates g) (lvar l) = true -> In (lvar l) vs) ->
  defined (gates g) v = true -> In v vs.
Proof.
  intros WF E HR HI Hd. destruct (g_out (nth v (gates g) gate_none)) as [o|] eqn:EO; [|unfold defined in Hd; rewrite EO in Hd; discriminate]. destruct (monotone_ok cfg p g v o WF E EO) as (OC & _).
  assert (ALL : forall l, occurs (flat_map (cl (problem p)) (roots g)) (gates g) l -> defined (gates g) (lvar l) = true -> In (lvar l) vs).
  { intros l H. induction H as [l Hl|u q l Hq IH Hu Hl|u q l Hq IH Hu Hl]; intros D; [auto| |].
    - destruct (gates_left_total cfg p g u q WF E Hu) as (Eu & _). rewrite Eu in IH. assert (DU : defined (gates g) u = true) by (unfold defined; rewrite Hu; auto). apply (HI u); auto.
    - destruct (gates_left_total cfg p g u q WF E Hu) as (Eu & _). rewrite lvar_neg, Eu in IH. assert (DU : defined (gates g) u = true) by (unfold defined; rewrite Hu; auto). rewrite <- lvar_neg in D |- *. apply (HI u); auto. }
  destruct (gates_left_total cfg p g v o WF E EO) as (Ev & _). rewrite <- Ev. apply ALL; auto. rewrite Ev. auto.
Qed.
Lemma set_in (ls : list lit) l : In l (unique Nat.eqb (sort ls)) <-> In l ls.
Proof. rewrite unique_in by apply sort_sorted. apply sort_in. Qed.
Lemma top_text cs n g i : ptext [mkPG (Some (mkLit n false)) (map (fun c => c ++ [mkLit n true]) (map (cl cs) (roots g ++ remainder g))) [] i] 0 = described_top cs n g.
Proof.
  unfold ptext, described_top, gate_text, formula_text. cbn [nth pg_out pg_fwd pg_bwd map List.concat app]. rewrite <- app_assoc. do 4 f_equal.
  rewrite !map_map. induction (roots g ++ remainder g) as [|c f IH]; auto. cbn [map List.concat flat_map]. rewrite IH. f_equal. unfold clause_text. rewrite map_app, concat_app, <- app_assoc, flat_map_concat_map. f_equal. cbn [map List.concat]. rewrite app_nil_r, <- app_assoc. reflexivity.
Qed.
Lemma list_repaired cfg p g : wf_problem (variables p) (problem p) -> analyze cfg p = Ok g ->
  exists vs, NoDup vs /\ (forall v, In v vs <-> defined (gates g) v = true) /\
    printGates (S (variables p)) (fst (pnormal (problem p) (variables p) g)) (snd (pnormal (problem p) (variables p) g)) = Ok (described_top (problem p) (variables p) g ++ flat_map (described (problem p) g) vs).
Proof.
  intros WF E. destruct (analyze_acyclic cfg p g WF E) as (_ & HR). destruct (analyze_ok cfg p WF) as (g' & E' & HL & _). rewrite E in E'. injection E' as <-.
  set (n := variables p) in *. set (cs := problem p) in *. unfold pnormal. cbn [fst snd]. match goal with |- context [pgates cs g ++ [?t]] => set (top := t) end. set (gs := pgates cs g ++ [top]).
  assert (PL : List.length (pgates cs g) = n) by (unfold pgates; rewrite map_length; auto). assert (GL : List.length gs = S n) by (unfold gs; rewrite app_length, PL; cbn; lia).
  assert (LW : forall c l, In l (cl cs c) -> (lvar l < n)%nat) by (intros c l Hl; apply lvar_lt, (cl_wf _ _ WF c); auto).
  assert (TI : forall l, In l (pg_inp top) <-> exists c, In c (roots g ++ remainder g) /\ In l (cl cs c)).
  { intros l. unfold top. cbn [pg_inp]. rewrite set_in, in_concat. split; [intros (x & Hx & Hl); apply in_map_iff in Hx; destruct Hx as (c & <- & Hc); exists c; auto|intros (c & Hc & Hl); exists (cl cs c); split; auto; apply in_map; auto]. }
  destruct (HR []) as (_ & R2); [intros l []|].
  assert (NT : nth n gs pnone = top) by (unfold gs; rewrite app_nth2 by (rewrite PL; auto); rewrite PL, Nat.sub_diag; auto).
  assert (NL : forall v, (v < n)%nat -> nth v gs pnone = nth v (pgates cs g) pnone) by (intros v Hv; unfold gs; apply app_nth1; rewrite PL; auto).
  assert (DF : forall v, defined (gates g) v = true -> (v < n)%nat). { intros v Hd. destruct (Nat.lt_ge_cases v n) as [|H]; auto. unfold defined in Hd. rewrite nth_overflow in Hd by (rewrite HL; auto). discriminate. }
  assert (PD : forall v, (v < n)%nat -> pdef gs v = defined (gates g) v) by (intros v Hv; rewrite <- (pg_defined cs); unfold pdef; rewrite NL; auto).
  destruct (loop_ok gs) with (fuel := (List.length (List.concat [[mkLit n false]]) + List.length (flat_map pg_inp gs))%nat) (done := repeat false (S n)) (q := List.concat [[mkLit n false]]) as (ws & EP & A1 & A2 & A3 & A4 & A5).
  - intros h l Hh Hl. rewrite GL. unfold gs in Hh. apply in_app_iff in Hh. destruct Hh as [Hh|[<-|[]]].
    + unfold pgates in Hh. apply in_map_iff in Hh. destruct Hh as (gt & <- & Hg). cbn in Hl. pose proof (R2 gt l Hg Hl). lia.
    + apply TI in Hl. destruct Hl as (c & _ & Hl). pose proof (LW c l Hl). lia.
  - rewrite repeat_length. auto.
  - intros l [<-|[]]. rewrite lvar_mk. lia.
  - pose proof (rem_new gs (S n)). lia.
  - assert (NF : forall v, (v < S n)%nat -> nth v (repeat false (S n)) true = true -> False) by (intros v Hv Hn; rewrite (nth_indep _ true false) in Hn by (rewrite repeat_length; auto); rewrite nth_repeat in Hn; discriminate).
    assert (IN : In n ws). { destruct (A3 (mkLit n false)) as [H|H]; [left; auto|rewrite lvar_mk; unfold pdef; rewrite NT; auto|rewrite lvar_mk in H; destruct (NF n ltac:(lia) H)|rewrite lvar_mk in H; auto]. }
    destruct ws as [|w vs]; [destruct IN|]. assert (w = n) as ->. { destruct (A5 [] w vs eq_refl) as [(l & [<-|[]] & <-)|(u & l & [] & _)]. apply lvar_mk. }
    inversion A1 as [|? ? N1 N2]; subst. exists vs. split; auto.
    assert (LT : forall v, In v vs -> (v < n)%nat).
    { intros v Hv. destruct (A2 v (or_intror Hv)) as (_ & Hd). destruct (Nat.lt_ge_cases v n) as [|H]; auto. destruct (Nat.eq_dec v n) as [->|]; [contradiction|]. unfold pdef in Hd. rewrite nth_overflow in Hd by (rewrite GL; lia). discriminate. }
    assert (CA : forall u l, In u (n :: vs) -> In l (pg_inp (nth u gs pnone)) -> defined (gates g) (lvar l) = true -> In (lvar l) vs).
    { intros u l Hu Hl Hd. pose proof (DF _ Hd) as Hn. destruct (A4 u l Hu Hl) as [H|[H|H]]; [rewrite PD; auto|destruct (NF (lvar l) ltac:(lia) H)|lia|auto]. }
    split.
    + intros v. split; [intros Hv; rewrite <- PD by auto; apply A2; right; auto|]. intros Hd. apply (closed_all cfg p g vs v WF E); auto.
      * intros l Hl D. apply (CA n l); [left; auto| |auto]. rewrite NT. apply TI. apply in_flat_map in Hl. destruct Hl as (c & Hc & Hl). exists c. split; auto. apply in_or_app. auto.
      * intros u l Hu _ Hl D. apply (CA u l); [right; auto| |auto]. rewrite NL by auto. rewrite pg_nth. auto.
    + unfold printGates. rewrite EP. cbn [flat_map]. f_equal. f_equal.
      * unfold ptext. rewrite NT. change (match pg_out top with Some o => gate_text o top | None => [] end) with (ptext [top] 0). apply top_text.
      * apply flat_ext_in. intros v Hv. unfold ptext. rewrite NL by auto. apply ptext_described.
Qed.
