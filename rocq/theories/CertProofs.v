(** The clausal proof and the clause database. *)
Require Import List Arith Bool NArith ZArith Permutation Lia.
From Coq Require Import ZifyBool ZifyNat ZifyN.
Require Import Verif.Base Verif.CNFModel Verif.CNFProofs Verif.Outcome Verif.TrailModel Verif.TrailSpec Verif.TrailProofs Verif.TrailLemmas Verif.DbModel Verif.PropModel Verif.PropProofs Verif.DbProofs
  Verif.PropSpec Verif.PropLemmas Verif.AnalyzeModel Verif.AnalyzeProofs Verif.AnalyzeLemmas Verif.SimpModel Verif.SubsProofs Verif.SimpProofs Verif.SimpSpec Verif.SimpLemmas
  Verif.VEProofs Verif.AsymmProofs Verif.AsymmLemmas Verif.ReduceModel Verif.CertSpec.
Import ListNotations.

(** ** Clauses with the same literals *)
Definition inclb (c c' : clause) : bool := forallb (fun l => existsb (Nat.eqb l) c') c.
Lemma inclb_spec c c' : inclb c c' = true <-> incl c c'.
Proof.
  unfold inclb. rewrite forallb_forall. split; intros H l Hl; specialize (H l Hl).
  - apply existsb_exists in H. destruct H as (x & H1 & H2). apply Nat.eqb_eq in H2. subst. auto.
  - apply existsb_exists. exists l. split; auto. apply Nat.eqb_refl.
Qed.
Definition sameb (c c' : clause) : bool := inclb c c' && inclb c' c.
Lemma sameb_spec c c' : sameb c c' = true <-> same_lits c c'.
Proof.
  unfold sameb. rewrite andb_true_iff, !inclb_spec. split.
  - intros (A & B) l. split; auto.
  - intros H. split; intros l Hl; apply H; auto.
Qed.
Lemma same_refl c : same_lits c c. Proof. intros l. tauto. Qed.
Lemma same_sym c c' : same_lits c c' -> same_lits c' c. Proof. intros H l. symmetry. auto. Qed.
Lemma same_trans a b c : same_lits a b -> same_lits b c -> same_lits a c. Proof. intros H K l. rewrite (H l). auto. Qed.
Lemma same_perm (c c' : clause) : Permutation c c' -> same_lits c c'.
Proof. intros H l. split; apply Permutation_in; auto. apply Permutation_sym. auto. Qed.
Lemma sameb_cong c a b : same_lits a b -> sameb c a = sameb c b.
Proof.
  intros H. apply Bool.eq_iff_eq_true. rewrite !sameb_spec. split; intros K; eapply same_trans; eauto. apply same_sym. auto.
Qed.
Definition cnt (c : clause) (Q : formula) : nat := length (filter (sameb c) Q).
Lemma cnt_app c A B : cnt c (A ++ B) = cnt c A + cnt c B.
Proof. unfold cnt. rewrite filter_app, app_length. auto. Qed.
Lemma cnt_cons c x Q : cnt c (x :: Q) = (if sameb c x then 1 else 0) + cnt c Q.
Proof. unfold cnt. cbn [filter]. destruct (sameb c x); auto. Qed.
Lemma cnt_pos c Q : 0 < cnt c Q -> exists c', In c' Q /\ same_lits c c'.
Proof.
  unfold cnt. destruct (filter (sameb c) Q) as [|x r] eqn:E; cbn [length]; [lia|]. intros _. exists x.
  assert (H : In x (filter (sameb c) Q)) by (rewrite E; cbn; auto). apply filter_In in H. destruct H as (A & B). apply sameb_spec in B. auto.
Qed.

(** ** Unit propagation *)
Lemma up_mono P P' A l : incl P P' -> up P A l -> up P' A l.
Proof.
  intros HI H. induction H as [l Hl|c l Hc Hl Hm IH]; [apply up_assumed; auto|]. apply (up_unit P' A c l); auto.
Qed.
Lemma rup_mono P P' c : incl P P' -> rup P c -> rup P' c.
Proof. intros HI (d & A & B). exists d. split; auto. intros m Hm. apply (up_mono P); auto. Qed.
Lemma derivation_frame P ls Q R : derivation P ls Q -> derivation (P ++ R) ls (Q ++ R).
Proof.
  induction 1 as [P|P c ls Q H1 H2 IH|P1 c' P2 c ls Q H1 H2 IH].
  - apply d_nil.
  - apply d_add; auto. apply (rup_mono P); auto. apply incl_appl. apply incl_refl.
  - rewrite <- app_assoc in *. cbn [app]. apply d_del; auto.
Qed.
Lemma derivation_trans P l1 Q l2 R : derivation P l1 Q -> derivation Q l2 R -> derivation P (l1 ++ l2) R.
Proof.
  induction 1 as [P|P c ls Q H1 H2 IH|P1 c' P2 c ls Q H1 H2 IH]; intros HR; cbn [app]; auto.
  - apply d_add; auto.
  - apply d_del; auto.
Qed.

(** ** What the proof has in common with the database *)
Definition csel (c : clause) (d : db) (sel : cid -> bool) : nat := length (filter (fun x => sel x && sameb c (clits d x)) (cls d)).
Definition DVQ (F : formula) (d : db) (sel : cid -> bool) (Q : formula) : Prop :=
  derivation F (rev (cert d)) Q /\ (forall c, csel c d sel <= cnt c Q) /\ (empt d = true -> In [] Q).
Definition DV (F : formula) (d : db) (sel : cid -> bool) : Prop := exists Q, DVQ F d sel Q.
Definition alls : cid -> bool := fun _ => true.
Definition lives (d : db) : cid -> bool := fun c => negb (isDeleted d c).

Lemma filter_incl_length {A} (f g : A -> bool) (l l' : list A) : NoDup l' -> (forall x, In x l' -> f x = true -> In x l /\ g x = true) ->
  length (filter f l') <= length (filter g l).
Proof.
  intros HN H. apply NoDup_incl_length; [apply NoDup_filter; auto|]. intros x Hx. apply filter_In in Hx. apply filter_In. apply H; apply Hx.
Qed.

Lemma DVQ_present F d sel Q c : DVQ F d sel Q -> In c (cls d) -> sel c = true -> exists c', In c' Q /\ same_lits (clits d c) c'.
Proof.
  intros (_ & H & _) Hc Hs. apply cnt_pos. specialize (H (clits d c)). assert (Hp : 0 < csel (clits d c) d sel); [|lia].
  unfold csel. destruct (filter _ (cls d)) eqn:E; [|cbn; lia]. exfalso.
  assert (HI : In c (filter (fun x => sel x && sameb (clits d c) (clits d x)) (cls d))); [|rewrite E in HI; destruct HI].
  apply filter_In. split; auto. rewrite Hs. cbn [andb]. apply sameb_spec. apply same_refl.
Qed.

(** every clause of the database contains a clause that the proof has *)
Definition covered (d : db) (Q : formula) : Prop := forall x, In x (cls d) -> exists c', In c' Q /\ incl c' (clits d x).
Lemma DVQ_covered F d Q : DVQ F d alls Q -> covered d Q.
Proof. intros H x Hx. destruct (DVQ_present F d alls Q x H Hx eq_refl) as (c' & A & B). exists c'. split; auto. intros l Hl. apply B. auto. Qed.

(** a closed set: what unit propagation derives, or everything if it falsifies a clause *)
Definition conflicting (Q : formula) (A : list lit) : Prop := exists d, In d Q /\ forall m, In m d -> up Q A (lneg m).
Definition upH (Q : formula) (A : list lit) (l : lit) : Prop := up Q A l \/ conflicting Q A.
Lemma all_or {A} (f g : A -> Prop) (R : Prop) (l : list A) : (forall x, In x l -> g x -> f x \/ R) -> (forall x, In x l -> g x \/ ~ g x) ->
  (forall x, In x l -> g x -> f x) \/ R.
Proof.
  induction l as [|x l IH]; intros H D; [left; intros x []|]. destruct IH as [IH|IH]; auto; [intros y Hy; apply H; cbn; auto|intros y Hy; apply D; cbn; auto|].
  destruct (D x) as [Dx|Dx]; [cbn; auto| |].
  - destruct (H x) as [Hx|Hx]; [cbn; auto|auto| |auto]. left. intros y [<-|Hy]; auto.
  - left. intros y [<-|Hy]; auto. intros G. contradiction.
Qed.
Lemma upH_closed d Q A : covered d Q -> UPclosed d (upH Q A).
Proof.
  intros HC x q Hx Hq Hm. destruct (HC x Hx) as (c' & C1 & C2).
  destruct (all_or (fun m => up Q A (lneg m)) (fun m => m <> q) (conflicting Q A) c') as [H|H].
  - intros m M1 M2. apply Hm; auto.
  - intros m _. destruct (Nat.eq_dec m q); auto.
  - destruct (in_dec Nat.eq_dec q c') as [Hi|Hi].
    + left. exact (up_unit Q A c' q C1 Hi H).
    + right. exists c'. split; auto. intros m M. apply H; auto. intros ->. contradiction.
  - right. auto.
Qed.
Definition falsified (d : db) (c : clause) : Prop := exists x, In x (cls d) /\ forall H, UPclosed d H -> (forall l, In l c -> H (lneg l)) ->
  forall m, In m (clits d x) -> H (lneg m).
Lemma rup_of d Q c : covered d Q -> falsified d c -> rup Q c.
Proof.
  intros HC (x & Hx & HH). assert (HX := HH (upH Q (map lneg c)) (upH_closed d Q _ HC)).
  assert (HY : forall l, In l c -> upH Q (map lneg c) (lneg l)) by (intros l Hl; left; apply up_assumed; apply in_map; auto).
  specialize (HX HY). destruct (HC x Hx) as (c' & C1 & C2).
  destruct (all_or (fun m => up Q (map lneg c) (lneg m)) (fun _ => True) (conflicting Q (map lneg c)) c') as [H|H]; auto.
  - intros m Hm _. apply HX. auto.
  - exists c'. auto.
Qed.

(** ** The operations on the database *)
Lemma csel_same c d d' sel : cls d' = cls d -> (forall x, In x (cls d) -> same_lits (clits d x) (clits d' x)) -> csel c d' sel = csel c d sel.
Proof.
  intros E H. unfold csel. rewrite E. f_equal. apply filter_ext_in. intros x Hx. f_equal. apply sameb_cong. apply same_sym. auto.
Qed.
Lemma DV_same F d d' sel : cert d' = cert d -> cls d' = cls d -> empt d' = empt d -> (forall x, In x (cls d) -> same_lits (clits d x) (clits d' x)) ->
  DV F d sel -> DV F d' sel.
Proof.
  intros E1 E2 E3 H (Q & A & B & D). exists Q. unfold DVQ. rewrite E1, E3. split; auto. split; auto.
  intros c. rewrite (csel_same c d d' sel E2 H). auto.
Qed.
Lemma DV_aperm F d a sel : aperm (arena d) a -> DV F d sel -> DV F (with_arena d a) sel.
Proof. intros HA. apply DV_same; auto. intros x _. apply same_perm. apply HA. Qed.
Lemma DV_reestimate F t cs d sel : DV F d sel -> DV F (reestimate t cs d) sel.
Proof.
  destruct (reestimate_fields t cs d) as (A1 & A2 & A3 & A4 & A5 & A6 & A7 & A8 & A9 & A10). apply DV_same; auto.
  intros x _. change (same_lits (alits (arena d) x) (alits (arena (reestimate t cs d)) x)). rewrite A9. apply same_refl.
Qed.
Lemma DV_sel F d sel sel' : (forall c, In c (cls d) -> sel' c = true -> sel c = true) -> NoDup (cls d) -> DV F d sel -> DV F d sel'.
Proof.
  intros H HN (Q & A & B & D). exists Q. split; auto. split; auto. intros c. eapply Nat.le_trans; [|apply B].
  apply filter_incl_length; auto. intros x Hx E. split; auto. apply andb_prop in E. destruct E as (E1 & E2). rewrite E2, H; auto.
Qed.
Lemma createClause_cert ls lbd lem d c d' : createClause ls lbd lem d = Ok (c, d') -> cert d' = if lem then cert d else CAdd ls :: cert d.
Proof. unfold createClause. destruct (_ <=? _)%N; [discriminate|]. intros E. injection E as <- <-. reflexivity. Qed.

Lemma created_csel n x d ls c d' sel sel' : DI n d -> created d ls c d' -> (forall y, y < length (arena d) -> sel' y = true -> sel y = true) ->
  csel x d' sel' <= (if sameb x ls then 1 else 0) + csel x d sel.
Proof.
  intros HD HK Hs. unfold csel. assert (Ec : cls d' = cls d ++ [c]) by apply HK. rewrite Ec, filter_app, app_length.
  assert (H1 : length (filter (fun y => sel' y && sameb x (clits d' y)) (cls d)) <= length (filter (fun y => sel y && sameb x (clits d y)) (cls d))).
  { apply filter_incl_length; [apply (di_clsnd _ _ HD)|]. intros y Hy E. split; auto. assert (Hlt := cls_lt _ _ _ HD Hy).
    rewrite (clits_old _ _ _ _ y HK Hlt) in E. apply andb_prop in E. destruct E as (E1 & E2). rewrite E2, (Hs y Hlt E1). auto. }
  cbn [filter]. rewrite (clits_new _ _ _ _ HK). destruct (sel' c), (sameb x ls); cbn [andb length]; unfold cid in *; lia.
Qed.
Lemma DVQ_create F n d ls lbd c d' sel sel' Q : DI n d -> createClause ls lbd false d = Ok (c, d') -> rup Q ls ->
  (forall y, y < length (arena d) -> sel' y = true -> sel y = true) -> DVQ F d sel Q -> DVQ F d' sel' (ls :: Q).
Proof.
  intros HD E HR Hs (A & B & D). assert (HK := createClause_created _ _ _ _ _ _ E). split; [|split].
  - rewrite (createClause_cert _ _ _ _ _ _ E). cbn [rev]. eapply derivation_trans; [exact A|]. apply d_add; auto. apply d_nil.
  - intros x. rewrite cnt_cons. assert (H := created_csel n x d ls c d' sel sel' HD HK Hs). specialize (B x). lia.
  - destruct HK as (_ & _ & _ & _ & Ee). rewrite Ee. destruct ls; cbn [length Nat.eqb]; [left; auto|]. intros H. right. auto.
Qed.
Lemma DVQ_empty F d sel Q : rup Q [] -> DVQ F d sel Q -> DVQ F (emptyClause d) sel ([] :: Q).
Proof.
  intros HR (A & B & D). split; [|split].
  - cbn [emptyClause cert rev]. eapply derivation_trans; [exact A|]. apply d_add; auto. apply d_nil.
  - intros x. rewrite cnt_cons. specialize (B x). change (csel x (emptyClause d) sel) with (csel x d sel). lia.
  - intros _. left. auto.
Qed.
Lemma DVQ_remove F n d sel Q x : DI n d -> In x (cls d) -> sel x = true -> clits d x <> [] -> DVQ F d sel Q ->
  exists Q', DVQ F (removeClause x d) (fun y => sel y && negb (y =? x)) Q' /\ incl Q' Q.
Proof.
  intros HD Hx Hs Hn HQ. destruct (DVQ_present F d sel Q x HQ Hx Hs) as (c' & C1 & C2). destruct HQ as (A & B & D).
  apply in_split in C1. destruct C1 as (Q1 & Q2 & ->). exists (Q1 ++ Q2). split; [split; [|split]|].
  - cbn [removeClause cert rev]. eapply derivation_trans; [exact A|]. apply d_del; auto. apply d_nil.
  - intros c. specialize (B c). rewrite cnt_app, cnt_cons in B. rewrite cnt_app.
    assert (H1 : csel c (removeClause x d) (fun y => sel y && negb (y =? x)) + (if sameb c c' then 1 else 0) <= csel c d sel); [|lia].
    rewrite <- (sameb_cong c _ _ C2). unfold csel. destruct (remove_fields x d) as (_ & _ & -> & _).
    assert (Hlt : forall y, clits (removeClause x d) y = clits d y) by (intros y; apply clits_remove).
    destruct (sameb c (clits d x)) eqn:Ex.
    + rewrite Nat.add_1_r. change (S (length (filter (fun y => (sel y && negb (y =? x)) && sameb c (clits (removeClause x d) y)) (cls d)))) with
        (length (x :: filter (fun y => (sel y && negb (y =? x)) && sameb c (clits (removeClause x d) y)) (cls d))).
      apply NoDup_incl_length.
      * constructor; [|apply NoDup_filter, (di_clsnd _ _ HD)]. rewrite filter_In, Nat.eqb_refl, andb_false_r. intros (_ & H). discriminate.
      * intros y [<-|Hy]; apply filter_In; [rewrite Hs, Ex; auto|]. apply filter_In in Hy. rewrite Hlt in Hy. destruct Hy as (Y1 & Y2). split; auto.
        destruct (sel y), (sameb c (clits d y)); auto; rewrite ?andb_false_r in Y2; discriminate.
    + rewrite Nat.add_0_r. apply filter_incl_length; [apply (di_clsnd _ _ HD)|]. intros y Hy E. split; auto. rewrite Hlt in E.
      destruct (sel y), (sameb c (clits d y)); auto; rewrite ?andb_false_r in E; discriminate.
  - destruct (remove_fields x d) as (_ & _ & _ & _ & -> & _). intros He. specialize (D He). apply in_app_or in D. apply in_or_app. destruct D as [D|[D|D]]; auto.
    exfalso. subst c'. destruct (clits d x) as [|l r]; [auto|]. apply (C2 l). cbn. auto.
  - intros y Hy. apply in_app_or in Hy. apply in_or_app. cbn. tauto.
Qed.

(** ** Loading *)
Lemma created_csel_all n x d ls c d' : DI n d -> created d ls c d' -> csel x d' alls <= (if sameb x ls then 1 else 0) + csel x d alls.
Proof. intros HD HK. apply (created_csel n x d ls c d' alls alls HD HK). auto. Qed.
Lemma DVQ_load F n cs : forall d d' Q, DI n d -> Forall (wfc n) cs -> create_all cs true d = Ok d' -> DVQ F d alls Q ->
  exists Q', DVQ (F ++ cs) d' alls (Q ++ Q') /\ Q' = cs.
Proof.
  intros d d' Q HD HF E HQ. exists cs. split; auto. revert F d d' Q HD HF E HQ.
  induction cs as [|c cs IH]; intros F d d' Q HD HF E HQ; cbn [create_all] in E.
  { injection E as <-. rewrite !app_nil_r. auto. }
  apply bind_ok in E. destruct E as ((x & d1) & E1 & E2). inversion HF as [|? ? Hc HF']; subst.
  assert (HD1 := createClause_DI _ _ _ _ _ _ _ HD Hc E1). assert (HK := createClause_created _ _ _ _ _ _ E1).
  assert (HQ1 : DVQ (F ++ [c]) d1 alls (Q ++ [c])).
  { destruct HQ as (A & B & D). split; [|split].
    - rewrite (createClause_cert _ _ _ _ _ _ E1). apply derivation_frame. auto.
    - intros y. rewrite cnt_app, cnt_cons. assert (H := created_csel_all n y d c x d1 HD HK). specialize (B y). lia.
    - destruct HK as (_ & _ & _ & _ & Ee). rewrite Ee. intros H. apply in_or_app. destruct c; [right; left; auto|]. left. auto. }
  specialize (IH (F ++ [c]) d1 d' (Q ++ [c]) HD1 HF' E2 HQ1). rewrite <- !app_assoc in IH. exact IH.
Qed.

(** ** Reduction *)
Lemma DV_fold_remove F n vs : forall d sel, DI n d -> NoDup vs -> (forall x, In x vs -> In x (cls d) /\ sel x = true /\ clits d x <> []) -> DV F d sel ->
  DV F (fold_left (fun d c => removeClause c d) vs d) (fun y => sel y && negb (if in_dec Nat.eq_dec y vs then true else false)).
Proof.
  induction vs as [|x vs IH]; intros d sel HD HN HV HQ; cbn [fold_left].
  - apply (DV_sel F d sel); auto; [|apply (di_clsnd _ _ HD)]. intros c _. destruct (in_dec Nat.eq_dec c []) as [[]|]. cbn. rewrite andb_true_r. auto.
  - inversion HN as [|? ? Hx HN']; subst. destruct (HV x) as (V1 & V2 & V3); [cbn; auto|]. destruct HQ as (Q & HQ).
    destruct (DVQ_remove F n d sel Q x HD V1 V2 V3 HQ) as (Q' & HQ' & _).
    assert (HD1 : DI n (removeClause x d)) by (apply removeClause_DI; auto).
    destruct (remove_fields x d) as (_ & _ & Ec & _).
    assert (H := IH (removeClause x d) (fun y => sel y && negb (y =? x)) HD1 HN'). eapply DV_sel; [| |apply H; [|exists Q'; exact HQ']].
    + intros y _ E. destruct (in_dec Nat.eq_dec y (x :: vs)) as [Hi|Hi]; cbn [negb andb] in E; [rewrite andb_false_r in E; discriminate|].
      rewrite andb_true_r in E. rewrite E. cbn [In] in Hi. destruct (in_dec Nat.eq_dec y vs); [tauto|]. destruct (Nat.eqb_spec y x); [subst; tauto|]. auto.
    + apply (di_clsnd n). apply fold_remove_DI. auto.
    + intros y Hy. destruct (HV y) as (W1 & W2 & W3); [cbn; auto|]. rewrite Ec, clits_remove, W2. split; auto. split; auto.
      destruct (Nat.eqb_spec y x); auto. subst. contradiction.
Qed.
Lemma DV_reorganize F n d sel : DI n d -> (forall c, In c (cls d) -> isDeleted d c = false -> sel c = true) -> DV F d sel -> DV F (reorganize d) alls.
Proof.
  intros HD Hs (Q & A & B & D). exists Q. destruct (reorganize_fields d) as (Ea & _ & _ & Ee). split; [exact A|]. split; [|rewrite Ee; auto].
  intros c. eapply Nat.le_trans; [|apply B]. assert (HD' := reorganize_DI n d HD). apply filter_incl_length; [apply (di_clsnd _ _ HD')|].
  intros x Hx E. apply reorganize_cls in Hx. destruct Hx as (X1 & X2). assert (X3 := di_live _ _ HD x X1 X2). split; auto. rewrite (Hs x X3 X2).
  cbn [alls andb] in *. exact E.
Qed.

(** the victims of a reduction *)
Lemma victims_incl persist median cand d x : In x (red_victims persist median cand d) -> In x (red_candidates persist d).
Proof.
  unfold red_victims. set (ls := std_sort _ cand (red_candidates persist d)).
  assert (HP : Permutation ls (red_candidates persist d)) by apply std_sort_perm.
  destruct (1 <? length ls); [|intros []]. intros H. apply (Permutation_in _ HP).
  assert (HS : forall (r l : list nat), (exists p, l = p ++ r) -> forall x, In x r -> In x l) by (intros r l (p & ->) y Hy; apply in_or_app; auto).
  apply (HS (skipn (length ls / 2) ls)); [exists (firstn (length ls / 2) ls); symmetry; apply firstn_skipn|].
  destruct median; auto. destruct (skipn (length ls / 2) ls) as [|c r]; auto. revert H. generalize (c :: r). generalize (cwt d c). clear.
  intros w l. induction l as [|y l IH]; cbn [skip_equal]; auto. destruct (_ =? _)%N; cbn [In]; auto.
Qed.
Lemma skipn_NoDup {A} n (l : list A) : NoDup l -> NoDup (skipn n l).
Proof. revert l. induction n as [|n IH]; intros [|x l] H; cbn [skipn]; auto. inversion H; auto. Qed.
Lemma victims_NoDup persist median cand d : NoDup (cls d) -> NoDup (red_victims persist median cand d).
Proof.
  intros HN. unfold red_victims. set (ls := std_sort _ cand (red_candidates persist d)).
  assert (HP : Permutation ls (red_candidates persist d)) by apply std_sort_perm.
  assert (HL : NoDup ls) by (apply (Permutation_NoDup (Permutation_sym HP)); apply NoDup_filter; auto).
  destruct (1 <? length ls); [|constructor]. assert (HK := skipn_NoDup (length ls / 2) ls HL).
  destruct median; auto. destruct (skipn (length ls / 2) ls) as [|c r]; [constructor|]. revert HK. generalize (c :: r). generalize (cwt d c). clear.
  intros w l. induction l as [|y l IH]; cbn [skip_equal]; auto. intros H. destruct (_ =? _)%N; auto. inversion H; auto.
Qed.
Lemma fold_remove_deleted vs x : forall d, In x vs -> x < length (arena d) -> isDeleted (fold_left (fun d c => removeClause c d) vs d) x = true.
Proof.
  assert (HM : forall vs d, x < length (arena d) -> isDeleted d x = true -> isDeleted (fold_left (fun d c => removeClause c d) vs d) x = true).
  { clear. induction vs as [|y vs IH]; intros d Hx Hd; cbn [fold_left]; auto. apply IH; [rewrite arena_len_remove; auto|].
    unfold isDeleted. rewrite cwt_awt. destruct (remove_fields y d) as (_ & _ & _ & _ & _ & ->). rewrite awt_set_wt. destruct (_ && _); auto. }
  induction vs as [|y vs IH]; intros d Hin Hx; [destruct Hin|]. destruct Hin as [->|Hi]; cbn [fold_left].
  - apply HM; [rewrite arena_len_remove; auto|]. unfold isDeleted. rewrite cwt_awt. destruct (remove_fields x d) as (_ & _ & _ & _ & _ & ->).
    rewrite awt_set_wt. rewrite Nat.eqb_refl. apply Nat.ltb_lt in Hx. rewrite Hx. reflexivity.
  - apply IH; auto. rewrite arena_len_remove. auto.
Qed.
Lemma DV_reduce F n persist median cand d : DI n d -> DV F d alls ->
  DV F (reorganize (snd (reduce persist median cand d))) alls.
Proof.
  intros HD HQ. cbn [reduce snd]. set (vs := red_victims persist median cand d).
  assert (HV : forall x, In x vs -> In x (cls d) /\ alls x = true /\ clits d x <> []).
  { intros x Hx. apply victims_incl in Hx. apply filter_In in Hx. destruct Hx as (X1 & X2). split; auto. split; auto.
    intros E. unfold reducible in X2. destruct (di_small _ _ HD x (di_cls _ _ HD x X1)) as [H|H]; [rewrite E; cbn; lia| |].
    - rewrite H in X2. destruct persist; discriminate.
    - unfold isDeleted in X2. rewrite H in X2. cbn in X2. rewrite andb_false_r in X2. discriminate. }
  apply (DV_reorganize F n _ (fun y => alls y && negb (if in_dec Nat.eq_dec y vs then true else false))).
  - apply fold_remove_DI. auto.
  - intros c Hc Hd. destruct (in_dec Nat.eq_dec c vs) as [Hi|Hi]; auto. exfalso.
    rewrite fold_remove_deleted in Hd; auto; [discriminate|]. exact (cls_lt _ _ _ HD (proj1 (HV c Hi))).
  - apply (DV_fold_remove F n); auto. apply victims_NoDup. apply (di_clsnd _ _ HD).
Qed.
