(** The clausal proof while the solver simplifies its clauses. *)
Require Import List Arith Bool NArith ZArith Permutation Lia.
From Coq Require Import ZifyBool ZifyNat ZifyN.
Require Import Verif.Base Verif.CNFModel Verif.CNFProofs Verif.Outcome Verif.TrailModel Verif.TrailSpec Verif.TrailProofs Verif.TrailLemmas Verif.DbModel Verif.PropModel Verif.PropProofs Verif.DbProofs
  Verif.PropSpec Verif.PropLemmas Verif.AnalyzeModel Verif.AnalyzeProofs Verif.AnalyzeLemmas Verif.SimpModel Verif.SubsProofs Verif.SimpProofs Verif.SimpSpec Verif.SimpLemmas
  Verif.VEProofs Verif.AsymmProofs Verif.AsymmLemmas Verif.ReduceModel Verif.SolverModel Verif.SolverBase Verif.SolverUnits Verif.SolverSimp Verif.SolverSearch Verif.SolverProofs
  Verif.SolverSpec Verif.SolverLemmas Verif.CertSpec Verif.CertProofs Verif.CertSolver.
Import ListNotations.

(** [sel]: the clauses of the database that the proof has not deleted; [T]: literals that are unit clauses *)
Record GC (F : formula) (d : db) (sel : cid -> bool) (T : list lit) : Prop := {
  g_q : exists Q, DVQ F d sel Q /\ covered d Q;
  g_live : forall c, LV d c -> sel c = true;
  g_small : forall c, In c (cls d) -> length (clits d c) < 3 -> sel c = true -> isDeleted d c = false;
  g_u : forall l, In l T -> exists c, LV d c /\ clits d c = [l] }.

Lemma GC_sub F d sel T T' : incl T' T -> GC F d sel T -> GC F d sel T'.
Proof. intros H [A B C D]. constructor; auto. Qed.
Lemma GC_H F d sel T H l : GC F d sel T -> UPclosed d H -> In l T -> H l.
Proof. intros HG HU Hl. destruct (g_u _ _ _ _ HG l Hl) as (c & (C1 & _) & C2). exact (UPclosed_unit d H c l HU C1 C2). Qed.
Lemma GC_add_T F d sel T l c : LV d c -> clits d c = [l] -> GC F d sel T -> GC F d sel (T ++ [l]).
Proof.
  intros H1 H2 [A B C D]. constructor; auto. intros m Hm. apply in_app_or in Hm. destruct Hm as [Hm|[<-|[]]]; auto. exists c. auto.
Qed.

Lemma DVQ_remove' F n d sel Q x : DI n d -> In x (cls d) -> sel x = true -> clits d x <> [] -> DVQ F d sel Q ->
  exists Q', DVQ F (removeClause x d) (fun y => sel y && negb (y =? x)) Q' /\ forall q, In q Q -> In q Q' \/ same_lits (clits d x) q.
Proof.
  intros HD Hx Hs Hn HQ. destruct (DVQ_present F d sel Q x HQ Hx Hs) as (c' & C1 & C2). destruct HQ as (A & B & D).
  apply in_split in C1. destruct C1 as (Q1 & Q2 & ->). exists (Q1 ++ Q2). split; [split; [|split]|].
  - cbn [removeClause cert rev]. eapply derivation_trans; [exact A|]. apply d_del; auto. apply d_nil.
  - intros c. specialize (B c). rewrite cnt_app, cnt_cons in B. rewrite cnt_app.
    assert (H1 : csel c (removeClause x d) (fun y => sel y && negb (y =? x)) + (if sameb c c' then 1 else 0) <= csel c d sel); [|lia].
    rewrite <- (sameb_cong c _ _ C2). unfold csel. destruct (remove_fields x d) as (_ & _ & -> & _).
    assert (Hlt : forall y, clits (removeClause x d) y = clits d y) by (intros y; apply clits_remove).
    destruct (sameb c (clits d x)) eqn:Ex.
    + rewrite Nat.add_1_r. change (S (length (filter (fun y => (sel y && negb (y =? x)) && sameb c (clits (removeClause x d) y)) (cls d)))) with
        (length (x :: filter (fun y => (sel y && negb (y =? x)) && sameb c (clits (removeClause x d) y)) (cls d))).
      apply NoDup_incl_length.
      * constructor; [|apply NoDup_filter, (di_clsnd _ _ HD)]. rewrite filter_In, Nat.eqb_refl, andb_false_r. intros (_ & H). discriminate.
      * intros y [<-|Hy]; apply filter_In; [rewrite Hs, Ex; auto|]. apply filter_In in Hy. rewrite Hlt in Hy. destruct Hy as (Y1 & Y2). split; auto.
        destruct (sel y), (sameb c (clits d y)); auto; rewrite ?andb_false_r in Y2; discriminate.
    + rewrite Nat.add_0_r. apply filter_incl_length; [apply (di_clsnd _ _ HD)|]. intros y Hy E. split; auto. rewrite Hlt in E.
      destruct (sel y), (sameb c (clits d y)); auto; rewrite ?andb_false_r in E; discriminate.
  - destruct (remove_fields x d) as (_ & _ & _ & _ & -> & _). intros He. specialize (D He). apply in_app_or in D. apply in_or_app. destruct D as [D|[D|D]]; auto.
    exfalso. subst c'. destruct (clits d x) as [|l r]; [auto|]. apply (C2 l). cbn. auto.
  - intros q Hq. apply in_app_or in Hq. destruct Hq as [Hq|[<-|Hq]]; auto; left; apply in_or_app; auto.
Qed.

(** creating a clause that unit propagation derives *)
Lemma GC_create F n d ls lbd c d' sel T : DI n d -> createClause ls lbd false d = Ok (c, d') -> falsified d ls -> GC F d sel T ->
  GC F d' (fun y => sel y || (y =? c)) T.
Proof.
  intros HD E HF [(Q & HQ & HC) HL HS HU]. assert (HK := createClause_created _ _ _ _ _ _ E). assert (Ec : cls d' = cls d ++ [c]) by apply HK.
  assert (En : c = length (arena d)) by apply HK.
  assert (Hold : forall x, In x (cls d) -> clits d' x = clits d x /\ cwt d' x = cwt d x /\ x <> c).
  { intros x Hx. assert (Hlt := cls_lt _ _ _ HD Hx). split; [exact (clits_old _ _ _ _ x HK Hlt)|]. split; [exact (cwt_old _ _ _ _ x HK Hlt)|lia]. }
  constructor.
  - exists (ls :: Q). split.
    + apply (DVQ_create F n d ls lbd c d' sel); auto; [exact (rup_of d Q ls HC HF)|]. intros y Hy H. apply orb_prop in H. destruct H as [H|H]; auto.
      apply Nat.eqb_eq in H. lia.
    + intros x Hx. rewrite Ec in Hx. apply in_app_or in Hx. destruct Hx as [Hx|[<-|[]]].
      * destruct (HC x Hx) as (c' & C1 & C2). exists c'. rewrite (proj1 (Hold x Hx)). cbn. auto.
      * exists ls. rewrite (clits_new _ _ _ _ HK). split; [cbn; auto|apply incl_refl].
  - intros x (Hx & Hd). rewrite Ec in Hx. apply in_app_or in Hx. destruct Hx as [Hx|[<-|[]]]; [|rewrite Nat.eqb_refl, orb_true_r; auto].
    destruct (Hold x Hx) as (O1 & O2 & O3). rewrite (HL x); auto. split; auto. unfold isDeleted in *. rewrite O2 in Hd. auto.
  - intros x Hx Hl Hs. rewrite Ec in Hx. apply in_app_or in Hx. destruct Hx as [Hx|[<-|[]]].
    + destruct (Hold x Hx) as (O1 & O2 & O3). apply Nat.eqb_neq in O3. rewrite O3, orb_false_r in Hs. rewrite O1 in Hl.
      unfold isDeleted. rewrite O2. apply HS; auto.
    + rewrite (clits_new _ _ _ _ HK) in Hl. unfold isDeleted. rewrite cwt_awt, (createClause_wt _ _ _ _ _ _ E), En, awt_new.
      cbn [wt]. destruct (Nat.ltb_spec (length ls) 3); [reflexivity|lia].
  - intros l Hl. destruct (HU l Hl) as (x & (X1 & X2) & X3). destruct (Hold x X1) as (O1 & O2 & O3). exists x. rewrite O1. split; auto.
    split; [rewrite Ec; apply in_or_app; auto|]. unfold isDeleted in *. rewrite O2. auto.
Qed.

(** removing a clause of which the proof keeps a part *)
Lemma GC_remove F n d sel T ci cj : DI n d -> In ci (cls d) -> In cj (cls d) -> ci <> cj -> sel ci = true -> sel cj = true ->
  clits d ci <> [] -> clits d cj <> [] -> incl (clits d ci) (clits d cj) -> GC F d sel T -> GC F (removeClause cj d) (fun y => sel y && negb (y =? cj)) T.
Proof.
  intros HD Hi Hj Hne Si Sj Ni Nj HI [(Q & HQ & HC) HL HS HU]. assert (Hlt := cls_lt _ _ _ HD Hj).
  destruct (DVQ_remove' F n d sel Q cj HD Hj Sj Nj HQ) as (Q' & HQ' & HM).
  assert (Hi' : exists q, In q Q' /\ incl q (clits d ci)).
  { destruct (DVQ_present F _ _ Q' ci HQ') as (q & Q1 & Q2); [exact Hi|rewrite Si; apply Nat.eqb_neq in Hne; rewrite Hne; auto|].
    exists q. split; auto. intros l Hl. rewrite clits_remove in Q2. apply Q2. auto. }
  constructor.
  - exists Q'. split; auto. intros x Hx. rewrite clits_remove. change (cls (removeClause cj d)) with (cls d) in Hx.
    destruct (HC x Hx) as (q & Q1 & Q2). destruct (HM q Q1) as [H|H]; [exists q; auto|].
    destruct Hi' as (q' & A & B). exists q'. split; auto. intros l Hl. apply Q2. apply H. auto.
  - intros x Hx. rewrite LV_remove in Hx by auto. destruct Hx as (X1 & X2). apply Nat.eqb_neq in X2. rewrite X2, (HL x X1). auto.
  - intros x Hx Hl Hs. apply andb_prop in Hs. destruct Hs as (S1 & S2). rewrite clits_remove in Hl. rewrite isDeleted_remove by auto.
    destruct (Nat.eqb_spec x cj); [discriminate|]. cbn [orb]. apply HS; auto.
  - intros l Hl. destruct (HU l Hl) as (x & X1 & X2). destruct (Nat.eq_dec x cj) as [->|Hn].
    + exists ci. rewrite LV_remove, clits_remove by auto. rewrite X2 in HI.
      assert (Eci : clits d ci = [l]).
      { assert (Hw : NoDup (map lvar (clits d ci))) by apply (di_WFA _ _ HD ci). destruct (clits d ci) as [|a [|b r]]; [congruence| |].
        - destruct (HI a (or_introl eq_refl)) as [<-|[]]. auto.
        - exfalso. destruct (HI a (or_introl eq_refl)) as [<-|[]]. destruct (HI b (or_intror (or_introl eq_refl))) as [<-|[]].
          inversion Hw as [|? ? W1 _]. apply W1. cbn. auto. }
      split; auto. split; auto. split; auto. apply HS; auto. rewrite Eci. cbn. lia.
    + exists x. rewrite LV_remove, clits_remove by auto. auto.
Qed.
Lemma GC_aperm F d a sel T : aperm (arena d) a -> GC F d sel T -> GC F (with_arena d a) sel T.
Proof.
  intros HA [(Q & HQ & HC) HL HS HU].
  assert (HP : forall c, Permutation (clits d c) (clits (with_arena d a) c)) by (intros c; apply HA).
  assert (HW : forall c, isDeleted (with_arena d a) c = isDeleted d c) by (intros c; unfold isDeleted; f_equal; apply HA).
  constructor.
  - exists Q. destruct HQ as (Q1 & Q2 & Q3). split; [split; [exact Q1|split; [|exact Q3]]|].
    + intros c. rewrite (csel_same c d); auto. intros x _. apply same_perm. auto.
    + intros x Hx. destruct (HC x Hx) as (q & A & B). exists q. split; auto. intros l Hl. exact (Permutation_in _ (HP x) (B l Hl)).
  - intros c (C1 & C2). rewrite HW in C2. apply HL. split; auto.
  - intros c Hc Hl Hs. rewrite HW. apply HS; auto. rewrite (Permutation_length (HP c)). auto.
  - intros l Hl. destruct (HU l Hl) as (c & (C1 & C2) & C3). exists c. split; [split; auto; rewrite HW; auto|].
    apply Permutation_length_1_inv. rewrite <- C3. auto.
Qed.
Lemma GC_fail F d sel T : empt d = true \/ falsified d [] -> GC F d sel T -> GC F (emptyClause d) sel T.
Proof.
  intros H [(Q & HQ & HC) HL HS HU]. constructor; auto. exists ([] :: Q). split.
  - apply DVQ_empty; auto. destruct H as [H|H]; [exact (DVQ_rup_empt _ _ _ _ _ HQ H)|]. exact (rup_of d Q [] HC H).
  - intros x Hx. destruct (HC x Hx) as (q & A & B). exists q. cbn. auto.
Qed.
Lemma GC_fail_if F d sel T b : (b = false -> falsified d []) -> GC F d sel T -> GC F (fail_if b d) sel T.
Proof. intros H HG. destruct b; cbn [fail_if]; auto. apply GC_fail; auto. Qed.

(** ** The wrapped clauses *)
Definition wsel (s : sdb) (sel : cid -> bool) : Prop := forall i c, wclause s i = Some c -> sel c = true.
Definition GW (F : formula) (d : db) (s : sdb) (T : list lit) : Prop := exists sel, GC F d sel T /\ wsel s sel.

Lemma remove_GW F T n i j ci cj d s d1 s1 : SI n d s -> wclause s i = Some ci -> wclause s j = Some cj -> i <> j -> incl (clits d ci) (clits d cj) ->
  GW F d s T -> sub_remove j d s = Ok (d1, s1) -> GW F d1 s1 T.
Proof.
  intros H Hi Hj Hn HI (sel & HG & HW) E. destruct (sub_remove_SI n j cj d s H Hj) as (E' & _). rewrite E in E'. injection E' as -> ->.
  destruct (s_cls _ _ _ H i ci Hi) as (I1 & I2). destruct (s_cls _ _ _ H j cj Hj) as (J1 & J2).
  assert (Hne : ci <> cj) by (intros ->; apply Hn; apply (s_inj _ _ _ H i j cj); auto).
  exists (fun y => sel y && negb (y =? cj)). split.
  - apply (GC_remove F n d sel T ci cj); auto; try apply H; eauto.
  - intros k x Hk. rewrite (wclause_srem s j cj) in Hk by auto. destruct (Nat.eqb_spec k j) as [|Hkj]; [discriminate|].
    rewrite (HW k x Hk). destruct (Nat.eqb_spec x cj) as [->|]; auto. exfalso. apply Hkj. apply (s_inj _ _ _ H k j cj); auto.
Qed.

Lemma strengthen_GW F T n i c l d s d1 s1 : SI n d s -> wclause s i = Some c -> 1 < length (clits d c) -> In l (clits d c) ->
  falsified d (lfilt l (clits d c)) -> GW F d s T -> sub_strengthen i l d s = Ok (d1, s1) -> GW F d1 s1 T.
Proof.
  intros H Hi Hlen Hl HF (sel & HG & HW) E. destruct (sub_strengthen_SI n i c l d s H Hi Hlen Hl) as (d' & E' & HI' & _).
  rewrite E in E'. injection E' as -> ->. unfold sub_strengthen in E. rewrite Hi in E. apply bind_ok in E. destruct E as ((c' & d2) & E1 & E2).
  injection E2 as -> _. unfold strengthenClause in E1. apply bind_ok in E1. destruct E1 as ((c2 & d3) & E4 & E5). injection E5 as <- <-.
  assert (HD := s_D _ _ _ H). assert (HK := createClause_created _ _ _ _ _ _ E4). assert (En : c2 = length (arena d)) by apply HK.
  assert (Ec : cls d3 = cls d ++ [c2]) by apply HK. destruct (s_cls _ _ _ H i c Hi) as (C1 & C2). assert (Hlt := cls_lt _ _ _ HD C1).
  assert (Hw : wfc n (clits d c)) by apply (di_WFA _ _ HD c).
  assert (HD3 : DI n d3) by (apply (createClause_DI _ _ _ _ _ _ _ HD (lfilt_wfc n l _ Hw) E4)).
  assert (HG3 := GC_create F n d _ _ c2 d3 sel T HD E4 HF HG).
  assert (L1 : clits d3 c2 = lfilt l (clits d c)) by exact (clits_new _ _ _ _ HK).
  assert (L2 : clits d3 c = clits d c) by exact (clits_old _ _ _ _ c HK Hlt).
  exists (fun y => (sel y || (y =? c2)) && negb (y =? c)). split.
  - apply (GC_remove F n d3 _ T c2 c); auto; rewrite ?Ec, ?L1, ?L2; auto; try (apply in_or_app; cbn; auto).
    + lia.
    + rewrite Nat.eqb_refl, orb_true_r. auto.
    + rewrite (HW i c Hi). auto.
    + apply lfilt_two; auto. apply Hw.
    + apply lfilt_incl.
  - intros k x Hk. rewrite <- En in Hk. unfold sstr in Hk.
    change (wclause (mkS (set_nth i (Some c2) (subs s)) (occ s)) k = Some x) in Hk. rewrite wclause_set in Hk by (eapply wclause_lt; eauto).
    destruct (Nat.eqb_spec k i) as [->|Hki].
    + injection Hk as <-. rewrite Nat.eqb_refl, orb_true_r. destruct (Nat.eqb_spec c2 c); auto. lia.
    + rewrite (HW k x Hk). cbn [orb andb]. destruct (Nat.eqb_spec x c) as [->|]; auto. exfalso. apply Hki. apply (s_inj _ _ _ H k i c); auto.
Qed.

(** a clause is falsified when its literals are *)
Lemma falsified_self d c : In c (cls d) -> falsified d (clits d c).
Proof. intros H. exists c. auto. Qed.

Lemma create_GW F T n i c d s d1 s1 j : SI n d s -> wclause s i = Some c -> GW F d s T -> sub_create (clits d c) 0 d s = Ok (j, d1, s1) -> GW F d1 s1 T.
Proof.
  intros H Hi (sel & HG & HW) E. unfold sub_create in E. apply bind_ok in E. destruct E as ((c2 & d3) & E4 & E5). injection E5 as <- <- <-.
  destruct (s_cls _ _ _ H i c Hi) as (C1 & C2). exists (fun y => sel y || (y =? c2)). split.
  - apply (GC_create F n d (clits d c) 0 c2); auto; [apply H|]. apply falsified_self. auto.
  - intros k x Hk. rewrite wclause_add in Hk. destruct (k =? length (subs s)); [injection Hk as <-; rewrite Nat.eqb_refl, orb_true_r; auto|].
    rewrite (HW k x Hk). auto.
Qed.

(** ** Unit resolution *)
Lemma unit_loop_GW F T n i c unit os : forall d s b d' s', SI n d s -> wclause s i = Some c -> clits d c = [unit] -> NoDup os ->
  (forall o co, In o os -> wclause s o = Some co -> exists l, In l (clits d co) /\ lvar l = lvar unit) ->
  GW F d s T -> unit_loop i unit os d s = Ok (b, d', s') -> GW F d' s' T /\ (b = false -> falsified d' []).
Proof.
  induction os as [|o r IH]; intros d s b d' s' H Hi Hu Hnd Hv HG E; cbn [unit_loop] in E.
  { injection E as <- <- <-. split; auto. discriminate. }
  inversion Hnd as [|? ? Hor Hndr]; subst. destruct (Nat.eqb_spec o i) as [->|Hoi]; cbn [negb andb] in E.
  { apply (IH d s); auto. intros; eapply Hv; simpl; eauto. }
  destruct (live s o) eqn:Hlo; [|apply (IH d s); auto; intros; eapply Hv; simpl; eauto].
  apply live_some in Hlo. destruct Hlo as (co & Ho). unfold wlits in E. rewrite Ho in E.
  assert (Hcn : c < length (arena d)) by (eapply cls_lt; [apply H|]; apply (s_cls _ _ _ H i c Hi)).
  assert (Hc := proj1 (s_cls _ _ _ H i c Hi)). assert (Hco := proj1 (s_cls _ _ _ H o co Ho)).
  destruct (existsb (Nat.eqb unit) (clits d co)) eqn:Eu.
  - apply existsb_eqb_in in Eu. apply bind_ok in E. destruct E as ((d1 & s1) & E1 & E).
    assert (HG1 : GW F d1 s1 T).
    { apply (remove_GW F T n i o c co d s); auto. rewrite Hu. intros x [<-|[]]; auto. }
    destruct (sub_remove_SI n o co d s H Ho) as (E1' & HI1 & _). rewrite E1 in E1'. injection E1' as -> ->.
    apply (IH (removeClause co d) (srem o s)); auto.
    + rewrite (wclause_srem s o co) by auto. apply not_eq_sym in Hoi. apply Nat.eqb_neq in Hoi. rewrite Hoi. auto.
    + rewrite clits_remove. auto.
    + intros x cx Hx Hw. rewrite clits_remove. rewrite (wclause_srem s o co) in Hw by auto. destruct (x =? o); [discriminate|].
      eapply Hv; simpl; eauto.
  - assert (Hnu : ~ In unit (clits d co)) by (rewrite <- existsb_eqb_in, Eu; discriminate).
    assert (Hneg : In (lneg unit) (clits d co)).
    { destruct (Hv o co (or_introl eq_refl) Ho) as (m & M1 & M2). apply same_var in M2. destruct M2 as [->| ->]; auto. contradiction. }
    assert (HF : falsified d (lfilt (lneg unit) (clits d co))).
    { exists co. split; auto. intros K HK Hn m Hm. destruct (Nat.eq_dec m (lneg unit)) as [->|Hmn].
      - rewrite lneg_invol. exact (UPclosed_unit d K c unit HK Hc Hu).
      - apply Hn. apply lfilt_in. auto. }
    destruct (Nat.eqb_spec (length (clits d co)) 1) as [E1|E1].
    + injection E as <- <- <-. split; auto. intros _. destruct (clits d co) as [|z [|z' r']] eqn:Eco; simpl in E1; try lia. destruct Hneg as [->|[]].
      cbn [lfilt filter] in HF. rewrite Nat.eqb_refl in HF. exact HF.
    + assert (Hlen : 1 < length (clits d co)).
      { destruct (s_cls _ _ _ H o co Ho) as (_ & X). destruct (clits d co) as [|z [|z' r']]; simpl in *; try congruence; try lia. }
      apply bind_ok in E. destruct E as ((d1 & s1) & E2 & E).
      assert (HG1 := strengthen_GW F T n o co (lneg unit) d s d1 s1 H Ho Hlen Hneg HF HG E2).
      destruct (sub_strengthen_SI n o co (lneg unit) d s H Ho Hlen Hneg) as (d2 & E2' & HI2 & HS2 & _). rewrite E2 in E2'. injection E2' as <- ->.
      assert (HWc : forall j, wclause (sstr o (length (arena d)) (lneg unit) s) j = if j =? o then Some (length (arena d)) else wclause s j).
      { intros j. unfold sstr. change (wclause (mkS (set_nth o (Some (length (arena d))) (subs s)) (occ s)) j = if j =? o then Some (length (arena d)) else wclause s j).
        apply wclause_set. eapply wclause_lt; eauto. }
      apply (IH d1 (sstr o (length (arena d)) (lneg unit) s)); auto.
      * rewrite HWc. apply not_eq_sym in Hoi. apply Nat.eqb_neq in Hoi. rewrite Hoi. exact Hi.
      * rewrite (ds_lits _ _ HS2) by auto. auto.
      * intros x cx Hx Hw. rewrite HWc in Hw. destruct (Nat.eqb_spec x o) as [->|Hxo]; [contradiction|].
        rewrite (ds_lits _ _ HS2); [eapply Hv; simpl; eauto|]. eapply cls_lt; [apply H|]. apply (s_cls _ _ _ H x cx Hw).
Qed.

(** ** Subsumption *)
Lemma sub_scan_GW F T ptr n i0 os : forall i d s cnt e d' s' cnt', SI n d s -> live s i = true ->
  i0 = i \/ (forall c, wclause s i = Some c -> cwt d c = 0%N) -> GW F d s T -> sub_scan ptr i0 i os d s cnt = Ok (e, d', s', cnt') ->
  GW F d' s' T /\ (e = ScFail -> falsified d' []).
Proof.
  induction os as [|o r IH]; intros i d s cnt e d' s' cnt' H Hi H0 HG E; cbn [sub_scan] in E.
  { injection E as <- <- <- <-. split; auto. discriminate. }
  destruct (Nat.eqb_spec o i) as [->|Hoi]; [apply (IH i d s cnt e d' s' cnt'); auto|].
  destruct (wclause s o) as [co|] eqn:Ho; [|apply (IH i d s cnt e d' s' cnt'); auto].
  destruct (live_some _ _ Hi) as (ci & Eci). rewrite Eci in E.
  assert (Hwi : NoDup (map lvar (clits d ci))) by apply (di_WFA _ _ (s_D _ _ _ H) ci).
  assert (Hwo : NoDup (map lvar (clits d co))) by apply (di_WFA _ _ (s_D _ _ _ H) co).
  pose proof (subsumes_spec _ _ Hwi Hwo) as HSub.
  assert (Cco := proj1 (s_cls _ _ _ H o co Ho)). assert (Cci := proj1 (s_cls _ _ _ H i ci Eci)).
  assert (Hco : co < length (arena d)) by (eapply cls_lt; [apply H|auto]).
  assert (Hne : ci <> co) by (intros ->; apply Hoi; eapply (s_inj _ _ _ H); eauto).
  destruct (subsumes (clits d ci) (clits d co)) as [| |l].
  - apply (IH i d s cnt e d' s' cnt'); auto.
  - assert (Hrem : forall cnt1, ('(d1, s1) <- sub_remove o d s;; sub_scan ptr i0 i r d1 s1 cnt1) = Ok (e, d', s', cnt') -> GW F d' s' T /\ (e = ScFail -> falsified d' [])).
    { intros cnt1 E1. apply bind_ok in E1. destruct E1 as ((d1 & s1) & E1 & E2).
      assert (HG1 := remove_GW F T n i o ci co d s d1 s1 H Eci Ho (not_eq_sym Hoi) HSub HG E1).
      destruct (sub_remove_SI n o co d s H Ho) as (E1' & HI1 & _). rewrite E1 in E1'. injection E1' as -> ->.
      apply (IH i (removeClause co d) (srem o s) cnt1 e d' s' cnt'); auto.
      - unfold live. rewrite (wclause_srem s o co) by auto. apply not_eq_sym, Nat.eqb_neq in Hoi. rewrite Hoi, Eci. auto.
      - destruct H0 as [->|H0]; auto. right. intros c. rewrite (wclause_srem s o co) by auto. apply not_eq_sym, Nat.eqb_neq in Hoi. rewrite Hoi.
        intros Hc. rewrite cwt_remove by auto. rewrite Hc in Eci. inversion Eci; subst c. apply Nat.eqb_neq in Hne. rewrite Hne. auto. }
    destruct ((length (clits d ci) =? length (clits d co)) && _) eqn:Ed; [exact (Hrem _ E)|].
    cbv zeta in E. destruct (isPersistent d co && isLearnt d ci) eqn:Ep; [|exact (Hrem _ E)].
    apply andb_true_iff in Ep. destruct Ep as [_ Ep]. unfold isLearnt in Ep. apply N.ltb_lt in Ep.
    destruct H0 as [->|H0]; [|rewrite (H0 _ Eci) in Ep; lia].
    destruct (recreate_spost n i ci d s H Eci) as (d1 & d2 & E1 & E2 & HP & Hl2 & Hw2).
    rewrite E1 in E. cbn [bind] in E. rewrite E2 in E. cbn [bind] in E.
    assert (HG1 := create_GW F T n i ci d s d1 _ _ H Eci HG E1).
    destruct (sub_create_SI n (clits d ci) 0 d s H (di_WFA _ _ (s_D _ _ _ H) ci) (proj2 (s_cls _ _ _ H i ci Eci)) (s_L _ _ _ H ci)) as (d1' & E1' & HI1 & HC & HS & Hw).
    rewrite E1 in E1'. injection E1' as <-.
    assert (Hol : o < length (subs s)) by (eapply wclause_lt; eauto).
    assert (Hil : i < length (subs s)) by (eapply wclause_lt; eauto).
    assert (Hci : ci < length (arena d)) by (eapply cls_lt; [apply H|auto]).
    assert (HG2 : GW F d2 (srem i (sub_add (length (arena d)) (clits d ci) s)) T).
    { apply (remove_GW F T n (length (subs s)) i (length (arena d)) ci d1 (sub_add (length (arena d)) (clits d ci) s)); auto.
      - rewrite wclause_add, Nat.eqb_refl. auto.
      - rewrite wclause_add. destruct (Nat.eqb_spec i (length (subs s))); auto. lia.
      - lia.
      - rewrite (clits_new _ _ _ _ HC), (clits_old _ _ _ _ ci HC Hci). apply incl_refl. }
    set (s2 := srem i (sub_add (length (arena d)) (clits d ci) s)) in *.
    assert (HW2 : forall j, wclause s2 j = if j =? i then None else if j =? length (subs s) then Some (length (arena d)) else wclause s j).
    { intros j. unfold s2. rewrite (wclause_srem _ i ci).
      - rewrite wclause_add. reflexivity.
      - rewrite wclause_add. destruct (Nat.eqb_spec i (length (subs s))); auto. lia. }
    assert (Ho2 : wclause s2 o = Some co).
    { rewrite HW2. destruct (Nat.eqb_spec o i); [contradiction|]. destruct (Nat.eqb_spec o (length (subs s))); [lia|auto]. }
    assert (Hn2 : wclause s2 (length (subs s)) = Some (length (arena d))).
    { rewrite HW2. destruct (Nat.eqb_spec (length (subs s)) i); [lia|]. rewrite Nat.eqb_refl. auto. }
    assert (Hco2 : clits d2 co = clits d co) by (apply (ds_lits _ _ (sp_step _ _ _ _ _ HP)); auto).
    apply bind_ok in E. destruct E as ((d3 & s3) & E3 & E).
    assert (HG3 : GW F d3 s3 T).
    { apply (remove_GW F T n (length (subs s)) o (length (arena d)) co d2 s2); auto; [apply HP|lia|]. rewrite Hl2, Hco2. auto. }
    destruct (sub_remove_SI n o co d2 s2 (sp_SI _ _ _ _ _ HP) Ho2) as (E3' & HI3 & _). rewrite E3 in E3'. injection E3' as -> ->.
    assert (Hnl : length (subs s) <> o) by lia. apply Nat.eqb_neq in Hnl.
    eapply (IH (length (subs s)) _ _ _ e d' s' cnt' HI3); [| |exact HG3|exact E].
    + unfold live. rewrite (wclause_srem s2 o co) by auto. rewrite Hnl, Hn2. auto.
    + right. intros c. rewrite (wclause_srem s2 o co) by auto. rewrite Hnl, Hn2. intros Ec; inversion Ec; subst c.
      rewrite cwt_remove by (eapply Nat.lt_le_trans; [exact Hco|apply (ds_len _ _ (sp_step _ _ _ _ _ HP))]).
      destruct (Nat.eqb_spec (length (arena d)) co); auto. lia.
  - cbv zeta in E. destruct HSub as (S1 & S2 & S3).
    assert (HF : falsified d (lfilt (lneg l) (clits d co))).
    { exists co. split; auto. intros K HK Hn m Hm. destruct (Nat.eq_dec m (lneg l)) as [->|Hmn]; [|apply Hn; apply lfilt_in; auto].
      rewrite lneg_invol. apply (HK ci l Cci S1). intros x X1 X2. apply Hn. apply lfilt_in. split; [auto|]. intros ->.
      exact (nodup_no_compl (clits d ci) l Hwi S1 X1). }
    destruct (1 <? length (clits d co)) eqn:El.
    + apply Nat.ltb_lt in El. apply bind_ok in E. destruct E as ((d1 & s1) & E1 & E). injection E as <- <- <- <-. split; [|discriminate].
      exact (strengthen_GW F T n o co (lneg l) d s d1 s1 H Ho El S2 HF HG E1).
    + apply Nat.ltb_ge in El. injection E as <- <- <- <-. split; auto. intros _.
      destruct (clits d co) as [|z [|z' r']] eqn:Eco; simpl in El; try lia; [destruct S2|]. destruct S2 as [->|[]].
      cbn [lfilt filter] in HF. rewrite Nat.eqb_refl in HF. exact HF.
Qed.

Lemma subsume_clause_GW F T ptr n fuel : forall i d s cnt b d' s' cnt', SI n d s -> live s i = true -> GW F d s T ->
  subsume_clause ptr fuel i d s cnt = Ok (b, d', s', cnt') -> GW F d' s' T /\ (b = false -> falsified d' []).
Proof.
  induction fuel as [|f IH]; intros i d s cnt b d' s' cnt' H Hi HG E; cbn [subsume_clause] in E; [discriminate|].
  destruct (wlits d s i) as [|l0 r] eqn:Ew; [discriminate|]. cbv zeta in E. apply bind_ok in E. destruct E as ((((e & d1) & s1) & cnt1) & E1 & E).
  destruct (sub_scan_GW F T ptr n i _ i d s cnt e d1 s1 cnt1 H Hi (or_introl eq_refl) HG E1) as (G1 & G2).
  destruct (sub_scan_spec ptr n i (occs s (lvar (min_occ s l0 r))) i d s cnt H Hi (or_introl eq_refl)) as (e' & d1' & s1' & cnt1' & E1' & HP & HE).
  rewrite E1 in E1'. injection E1' as <- <- <- <-. destruct e as [|o|].
  - injection E as <- <- <- <-. split; auto. discriminate.
  - apply (IH o d1 s1 cnt1 b d' s' cnt'); auto; [apply HP|apply HE].
  - injection E as <- <- <- <-. auto.
Qed.
Lemma subsume_list_GW F T ptr n is : forall d s cnt b d' s' cnt', SI n d s -> GW F d s T ->
  subsume_list ptr is d s cnt = Ok (b, d', s', cnt') -> GW F d' s' T /\ (b = false -> falsified d' []).
Proof.
  induction is as [|i r IH]; intros d s cnt b d' s' cnt' H HG E; cbn [subsume_list] in E.
  { injection E as <- <- <- <-. split; auto. discriminate. }
  destruct (wclause s i) as [c|] eqn:Ec; [|apply (IH d s cnt b d' s' cnt'); auto].
  apply bind_ok in E. destruct E as ((((b1 & d1) & s1) & cnt1) & E1 & E).
  assert (HX : GW F d1 s1 T /\ (b1 = false -> falsified d1 []) /\ SI n d1 s1).
  { destruct (Nat.eqb_spec (length (clits d c)) 1) as [E0|E0].
    - apply bind_ok in E1. destruct E1 as (((b2 & d2) & s2) & E1 & E2). injection E2 as <- <- <- <-.
      destruct (unit_resolution_spec n i c d s H Ec E0) as (b' & d2' & s2' & E' & HP & _). rewrite E1 in E'. injection E' as <- <- <-.
      unfold unit_resolution, wlits in E1. rewrite Ec in E1. destruct (clits d c) as [|u [|u' q]] eqn:Eu; try discriminate.
      destruct (unit_loop_GW F T n i c u (occs s (lvar u)) d s b2 d2 s2) as (G1 & G2); auto; [apply H| |split; auto; split; auto; apply HP].
      intros o co Ho Hw. eapply s_occ; eauto.
    - assert (Hlv : live s i = true) by (unfold live; rewrite Ec; auto).
      destruct (subsume_clause_GW F T ptr n _ i d s cnt b1 d1 s1 cnt1 H Hlv HG E1) as (G1 & G2). split; auto. split; auto.
      destruct (subsume_clause_spec ptr n (S (sub_size d s)) i d s cnt H Hlv ltac:(lia)) as (b' & d2' & s2' & c2' & E' & HP & _).
      rewrite E1 in E'. injection E' as <- <- <- <-. apply HP. }
  destruct HX as (G1 & G2 & G3). destruct b1.
  - apply (IH d1 s1 cnt1 b d' s' cnt'); auto.
  - injection E as <- <- <- <-. auto.
Qed.

(** ** Propagation *)
Lemma prop_H n d w t1 k d2 w2 t2 H : DI n d -> WI d w -> PInv d w t1 -> prop_result d w t1 k d2 w2 t2 -> UPclosed d2 H ->
  (forall l, In l (tr t1) -> H l) -> (forall l, In l (tr t2) -> H l) /\
  (forall c, k = Some c -> In c (cls d2) /\ forall m, In m (clits d2 c) -> H (lneg m)).
Proof.
  intros HD HW HI (A1 & A2 & A3 & A4 & A5 & A6 & A7 & A8 & A9 & A10 & A11) HU H1.
  assert (HT2 := pi_TI _ _ _ A1). destruct (tx_tr _ _ A2) as (new & En & Hnew). cbn [with_qh tr] in En.
  assert (HL : forall c, listed d w c -> In c (cls d2)).
  { intros c Hc. rewrite A5. destruct (listed_usable d w n c HD (pi_W1 _ _ _ HI) HW Hc) as (X & _). exact X. }
  assert (HA : forall l, In l (tr t2) -> H l).
  { intros l Hl. apply In_nth_error in Hl. destruct Hl as (i & Hi). revert l Hi. induction i as [i IH] using lt_wf_ind. intros l Hi.
    assert (Hl := nth_error_In _ _ Hi). rewrite En in Hl. apply in_app_or in Hl. destruct Hl as [Hl|Hl]; auto.
    specialize (Hnew l Hl). destruct (reason t2 (lvar l)) as [c|] eqn:Er; [|congruence].
    destruct (pi_TRe _ _ _ A1 i l c Hi Er) as [R1 R2]. destruct (A9 l c (nth_error_In _ _ Hi) Er) as [(N1 & _)|N]; auto.
    apply (HU c l (HL c N) R1). intros m M1 M2. destruct (R2 m M1 M2) as (j & Hj & Ej). exact (IH j Hj _ Ej). }
  split; auto. intros c Hc. destruct (A10 c Hc) as (B1 & B2 & _). split; auto. intros m Hm. apply HA. apply (ti_val_false t2 m HT2). auto.
Qed.
Lemma WI_prop d w t k d' w' t' : WI d w -> prop_result d w t k d' w' t' -> WI d' w'.
Proof.
  intros HW (A1 & A2 & A3 & A4 & A5 & A6 & A7 & A8 & A9 & A10 & A11) c q Hc. destruct (A8 c q Hc) as (q' & Hq). rewrite A5. exact (HW c q' Hq).
Qed.
Lemma WI_mono d d' w : (forall c, In c (cls d) -> In c (cls d')) -> WI d w -> WI d' w.
Proof. intros H HW c q Hc. apply H. exact (HW c q Hc). Qed.
Lemma GW_aperm F d a s T : aperm (arena d) a -> GW F d s T -> GW F (with_arena d a) s T.
Proof. intros HA (sel & HG & HW). exists sel. split; auto. apply GC_aperm; auto. Qed.

(** ** Asymmetric variable reduction *)
Lemma asymm_loop_GW F n v os : forall k d w t s b k' d' w' t' s', SI n d s -> PInv d w t -> nvt t = n -> lim t = [] -> NoDup os ->
  (forall i c, In i os -> wclause s i = Some c -> exists l, In l (clits d c) /\ lvar l = v) -> WI d w ->
  GW F d s (tr t) -> asymm_loop v os k d w t s = Ok (b, k', d', w', t', s') ->
  GW F d' s' (tr t) /\ WI d' w' /\ (b = false -> falsified d' []).
Proof.
  induction os as [|i r IH]; intros k d w t s b k' d' w' t' s' H HP Hn Hlim Hnd Hv HWI HG E; cbn [asymm_loop] in E.
  { injection E as <- <- <- <- <- <-. split; auto. split; auto. discriminate. }
  inversion Hnd as [|? ? Hir Hndr]; subst.
  destruct (live s i && negb (satisfies_any t (wlits d s i))) eqn:Elv.
  2:{ apply (IH k d w t s b k' d' w' t' s'); auto. intros; eapply Hv; simpl; eauto. }
  apply andb_true_iff in Elv. destruct Elv as [E1 _]. apply live_some in E1. destruct E1 as (c & Ec).
  assert (Ewl : wlits d s i = clits d c) by (unfold wlits; rewrite Ec; auto). rewrite Ewl in *.
  pose proof (di_WFA _ _ (s_D _ _ _ H) c) as [Wn Wr]. change (alits (arena d) c) with (clits d c) in Wn, Wr.
  destruct (asymm_decide_spec v (clits d c) None d w (newDecisionLevel t) (PInv_newlevel _ _ _ HP) Wn Wr)
    as (ol & t1 & D0 & D1 & D2 & D3 & Ddec & Das & ds & D4 & D5 & D6 & D7 & D8 & D9).
  rewrite D0 in E. cbn [bind] in E. destruct (propagate_spec d w t1 D1) as (cf & d2 & w2 & t2 & EP & HR). rewrite EP in E. cbn [bind] in E.
  cbv zeta in E. set (t3 := backtrack 0 t2) in *.
  pose proof HR as (A1 & A2 & A3 & A4 & A5 & A6 & A7 & A8 & A9 & A10 & A11).
  assert (Hl2 : lim t2 = [length (tr t)]).
  { pose proof (tx_lim _ _ A2) as El. cbn [with_qh lim] in El. rewrite El, D2. unfold newDecisionLevel; cbn [lim]. rewrite Hlim. reflexivity. }
  assert (Hlt : 0 < dlevel t2) by (unfold dlevel; rewrite Hl2; simpl; lia).
  destruct (backtrack_fields 0 t2 Hlt) as (F1 & F2 & F3 & F4 & F5 & F6 & F7).
  assert (Ht3 : tr t3 = tr t).
  { unfold t3. rewrite F1, Hl2. cbn [nth]. destruct (tx_tr _ _ A2) as (new & En & _). cbn [with_qh tr] in En. rewrite En, D4.
    unfold newDecisionLevel; cbn [tr]. rewrite <- app_assoc, firstn_app, Nat.sub_diag, firstn_all. simpl. apply app_nil_r. }
  assert (Hf3 : lim t3 = [] /\ nvt t3 = nvt t).
  { unfold t3. rewrite F2, F3. rewrite (tx_nvt _ _ A2). cbn [with_qh nvt]. rewrite D3. split; reflexivity. }
  assert (HS2 : SI (nvt t) d2 s) by (rewrite A5; apply SI_aperm; auto).
  assert (HPi : PInv d2 w2 t3) by (apply PInv_backtrack; auto).
  assert (HW2 := WI_prop _ _ _ _ _ _ _ HWI HR).
  assert (HG2 : GW F d2 s (tr t)) by (rewrite A5; apply GW_aperm; auto).
  assert (Hv2 : forall j x, In j r -> wclause s j = Some x -> exists l, In l (clits d2 x) /\ lvar l = v).
  { intros j x Hj Hx. destruct (Hv j x (or_intror Hj) Hx) as (l & L1 & L2). exists l. rewrite A5, ap_in; auto. }
  rewrite <- Ht3. destruct cf as [cf|].
  2:{ apply (IH k d2 w2 t3 s b k' d' w' t' s'); auto; try apply Hf3. rewrite Ht3. auto. }
  destruct ol as [l|]; [|discriminate].
  destruct (D6 l eq_refl) as [|[Hl1 Hl2']]; [discriminate|].
  assert (Ewl2 : wlits d2 s i = clits d2 c) by (unfold wlits; rewrite Ec; auto). rewrite Ewl2 in E.
  assert (HFD : falsified d2 ds).
  { destruct HG2 as (sel & HG2 & _). exists cf. assert (X := fun K HU HT => proj2 (prop_H (nvt t) d w t1 (Some cf) d2 w2 t2 K (s_D _ _ _ H) HWI D1 HR HU HT) cf eq_refl).
    split.
    - rewrite A5. destruct (A10 cf eq_refl) as (_ & B2 & _). destruct (listed_usable d w (nvt t) cf (s_D _ _ _ H) (pi_W1 _ _ _ D1) HWI B2) as (Y & _). exact Y.
    - intros K HU Hds. apply X; auto. intros m Hm. rewrite D4 in Hm. unfold newDecisionLevel in Hm; cbn [tr] in Hm. apply in_app_or in Hm. destruct Hm as [Hm|Hm].
      + exact (GC_H _ _ _ _ K m HG2 HU Hm).
      + apply in_map_iff in Hm. destruct Hm as (x & <- & Hx). auto. }
  destruct (Nat.ltb_spec 1 (length (clits d2 c))) as [Hlen|Hlen].
  - assert (Hlc : In l (clits d2 c)) by (rewrite A5, ap_in; auto).
    assert (HF : falsified d2 (lfilt l (clits d2 c))).
    { destruct HFD as (x & X1 & X2). exists x. split; auto. intros K HU Hn. apply X2; auto. intros m Hm. apply Hn. apply lfilt_in. split; [rewrite A5, ap_in; auto|].
      intros ->. contradiction. }
    apply bind_ok in E. destruct E as ((d3 & s3) & E3 & E).
    assert (HG3 := strengthen_GW F (tr t) (nvt t) i c l d2 s d3 s3 HS2 Ec Hlen Hlc HF HG2 E3).
    destruct (sub_strengthen_SI (nvt t) i c l d2 s HS2 Ec Hlen Hlc) as (d3' & E3' & HI3 & HS3 & _). rewrite E3 in E3'. injection E3' as <- ->.
    apply (IH (S k) d3 w2 t3 (sstr i (length (arena d2)) l s) b k' d' w' t' s'); auto; try apply Hf3.
    + apply (PInv_dstep d2); auto. rewrite (proj2 Hf3). apply HI3.
    + intros j x Hj Hx. assert (Hji : j <> i) by (intros ->; auto).
      assert (Hx' : wclause s j = Some x).
      { rewrite <- Hx. unfold sstr. change (wclause s j = wclause (mkS (set_nth i (Some (length (arena d2))) (subs s)) (occ s)) j).
        rewrite wclause_set by (eapply wclause_lt; eauto). destruct (Nat.eqb_spec j i); congruence. }
      destruct (Hv2 j x Hj Hx') as (y & Y1 & Y2). exists y. rewrite (ds_lits _ _ HS3); auto.
      eapply cls_lt; [apply HS2|]. apply (s_cls _ _ _ HS2 j x Hx').
    + apply (WI_mono d2); auto. intros x Hx. apply (ds_cls _ _ HS3). auto.
    + rewrite Ht3. auto.
  - injection E as <- <- <- <- <- <-. rewrite Ht3. split; auto. split; auto. intros _.
    assert (Eds : ds = []).
    { destruct ds as [|x ds]; auto. exfalso. destruct (Hv i c (or_introl eq_refl) Ec) as (y & Y1 & Y2).
      assert (Hlen' : length (clits d c) <= 1) by (rewrite A5, ap_len in Hlen; auto). assert (X4 := D5 x (or_introl eq_refl)). assert (X6 := D8 x (or_introl eq_refl)).
      destruct (clits d c) as [|z [|z' q]]; simpl in *; try lia; destruct X4 as [X4|[]]; destruct Y1 as [Y1|[]]; congruence. }
    rewrite <- Eds. exact HFD.
Qed.
Lemma asymm_vars_GW F n vs : forall k d w t s b k' d' w' t' s', SI n d s -> PInv d w t -> nvt t = n -> lim t = [] -> WI d w ->
  GW F d s (tr t) -> asymm_vars vs k d w t s = Ok (b, k', d', w', t', s') -> GW F d' s' (tr t) /\ WI d' w' /\ (b = false -> falsified d' []).
Proof.
  induction vs as [|v r IH]; intros k d w t s b k' d' w' t' s' H HP Hn Hlim HWI HG E; cbn [asymm_vars] in E.
  { injection E as <- <- <- <- <- <-. split; auto. split; auto. discriminate. }
  destruct (is_undef (vvalue t v)); [|apply (IH k d w t s b k' d' w' t' s'); auto].
  assert (Ho : forall i c, In i (occs s v) -> wclause s i = Some c -> exists l, In l (clits d c) /\ lvar l = v).
  { intros i c Hi Hc. exact (s_occ _ _ _ H v i c Hi Hc). }
  destruct (asymm_loop_spec n v (occs s v) k d w t s H HP Hn Hlim (s_nd _ _ _ H v) Ho) as (b1 & k1 & d1 & w1 & t1 & s1 & E1 & A & _).
  rewrite E1 in E. cbn [bind] in E.
  destruct (asymm_loop_GW F n v (occs s v) k d w t s b1 k1 d1 w1 t1 s1 H HP Hn Hlim (s_nd _ _ _ H v) Ho HWI HG E1) as (G1 & G2 & G3).
  destruct b1.
  - destruct (ap_t _ _ _ _ _ _ _ _ _ A) as (T1 & T2 & T3 & T4). assert (Tr := ap_tr _ _ _ _ _ _ _ _ _ A). rewrite <- Tr.
    apply (IH k1 d1 w1 t1 s1 b k' d' w' t' s'); auto; try apply A; try congruence.
  - injection E as <- <- <- <- <- <-. auto.
Qed.

(** ** Unit clauses *)
Lemma pmu_facts_GC F n cs : forall d t d1 t1 sel, DI n d -> TI t -> dlevel t = 0 -> nvt t = n -> (forall c, In c cs -> LV d c /\ exists l, clits d c = [l]) ->
  GC F d sel (tr t) -> pmu_facts cs d t = Ok (d1, t1) -> GC F d1 sel (tr t1) /\ cls d1 = cls d.
Proof.
  induction cs as [|c cs IH]; intros d t d1 t1 sel HD HT H0 HN Hcs HG E; cbn [pmu_facts] in E; [injection E as <- <-; auto|].
  apply bind_ok in E. destruct E as ((b & t2) & E1 & E2). destruct (Hcs c (or_introl eq_refl)) as (C1 & l & C2). rewrite C2 in E1. cbn [hd] in E1.
  assert (Hlv : lvar l < nvt t). { rewrite HN. apply (proj2 (di_WFA _ _ HD c)). change (In l (clits d c)). rewrite C2. left; auto. }
  assert (Hcs' : forall y, In y cs -> LV d y /\ exists l, clits d y = [l]) by (intros y Hy; apply Hcs; cbn; auto).
  destruct (fact_cases l t HT Hlv H0) as [(Ev & Ef)|[(Ev & Ef)|(Ev & Ef)]]; rewrite Ef in E1; injection E1 as <- <-.
  - apply (IH d (tpush l None t) d1 t1 sel); auto; [apply TI_push; auto|]. cbn [tpush tr]. exact (GC_add_T F d sel (tr t) l c C1 C2 HG).
  - apply (IH d (set_vd (lvar l) (None, 0) t) d1 t1 sel); auto. apply TI_set_vd_fact; auto.
  - destruct (IH (emptyClause d) t d1 t1 sel) as (I1 & I2); auto; [apply emptyClause_DI; auto|]. apply GC_fail; auto. right.
    exists c. split; [apply C1|]. intros H HC _ m. rewrite C2. intros [<-|[]]. apply (GC_H _ _ _ _ H _ HG HC). apply (ti_val_false t l HT). auto.
Qed.
Lemma pmu_units_GC F n ls : forall d t d' t' sel T, DI n d -> (forall l, In l ls -> lvar l < n) -> GC F d sel T ->
  (forall l, In l ls -> falsified d [l]) -> pmu_units ls d t = Ok (d', t') ->
  exists sel', GC F d' sel' (T ++ ls) /\ (forall c, sel c = true -> sel' c = true) /\ (forall c, In c (cls d) -> In c (cls d')).
Proof.
  induction ls as [|l ls IH]; intros d t d' t' sel T HD Hls HG HF E; cbn [pmu_units] in E.
  { injection E as <- <-. exists sel. rewrite app_nil_r. auto. }
  apply bind_ok in E. destruct E as ((c & d1) & E1 & E). apply bind_ok in E. destruct E as ((b & t1) & _ & E).
  assert (Hw : wfc n [l]) by (split; [repeat constructor; intros []|intros m [<-|[]]; apply Hls; cbn; auto]).
  assert (HD1 := createClause_DI _ _ _ _ _ _ _ HD Hw E1). assert (HK := createClause_created _ _ _ _ _ _ E1).
  assert (HG1 := GC_create F n d [l] 0 c d1 sel T HD E1 (HF l (or_introl eq_refl)) HG). assert (Ec : cls d1 = cls d ++ [c]) by apply HK.
  assert (HL : LV d1 c).
  { split; [rewrite Ec; apply in_or_app; cbn; auto|]. apply (g_small _ _ _ _ HG1); [rewrite Ec; apply in_or_app; cbn; auto| |rewrite Nat.eqb_refl, orb_true_r; auto].
    rewrite (clits_new _ _ _ _ HK). cbn. lia. }
  assert (HG2 := GC_add_T F d1 _ T l c HL (clits_new _ _ _ _ HK) HG1).
  destruct (IH d1 t1 d' t' _ (T ++ [l]) HD1 (fun m Hm => Hls m (or_intror Hm)) HG2) as (sel' & I1 & I2 & I3); auto.
  { intros m Hm. destruct (HF m (or_intror Hm)) as (x & X1 & X2). exists x. assert (Hlt := cls_lt _ _ _ HD X1).
    split; [rewrite Ec; apply in_or_app; auto|]. rewrite (clits_old _ _ _ _ x HK Hlt). intros H HU. apply X2. intros y q Hy Hq Hm2.
    apply (HU y q); [rewrite Ec; apply in_or_app; auto| |]; rewrite (clits_old _ _ _ _ y HK (cls_lt _ _ _ HD Hy)); auto. }
  exists sel'. rewrite <- app_assoc in I1. split; auto. split.
  - intros x Hx. apply I2. rewrite Hx. auto.
  - intros x Hx. apply I3. rewrite Ec. apply in_or_app. auto.
Qed.
Lemma pmu_GC F P d w t d' w' t' sel : Z P d w t -> WI d w -> GC F d sel (tr t) -> pmu d w t = Ok (d', w', t') ->
  WI d' w' /\ exists sel', GC F d' sel' (if empt d' then [] else tr t') /\ forall c, sel c = true -> sel' c = true.
Proof.
  intros HZ HWI HG E. unfold pmu in E.
  assert (HC := z_C _ _ _ _ HZ). assert (HD := ci_D _ _ HC). assert (HT := pi_TI _ _ _ (z_P _ _ _ _ HZ)).
  assert (H0 : dlevel t = 0) by (unfold dlevel; rewrite (z_lim _ _ _ _ HZ); auto).
  destruct (pmu_facts_spec P False w (getUnitClauses d) d t HZ) as (d1 & t1 & E1 & E2 & E3 & _).
  { intros c Hc. apply getUnit_in in Hc. apply Hc. }
  destruct (pmu_facts_GC F (nv d) (getUnitClauses d) d t d1 t1 sel HD HT H0 (z_n _ _ _ _ HZ)) as (G1 & K1); auto.
  { intros c Hc. apply getUnit_in in Hc. destruct Hc as (C1 & C2). assert (C3 : In c (mem d ++ facts d)) by (apply in_or_app; auto).
    split; [split; auto; exact (di_live _ _ HD c C3 C2)|]. apply (di_fact _ _ HD c C3) in C1. destruct (clits d c) as [|l [|]]; try discriminate. eauto. }
  rewrite E1 in E. cbn [bind] in E. destruct (empt d1) eqn:Ee.
  { injection E as <- <- <-. split; [apply (WI_mono d); auto; rewrite K1; auto|]. exists sel. rewrite Ee. split; auto. apply (GC_sub _ _ _ (tr t1)); auto. intros x []. }
  destruct E3 as [->|(E3 & _)]; [|congruence]. destruct E2 as [HC1 HP1 HL1 HN1 HT1 HR1].
  destruct (propagate_spec d w t1 HP1) as (k & d2 & w2 & t2 & J1 & J2). rewrite J1 in E. cbn [bind] in E.
  assert (HW2 := WI_prop _ _ _ _ _ _ _ HWI J2). assert (J2' := J2). destruct J2 as (A1 & A2 & A3 & A4 & A5 & A6 & A7 & A8 & A9 & A10 & A11).
  assert (G2 : GC F d2 sel (tr t1)) by (rewrite A5; apply GC_aperm; auto).
  assert (HD2 : DI (nv d) d2) by (rewrite A5; apply aperm_DI; auto).
  assert (HH : forall H, UPclosed d2 H -> (forall l, In l (tr t2) -> H l) /\
    (forall c, k = Some c -> In c (cls d2) /\ forall m, In m (clits d2 c) -> H (lneg m))).
  { intros H HU. apply (prop_H (nv d) d w t1 k d2 w2 t2 H HD HWI HP1 J2' HU). intros l Hl. exact (GC_H _ _ _ _ H l G2 HU Hl). }
  assert (HT2 := pi_TI _ _ _ A1). assert (L2 : lim t2 = []) by (rewrite (tx_lim _ _ A2); exact HL1).
  assert (D2 : dlevel t2 = 0) by (unfold dlevel; rewrite L2; auto).
  destruct k as [c|].
  - injection E as <- <- <-. split; [exact HW2|]. exists sel. split; auto. apply GC_fail; [|apply (GC_sub _ _ _ (tr t1)); auto; intros x []]. right.
    exists c. assert (Hc : In c (cls d2)).
    { destruct (A10 c eq_refl) as (_ & B2 & _). rewrite A5. destruct (listed_usable d w (nv d) c HD (pi_W1 _ _ _ HP1) HWI B2) as (Y & _). exact Y. }
    split; auto. intros H HU _. apply (HH H HU). auto.
  - apply bind_ok in E. destruct E as ((d3 & t3) & K2 & K3). injection K3 as <- <- <-.
    assert (Hls : forall l, In l (skipn (length (tr t1)) (tr t2)) -> In l (tr t2)).
    { intros l Hl. rewrite <- (firstn_skipn (length (tr t1)) (tr t2)). apply in_or_app. auto. }
    destruct (tx_tr _ _ A2) as (nw & T1 & T2). cbn [with_qh tr] in T1.
    destruct (pmu_units_GC F (nv d) (skipn (length (tr t1)) (tr t2)) d2 t2 d3 t3 sel (tr t1) HD2) as (sel' & X1 & X2 & X3); auto.
    { intros l Hl. assert (X := ti_range _ HT2 _ (Hls l Hl)). rewrite (tx_nvt _ _ A2) in X. cbn [with_qh nvt] in X. rewrite HN1 in X. exact X. }
    { intros l Hl. assert (Hl2 := Hls l Hl). rewrite T1, skipn_app, skipn_all, Nat.sub_diag in Hl. cbn [skipn app] in Hl. specialize (T2 l Hl).
      destruct (reason t2 (lvar l)) as [c|] eqn:Er; [|congruence].
      apply In_nth_error in Hl2. destruct Hl2 as (i & Hi). destruct (pi_TRe _ _ _ A1 i l c Hi Er) as [R1 R2].
      destruct (A9 l c (nth_error_In _ _ Hi) Er) as [(N1 & _)|N].
      - destruct (g_u _ _ _ _ G2 l N1) as (x & (Y1 & _) & Y2). exists x. split; auto. intros H HU Hn m. rewrite Y2. intros [<-|[]]. apply Hn. cbn. auto.
      - exists c. split; [rewrite A5; destruct (listed_usable d w (nv d) c HD (pi_W1 _ _ _ HP1) HWI N) as (Y & _); exact Y|].
        intros H HUP Hn m M1. destruct (Nat.eq_dec m l) as [->|M2]; [apply Hn; cbn; auto|]. destruct (R2 m M1 M2) as (j & _ & Ej).
        apply (HH H HUP). exact (nth_error_In _ _ Ej). }
    split; [apply (WI_mono d2); auto|]. exists sel'. split; auto.
    assert (X4 : tr t3 = tr t1 ++ skipn (length (tr t1)) (tr t2)).
    { rewrite (pmu_units_tr _ _ _ _ _ HT2 D2 Hls K2). rewrite T1, skipn_app, skipn_all, Nat.sub_diag. reflexivity. }
    rewrite X4. destruct (empt d3); auto. apply (GC_sub _ _ _ _ _ (fun x (H : In x []) => match H with end) X1).
Qed.

(** ** The simplification loop *)
Section Simp.
Variables (F : formula) (P : assignment -> Prop) (C : cfg) (O : oracle).
Hypothesis HE : c_elim C = false.
Definition GE (d : db) (t : trail_t) (sel : cid -> bool) : Prop := GC F d sel (if empt d then [] else tr t).
Definition GS (d : db) (w : watches) (t : trail_t) (s : sdb) : Prop := WI d w /\ exists sel, GE d t sel /\ wsel s sel.

Lemma pmu_GS d w t s d' w' t' : Z P d w t -> empt d = true \/ True -> WI d w -> GW F d s (tr t) -> pmu d w t = Ok (d', w', t') -> GS d' w' t' s.
Proof.
  intros HZ _ HW (sel & G1 & G2) E. destruct (pmu_GC F P d w t d' w' t' sel HZ HW G1 E) as (A & sel' & B & D). split; auto.
  exists sel'. split; [exact B|]. intros i c Hc. apply D. exact (G2 i c Hc).
Qed.
Lemma GS_GW d w t s : empt d = false -> GS d w t s -> GW F d s (tr t).
Proof. intros He (_ & sel & A & B). exists sel. unfold GE in A. rewrite He in A. auto. Qed.
Lemma GW_cleanup d s T n : GW F d s T -> GW F d (cleanup_if n s) T.
Proof. unfold cleanup_if. destruct (0 <? n); auto. Qed.
Lemma GS_cleanup d w t s n : GS d w t s -> GS d w t (cleanup_if n s).
Proof. unfold cleanup_if. destruct (0 <? n); auto. Qed.
Lemma GW_fail_if d s T b : (b = false -> falsified d []) -> GW F d s T -> GW F (fail_if b d) s T.
Proof. intros H (sel & A & B). exists sel. split; auto. apply GC_fail_if; auto. Qed.
Lemma WI_fail_if d w b : WI d w -> WI (fail_if b d) w.
Proof. destruct b; auto. Qed.

Lemma simp_round_GS k d w t s e b d' w' t' s' e' : SS P d w t s e -> WI d w -> GW F d s (tr t) ->
  simp_round C O k d w t s e = Ok (b, d', w', t', s', e') -> GS d' w' t' s' /\ (b <> None -> empt d' = false).
Proof.
  intros H0 W0 G0 E. unfold simp_round in E.
  destruct (pmu_SS P C d w t s e H0) as (d1 & w1 & t1 & E1 & H1 & R1). rewrite E1 in E. cbn [bind] in E.
  assert (G1 := pmu_GS d w t s d1 w1 t1 (ss_Z _ _ _ _ _ _ H0) (or_intror I) W0 G0 E1).
  destruct (empt d1) eqn:M1; [injection E as <- <- <- <- <- <-; split; auto; congruence|].
  assert (G1' := GS_GW _ _ _ _ M1 G1).
  destruct (subsume_SS P C (o_ptr O k) d1 w1 t1 s e H1) as (b2 & d2 & s2 & n2 & E2 & H2 & R2). rewrite E2 in E. cbn [bind] in E.
  destruct (subsume_list_GW F (tr t1) (o_ptr O k) (nv d1) _ d1 s _ b2 d2 s2 n2 (ss_I _ _ _ _ _ _ H1) G1' E2) as (G2 & F2).
  assert (G2' := GW_fail_if _ _ _ _ F2 G2).
  assert (W2 : WI d2 w1).
  { destruct (subsume_list_spec (o_ptr O k) (nv d1) (seq 0 (length (subs s))) d1 s cnt0 (ss_I _ _ _ _ _ _ H1)) as (b' & d2' & s2' & n' & E2' & [_ A2 _ _ _ _ _ _] & _).
    unfold subsume_all in E2. rewrite E2 in E2'. injection E2' as <- <- <- <-. apply (WI_mono d1); [|apply G1]. intros x Hx. apply (ds_cls _ _ A2). auto. }
  destruct (pmu_SS P C (fail_if b2 d2) w1 t1 s2 e H2) as (d3 & w3 & t3 & E3 & H3 & R3). rewrite E3 in E. cbn [bind] in E.
  assert (G3 := pmu_GS _ _ _ s2 _ _ _ (ss_Z _ _ _ _ _ _ H2) (or_intror I) (WI_fail_if _ _ b2 W2) G2' E3).
  apply (GS_cleanup _ _ _ _ (sub_nTouched n2)) in G3.
  destruct (SS_cleanup P C _ _ _ _ _ (sub_nTouched n2) H3) as (H4 & R4).
  destruct (empt d3) eqn:M3; [injection E as <- <- <- <- <- <-; split; auto; congruence|].
  assert (G3' := GS_GW _ _ _ _ M3 G3).
  destruct (asymm_SS P C _ _ _ _ _ H4 M3) as (b5 & n5 & d5 & w5 & t5 & s5 & E5 & H5 & R5). rewrite E5 in E. cbn [bind] in E.
  assert (G5 : GW F d5 s5 (tr t5) /\ WI d5 w5 /\ (b5 = false -> falsified d5 [])).
  { destruct H4 as [Z4 I4 _]. assert (I4' : SI (nvt t3) d3 (cleanup_if (sub_nTouched n2) s2)) by (rewrite (z_n _ _ _ _ Z4); auto).
    destruct (asymm_reduce_spec (c_asymm C) d3 w3 t3 _ I4' (z_P _ _ _ _ Z4) (z_lim _ _ _ _ Z4)) as (b' & k' & d5' & w5' & t5' & s5' & E5' & A & _).
    rewrite E5 in E5'. injection E5' as <- <- <- <- <- <-. rewrite (ap_tr _ _ _ _ _ _ _ _ _ A).
    unfold asymm_reduce in E5. destruct (c_asymm C); [|injection E5 as <- <- <- <- <- <-; split; auto; split; [apply G3|discriminate]].
    apply (asymm_vars_GW F (nvt t3) (seq 0 (nvt t3)) 0 d3 w3 t3 _ b5 n5 d5 w5 t5 s5 I4'); auto; try apply Z4. apply G3. }
  destruct G5 as (G5 & W5 & F5). assert (G5' := GW_fail_if _ _ _ _ F5 G5).
  destruct (pmu_SS P C _ _ _ _ _ H5) as (d6 & w6 & t6 & E6 & H6 & R6). rewrite E6 in E. cbn [bind] in E.
  assert (G6 := pmu_GS _ _ _ s5 _ _ _ (ss_Z _ _ _ _ _ _ H5) (or_intror I) (WI_fail_if _ _ b5 W5) G5' E6).
  apply (GS_cleanup _ _ _ _ n5) in G6.
  destruct (empt d6) eqn:M6; [injection E as <- <- <- <- <- <-; split; auto; congruence|].
  rewrite HE in E. cbn [eliminate bind] in E. cbn in E. injection E as <- <- <- <- <- <-. split; auto.
Qed.
Lemma simp_loop_GS fuel : forall k num max d w t s e k' d' w' t' e', SS P d w t s e -> WI d w -> GW F d s (tr t) ->
  simp_loop C O fuel k num max d w t s e = Ok (k', d', w', t', e') -> WI d' w' /\ exists sel, GE d' t' sel.
Proof.
  induction fuel as [|f IH]; intros k num max d w t s e k' d' w' t' e' H0 W0 G0 E; cbn [simp_loop] in E; [discriminate|].
  destruct ((max <? 10 * num) && negb (o_term O k)).
  2:{ injection E as <- <- <- <- <-. split; auto. destruct G0 as (sel & G & _). exists sel. unfold GE. destruct (empt d); auto. apply (GC_sub _ _ _ (tr t)); auto. intros x []. }
  apply bind_ok in E. destruct E as ((((((b & d1) & w1) & t1) & s1) & e1) & E1 & E).
  assert (HS := simp_round_SS P C O k d w t s e H0). rewrite E1 in HS. cbn [safe] in HS. destruct HS as (H1 & _).
  destruct (simp_round_GS k d w t s e b d1 w1 t1 s1 e1 H0 W0 G0 E1) as (G1 & M1). destruct b as [n|].
  - apply (IH (S k) n (Nat.max n max) d1 w1 t1 s1 e1 k' d' w' t' e'); auto; [apply G1|]. apply (GS_GW _ _ _ _ (M1 ltac:(discriminate)) G1).
  - injection E as <- <- <- <- <-. destruct G1 as (G1 & sel & G2 & _). split; auto. exists sel. auto.
Qed.
Lemma process_GC fuel s s' sel : Z P (sv_d s) (sv_w s) (sv_t s) -> VEok P (nv (sv_d s)) (sv_e s) -> WI (sv_d s) (sv_w s) ->
  GC F (sv_d s) sel (tr (sv_t s)) -> (forall c, In c (cls (sv_d s)) -> sel c = true) -> processClauseDatabase C O fuel s = Ok s' ->
  exists sel', GE (sv_d s') (sv_t s') sel'.
Proof.
  intros HZ HV HW HG Hs E. unfold processClauseDatabase in E. apply bind_ok in E. destruct E as (((((k & d) & w) & t) & e) & E1 & E). injection E as <-. cbn [sv_d sv_t].
  destruct (empt (sv_d s)) eqn:Em.
  - destruct fuel as [|f]; cbn [simp_loop] in E1; [discriminate|]. destruct ((0 <? 10 * 1) && negb (o_term O (sv_clk s))).
    2:{ injection E1 as <- <- <- <- <-. exists sel. unfold GE. rewrite Em. apply (GC_sub _ _ _ (tr (sv_t s))); auto. intros x []. }
    unfold simp_round in E1. destruct (pmu_spec P False _ _ _ HZ) as (d' & w' & t' & E & [_ _ A3 _ _ _ _ _]). rewrite E in E1. cbn [bind] in E1.
    rewrite (A3 Em) in E1. cbn [bind] in E1. injection E1 as <- <- <- <- <-.
    destruct (pmu_GC F P _ _ _ _ _ _ sel HZ HW HG E) as (_ & sel' & B & _). exists sel'. exact B.
  - assert (HC := z_C _ _ _ _ HZ). destruct (sdb_init_spec (nv (sv_d s)) (sv_d s) (ci_D _ _ HC) (ci_L _ _ HC) (ci_N _ _ HC Em)) as (S1 & S2 & S3 & S4).
    apply (simp_loop_GS fuel (sv_clk s) 1 0 (sv_d s) (sv_w s) (sv_t s) (sdb_init (sv_d s)) (sv_e s) k d w t e); auto; [constructor; auto|].
    exists sel. split; auto. intros i c Hi. apply Hs. apply (s_cls _ _ _ S1 i c Hi).
Qed.
End Simp.

(** ** From the general statement back to the whole database *)
Definition DK (F : formula) (d : db) : Prop := DV F d alls /\ KD d.
Lemma DK_GC F d : DK F d -> GC F d alls [].
Proof.
  intros ((Q & HQ) & HK). constructor; auto; [|intros l []]. exists Q. split; auto. exact (DVQ_covered F d Q HQ).
Qed.
Lemma KD_reorganize n d : DI n d -> KD (reorganize d).
Proof.
  intros HD c Hc _. apply reorganize_cls in Hc. apply Hc.
Qed.
Lemma DK_reorganize F n d sel T : DI n d -> GC F d sel T -> DK F (reorganize d) /\ (forall l, In l T -> exists c, In c (cls (reorganize d)) /\ clits (reorganize d) c = [l]).
Proof.
  intros HD [(Q & HQ & HC) HL HS HU]. split.
  - split; [|apply (KD_reorganize n); auto]. apply (DV_reorganize F n d sel HD); [|exists Q; auto]. intros c C1 C2. apply HL. split; auto.
  - intros l Hl. destruct (HU l Hl) as (c & (C1 & C2) & C3). exists c. split; [|exact C3]. apply reorganize_cls. split; auto. exact (di_cls _ _ HD c C1).
Qed.
Lemma DK_reduce F n persist median cand d sel T : DI n d -> GC F d sel T -> DK F (reorganize (snd (reduce persist median cand d))).
Proof.
  intros HD [(Q & HQ & HC) HL HS HU]. cbn [reduce snd]. set (vs := red_victims persist median cand d).
  assert (HV : forall x, In x vs -> In x (cls d) /\ sel x = true /\ clits d x <> []).
  { intros x Hx. apply victims_incl in Hx. apply filter_In in Hx. destruct Hx as (X1 & X2). split; auto. split.
    - apply HL. split; auto. unfold reducible in X2. destruct (isDeleted d x); auto. rewrite andb_false_r in X2. discriminate.
    - intros E. unfold reducible in X2. destruct (di_small _ _ HD x (di_cls _ _ HD x X1)) as [H|H]; [rewrite E; cbn; lia| |].
      + rewrite H in X2. destruct persist; discriminate.
      + unfold isDeleted in X2. rewrite H in X2. cbn in X2. rewrite andb_false_r in X2. discriminate. }
  split; [|apply (KD_reorganize n); apply fold_remove_DI; auto].
  apply (DV_reorganize F n _ (fun y => sel y && negb (if in_dec Nat.eq_dec y vs then true else false))).
  - apply fold_remove_DI. auto.
  - intros c Hc Hd. assert (Hc' : In c (cls d)) by (rewrite (proj2 (proj2 (fold_remove vs d))) in Hc; exact Hc).
    destruct (in_dec Nat.eq_dec c vs) as [Hi|Hi].
    + exfalso. rewrite fold_remove_deleted in Hd; auto; [discriminate|]. exact (cls_lt _ _ _ HD (proj1 (HV c Hi))).
    + rewrite HL; auto. split; auto. destruct (isDeleted d c) eqn:Ed; auto.
      exfalso. enough (H : isDeleted (fold_left (fun d c => removeClause c d) vs d) c = true) by congruence. clear - Ed Hi HD HV.
      assert (HF : forall cs d0, (forall c, In c cs -> c < length (arena d0)) -> forall c, ~ In c cs -> cwt (fold_left (fun d c => removeClause c d) cs d0) c = cwt d0 c).
      { clear. induction cs as [|x cs IH]; intros d0 Hlt c Hc; cbn [fold_left]; auto. cbn [In] in Hc.
        rewrite IH; [|intros y Hy; rewrite arena_len_remove; apply Hlt; cbn; auto|tauto].
        rewrite cwt_remove by (apply Hlt; cbn; auto). destruct (Nat.eqb_spec c x); [subst; tauto|auto]. }
      unfold isDeleted in *. rewrite HF; auto. intros x Hx. exact (cls_lt _ _ _ HD (proj1 (HV x Hx))).
  - apply (DV_fold_remove F n); auto; [|exists Q; auto]. apply victims_NoDup. apply (di_clsnd _ _ HD).
Qed.
