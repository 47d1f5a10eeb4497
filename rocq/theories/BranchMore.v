Require Import List Arith Bool NArith ZArith QArith Lia.
Require Import Verif.Base Verif.CNFModel Verif.CNFProofs Verif.Outcome Verif.TrailModel Verif.TrailSpec Verif.TrailProofs Verif.TrailLemmas.
Require Import Verif.HeapModel Verif.HeapProofs Verif.BranchModel Verif.BranchSpec Verif.BranchProofs.
Require Verif.SolverModel.
Import ListNotations.
Open Scope nat_scope.

Section LRB.
Variable A : arith.

Definition LI (ph : phase) (t : trail_t) (b : lrb A) : Prop :=
  BI ph t (lr_heap A b) (length (lr_w A b)) /\ length (lr_pol A b) = length (lr_w A b) /\
  length (lr_w A b) <= length (lr_ia A b) /\ length (lr_w A b) <= length (lr_pa A b).

Lemma lr_count_spec ls : forall st pa, (forall l, In l ls -> lvar l < length pa) ->
  exists pa', lr_count ls st pa = Ok pa' /\ length pa' = length pa.
Proof.
  induction ls as [|l r IH]; intros st pa H; cbn [lr_count]; [eauto|].
  destruct (st (lvar l)); [apply IH; intros; apply H; right; auto|].
  rewrite upd_some by (apply H; left; auto). cbn [oget bind].
  edestruct IH as (pa' & E & L); [|rewrite E; exists pa'; split; [reflexivity|rewrite L; apply set_nth_length]].
  intros m Hm. rewrite set_nth_length. apply H. right; auto.
Qed.

Lemma lr_assigned_spec ls : forall ia, (forall l, In l ls -> lvar l < length ia) ->
  exists ia', lr_assigned ls ia = Ok ia' /\ length ia' = length ia.
Proof.
  induction ls as [|l r IH]; intros ia H; cbn [lr_assigned]; [eauto|].
  rewrite upd_some by (apply H; left; auto). cbn [oget bind].
  edestruct IH as (pa' & E & L); [|rewrite E; exists pa'; split; [reflexivity|rewrite L; apply set_nth_length]].
  intros m Hm. rewrite set_nth_length. apply H. right; auto.
Qed.

Lemma lr_refill_spec t ls : forall b, WF (lr_heap A b) -> length (lr_pol A b) = length (lr_w A b) ->
  length (lr_w A b) <= length (lr_ia A b) -> length (lr_w A b) <= length (lr_pa A b) ->
  length (lr_w A b) <= length (idx (lr_heap A b)) ->
  (forall l, In l ls -> lvar l < length (lr_w A b)) ->
  exists b', lr_refill A t ls b = Ok b' /\ WF (lr_heap A b') /\
    length (idx (lr_heap A b')) = length (idx (lr_heap A b)) /\
    (forall y, In y (hp (lr_heap A b')) <-> In y (hp (lr_heap A b)) \/ (In y (map lvar ls) /\ isDecisionVar y t = true)) /\
    length (lr_w A b') = length (lr_w A b) /\ length (lr_pol A b') = length (lr_pol A b) /\
    length (lr_ia A b') = length (lr_ia A b) /\ length (lr_pa A b') = length (lr_pa A b).
Proof.
  induction ls as [|l r IH]; intros b W LP LA LQ LI' Hr; cbn [lr_refill].
  - exists b. split; [auto|]. split; [auto|]. split; [auto|]. split; [cbn; tauto|]. auto 10.
  - pose proof (Hr l (or_introl eq_refl)) as Hl.
    rewrite upd_some by (rewrite LP; auto). cbn [oget bind].
    set (p := set_nth (lvar l) (lsign l) (lr_pol A b)).
    assert (Lp : length p = length (lr_pol A b)) by apply set_nth_length.
    assert (Hstep : exists h, (if negb (inHeap (lr_heap A b) (lvar l)) && isDecisionVar (lvar l) t
              then oget (hinsert (order A (lr_w A b)) (lvar l) (lr_heap A b)) else Ok (lr_heap A b)) = Ok h /\
      WF h /\ length (idx h) = length (idx (lr_heap A b)) /\
      (forall y, In y (hp h) <-> In y (hp (lr_heap A b)) \/ (y = lvar l /\ isDecisionVar y t = true))).
    { destruct (inHeap (lr_heap A b) (lvar l)) eqn:EI; cbn [negb andb].
      - apply inHeap_spec in EI; auto. eexists. split; [reflexivity|]. split; [auto|]. split; [auto|].
        intros y. split; [auto|]. intros [?|[-> _]]; auto.
      - assert (NI : ~ In (lvar l) (hp (lr_heap A b))).
        { intros H. apply not_true_iff_false in EI. apply EI. apply inHeap_spec; auto. }
        destruct (isDecisionVar (lvar l) t) eqn:ED.
        + destruct (hinsert_spec (order A (lr_w A b)) (lvar l) (lr_heap A b) W) as (h & E & Wh & Lh & Ih & Oh); auto.
          { lia. }
          rewrite E. exists h. split; [reflexivity|]. split; [auto|]. split; [auto|].
          intros y. rewrite Ih. split; [intros [->|?]; auto|]. intros [?|[-> _]]; auto.
        + eexists. split; [reflexivity|]. split; [auto|]. split; [auto|].
          intros y. split; [auto|]. intros [?|[-> ?]]; auto. congruence. }
    destruct Hstep as (h & -> & Wh & Lh & Ih). cbn [bind].
    assert (Hrest : forall w ia pa, length w = length (lr_w A b) -> length ia = length (lr_ia A b) -> length pa = length (lr_pa A b) ->
      exists b', lr_refill A t r (mkLRB A h w p ia pa (lr_step A b)) = Ok b' /\ WF (lr_heap A b') /\
        length (idx (lr_heap A b')) = length (idx (lr_heap A b)) /\
        (forall y, In y (hp (lr_heap A b')) <-> In y (hp (lr_heap A b)) \/ (In y (map lvar (l :: r)) /\ isDecisionVar y t = true)) /\
        length (lr_w A b') = length (lr_w A b) /\ length (lr_pol A b') = length (lr_pol A b) /\
        length (lr_ia A b') = length (lr_ia A b) /\ length (lr_pa A b') = length (lr_pa A b)).
    { intros w ia pa Lw Lia Lpa.
      destruct (IH (mkLRB A h w p ia pa (lr_step A b))) as (b' & E & W' & L' & I' & A' & P' & N' & D');
        cbn [lr_heap lr_w lr_pol lr_ia lr_pa] in *; auto; try lia.
      { intros m Hm. rewrite Lw. apply Hr. right; auto. }
      exists b'. split; [auto|]. split; [auto|]. split; [congruence|]. split.
      { intros y. rewrite I', Ih. cbn [map In]. split; [intros [[?|[-> ?]]|[? ?]]; auto|].
        intros [?|[[<-|?] ?]]; auto. }
      split; [congruence|]. split; [congruence|]. split; congruence. }
    destruct (nth_error (lr_ia A b) (lvar l)) as [i|] eqn:Ei; [|apply nth_error_None in Ei; lia].
    cbn [oget bind]. destruct (0 <? i)%N.
    + destruct (nth_error (lr_pa A b) (lvar l)) as [q|] eqn:Eq; [|apply nth_error_None in Eq; lia].
      cbn [oget bind]. rewrite upd_some by auto. cbn [oget bind]. apply Hrest; apply set_nth_length.
    + apply Hrest; auto.
Qed.

Lemma lr_conflict_spec ph t involved bl b : LI ph t b -> ph <> Stale ->
  bl < dlevel t -> (forall c l, In c involved -> In l c -> lvar l < nvt t) ->
  exists b', lr_conflict A involved bl t b = Ok b' /\ LI Search (backtrack bl t) b'.
Proof.
  intros (HB & LP & LA & LQ) Hp Hbl Hinv. pose proof HB as (H1 & H2 & H3 & H4 & H5 & H6 & H7 & H8). specialize (H6 Hp).
  unfold lr_conflict.
  destruct (lr_count_spec (concat involved) vempty (lr_pa A b)) as (pa & -> & Lpa).
  { intros l Hl. apply in_concat in Hl. destruct Hl as (c & Hc & Hl). specialize (Hinv c l Hc Hl). lia. }
  cbn [bind]. rewrite (trail_from_some 0 t) by lia. cbn [bind].
  destruct (lr_assigned_spec (skipn (nth 0 (lim t) 0) (tr t)) (lr_ia A b)) as (ia & -> & Lia).
  { intros l Hl. apply in_skipn in Hl. apply (ti_range t H1) in Hl. lia. }
  cbn [bind]. rewrite (trail_from_some bl t Hbl). cbn [bind].
  set (ls := skipn _ (tr t)). set (b2 := mkLRB A _ _ _ _ _ _).
  destruct (lr_refill_spec t ls b2) as (b' & E & W' & L' & I' & A' & P' & N' & D'); cbn [b2 lr_heap lr_w lr_pol lr_ia lr_pa] in *; auto; try lia.
  { intros l Hl. apply in_skipn in Hl. apply (ti_range t H1) in Hl. lia. }
  rewrite E. exists b'. split; [auto|]. split.
  { rewrite A'. apply (BI_backtrack ph t (lr_heap A b) (length (lr_w A b)) bl); auto. }
  lia.
Qed.

Lemma lr_init_spec ph t occ b : LI ph t b -> exists b', lr_init A occ t b = Ok b' /\ LI Full t b'.
Proof.
  intros (HB & LP & LA & LQ). unfold lr_init.
  set (b1 := if length (lr_w A b) <? nvt t then _ else b).
  assert (B1 : LI Stale t b1 /\ nvt t <= length (lr_w A b1)).
  { unfold b1. destruct (Nat.ltb_spec (length (lr_w A b)) (nvt t)) as [Hl|Hl].
    - unfold LI; cbn [lr_heap lr_w lr_pol lr_ia lr_pa].
      assert (RL : forall B (x : B) l, nvt t <= length (resize (nvt t) x l)).
      { intros B x l. unfold resize. rewrite app_length, firstn_length, repeat_length. lia. }
      rewrite (resize_length (nvt t) (f_zero A)) by lia. rewrite (resize_length (nvt t) true) by lia.
      split; [|auto]. split; [|auto]. pose proof (BI_grow _ _ _ _ HB) as HG. rewrite Nat.max_r in HG by lia. auto.
    - split; [|auto]. split; [apply (BI_stale _ _ _ _ HB)|]. auto. }
  clearbody b1. destruct B1 as ((B1 & LP1 & LA1 & LQ1) & Hn).
  set (b2 := match occ with None => b1 | Some o => _ end).
  assert (B2 : lr_heap A b2 = lr_heap A b1 /\ length (lr_w A b2) = length (lr_w A b1) /\
    length (lr_pol A b2) = length (lr_w A b1) /\ lr_ia A b2 = lr_ia A b1 /\ lr_pa A b2 = lr_pa A b1).
  { unfold b2. destruct occ; cbn [lr_heap lr_w lr_pol lr_ia lr_pa]; auto.
    rewrite !app_length, !map_length, !skipn_length, !seq_length. rewrite LP1.
    split; [auto|]. split; [lia|]. split; [lia|]. auto. }
  clearbody b2. destruct B2 as (Eh & La & Lp & EI2 & ED2). unfold lr_reset.
  destruct (BI_reset Stale t (lr_heap A b2) (length (lr_w A b2)) (order A (lr_w A b2))) as (h' & E & HB' & HO'); try lia.
  { rewrite Eh, La. auto. }
  rewrite E. cbn [oget bind]. eexists. split; [reflexivity|]. unfold LI. cbn [lr_heap lr_w lr_pol lr_ia lr_pa].
  split; [auto|]. rewrite La, EI2, ED2. auto.
Qed.

Lemma lr_pick_spec ph t b : LI ph t b -> ph <> Stale ->
  exists r b', lr_pick A t b = Ok (r, b') /\ good_pick t r /\
    match r with
    | None => LI Search t b'
    | Some p => nth_error (lr_pol A b) (lvar p) = Some (lsign p) /\
        (forall t', decide p (newDecisionLevel t) = Ok t' -> LI Search t' b')
    end.
Proof.
  intros (HB & LP & LA & LQ) Hp. unfold lr_pick.
  destruct (pick_BI ph t (lr_heap A b) (length (lr_w A b)) (order A (lr_w A b)) HB Hp) as (r & h' & -> & R & O).
  cbn [bind]. destruct r as [x|].
  - destruct R as (R1 & R2 & R3 & R4).
    destruct (nth_error (lr_pol A b) x) as [s|] eqn:ES; [|apply nth_error_None in ES; lia].
    cbn [oget bind]. eexists; eexists. split; [reflexivity|].
    destruct R2 as (F1 & F2 & F3). split.
    { cbn [good_pick]. rewrite lvar_mk. split; [auto|]. split; [|auto]. apply value_var. rewrite lvar_mk. auto. }
    rewrite lvar_mk, lsign_mk. split; [auto|].
    intros t' HD. unfold LI. cbn [lr_heap lr_w lr_pol lr_ia lr_pa]. split; [apply (R3 s t' HD)|auto].
  - destruct R as (R1 & R2). eexists; eexists. split; [reflexivity|].
    split. { cbn [good_pick]. intros v Hv Hd E. apply (R2 v). split; auto. }
    unfold LI. cbn [lr_heap lr_w lr_pol lr_ia lr_pa]. auto.
Qed.

Lemma lr_clear_spec ph t b : LI ph t b -> exists b', lr_clear A b = Ok b' /\ LI Stale trail_new b'.
Proof.
  intros (HB & LP & LA & LQ). destruct (BI_clear _ _ _ _ HB) as (h' & Eh & HB'). unfold lr_clear. rewrite Eh. cbn.
  eexists. split; [reflexivity|]. unfold LI. cbn. split; [auto|]. split; [auto|]. split; lia.
Qed.

Lemma lr_reset_spec ph t b : LI ph t b -> nvt t <= length (lr_w A b) -> exists b', lr_reset A t b = Ok b' /\ LI Full t b'.
Proof.
  intros (HB & LP & LA & LQ) Hn. unfold lr_reset.
  destruct (BI_reset ph t (lr_heap A b) (length (lr_w A b)) (order A (lr_w A b)) HB Hn) as (h' & Eh & HB' & _).
  rewrite Eh. cbn. eexists. split; [reflexivity|]. unfold LI. cbn. auto.
Qed.

Lemma lr_reach_inv ph t b : lr_reach A ph t b -> LI ph t b.
Proof.
  induction 1 as [s|ph t b b' H IH E|ph t b o t' H IH HL HE|ph t b ls H IH|ph t b v x H IH|ph t b occ b' H IH E|
    ph t b b' H IH Hn E|ph t b p b' t' H IH Hp E HD|ph t b b' H IH Hp E|
    ph t b involved bl b' H IH Hp Hbl Hinv E].
  - split; [apply BI_new|]. cbn. auto.
  - destruct (lr_clear_spec _ _ _ IH) as (b2 & E2 & R). rewrite E in E2. inversion E2; subst. auto.
  - destruct IH as (HB & R). split; auto. eapply BI_trail; eauto.
  - destruct IH as (HB & R). split; auto. apply BI_assume; auto.
  - destruct IH as (HB & R). split; auto. apply BI_flag; auto.
  - destruct (lr_init_spec _ _ occ _ IH) as (b2 & E2 & R). rewrite E in E2. inversion E2; subst. auto.
  - destruct (lr_reset_spec _ _ _ IH Hn) as (b2 & E2 & R). rewrite E in E2. inversion E2; subst. auto.
  - destruct (lr_pick_spec ph t b IH Hp) as (r & b2 & E2 & _ & R). rewrite E in E2. inversion E2; subst. apply R; auto.
  - destruct (lr_pick_spec ph t b IH Hp) as (r & b2 & E2 & _ & R). rewrite E in E2. inversion E2; subst. auto.
  - destruct (lr_conflict_spec _ _ _ _ _ IH Hp Hbl Hinv) as (b2 & E2 & R). rewrite E in E2. inversion E2; subst. auto.
Qed.

Lemma lr_pick_good ph t b : lr_reach A ph t b -> ph <> Stale ->
  exists r b', lr_pick A t b = Ok (r, b') /\ good_pick t r /\
    forall p, r = Some p -> nth_error (lr_pol A b) (lvar p) = Some (lsign p).
Proof.
  intros H Hp. destruct (lr_pick_spec ph t b (lr_reach_inv _ _ _ H) Hp) as (r & b' & E & G & R).
  exists r, b'. split; [auto|]. split; [auto|]. intros p ->. apply R.
Qed.

Lemma lr_defined ph t b : lr_reach A ph t b ->
  (exists b', lr_clear A b = Ok b') /\ (forall occ, exists b', lr_init A occ t b = Ok b') /\
  (nvt t <= length (lr_w A b) -> exists b', lr_reset A t b = Ok b') /\
  (ph <> Stale -> nvt t <= length (lr_w A b)) /\
  (ph <> Stale -> forall involved bl, bl < dlevel t ->
     (forall c l, In c involved -> In l c -> lvar l < nvt t) ->
     exists b', lr_conflict A involved bl t b = Ok b').
Proof.
  intros H. apply lr_reach_inv in H. split; [|split; [|split; [|split]]].
  - destruct (lr_clear_spec _ _ _ H) as (b2 & E2 & _). eauto.
  - intros occ. destruct (lr_init_spec _ _ occ _ H) as (b2 & E2 & _). eauto.
  - intros Hn. destruct (lr_reset_spec _ _ _ H Hn) as (b2 & E2 & _). eauto.
  - apply H.
  - intros Hp involved bl Hbl Hinv. destruct (lr_conflict_spec _ _ _ _ _ H Hp Hbl Hinv) as (b2 & E2 & _). eauto.
Qed.
End LRB.

(** ** The solver's choice is one of those considered by the solver model *)
Lemma good_pick_pick t r : good_pick t r -> exists l, SolverModel.pick l t = r.
Proof.
  assert (HC : forall v, In v (SolverModel.candidates t) <-> v < nvt t /\ isDecisionVar v t = true /\ vvalue t v = None).
  { intros v. unfold SolverModel.candidates. rewrite filter_In, in_seq, andb_true_iff.
    split; [intros (H1 & H2 & H3)|intros (H1 & H2 & H3)]; [|split; [lia|split; auto]].
    - split; [lia|]. split; auto. destruct (vvalue t v); [discriminate|auto].
    - rewrite H3. reflexivity. }
  destruct r as [p|]; cbn [good_pick].
  - intros (H1 & H2 & H3). exists p. unfold SolverModel.pick.
    assert (E : existsb (Nat.eqb (lvar p)) (SolverModel.candidates t) = true).
    { apply existsb_exists. exists (lvar p). split; [|apply Nat.eqb_refl]. apply HC. split; [auto|]. split; [auto|].
      apply value_var; auto. }
    rewrite E. reflexivity.
  - intros H. assert (E : SolverModel.candidates t = []).
    { destruct (SolverModel.candidates t) as [|v r] eqn:E; auto. exfalso.
      destruct (proj1 (HC v)) as (H1 & H2 & H3); [left; auto|]. apply (H v); auto. }
    exists 0. unfold SolverModel.pick. rewrite E. reflexivity.
Qed.
