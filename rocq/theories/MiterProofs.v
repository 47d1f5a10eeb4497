(** Proofs of C56. *)
Require Import List Arith Bool Lia Permutation.
Require Import Verif.Base Verif.Outcome Verif.CNFModel Verif.GateModel Verif.GateSpec Verif.GateProofs Verif.DfsProofs Verif.GateMore Verif.HeurModel Verif.HeurProofs Verif.HeurRun Verif.MiterModel Verif.MiterSpec.
Import ListNotations.
Open Scope nat_scope.

(** ** events *)
Lemma push_inputs_events prune gs visited : forall ins work seen w s es, push_inputs prune gs visited ins work seen = (w, s, es) ->
  (forall e, In e es -> exists v, e = EInput v) /\ (forall v, In (v, true) w -> In (v, true) work).
Proof.
  induction ins as [|i r IH]; intros work seen w s es E; cbn [push_inputs] in E.
  - injection E as <- <- <-. split; [intros e []|auto].
  - destruct (defined gs (lvar i) && negb (existsb (Nat.eqb (lvar i)) visited) && negb (prune (lvar i))).
    + destruct (IH _ _ _ _ _ E) as (A & B). split; auto. intros v Hv. apply B in Hv. destruct Hv as [K|K]; auto. discriminate.
    + destruct (negb (defined gs (lvar i)) && negb (existsb (Nat.eqb (lvar i)) seen)); [|apply (IH _ _ _ _ _ E)].
      destruct (push_inputs prune gs visited r work (lvar i :: seen)) as ((w1, s1), es1) eqn:E1. injection E as <- <- <-. destruct (IH _ _ _ _ _ E1) as (A & B). split; auto.
      intros e [<-|K]; eauto.
Qed.
Lemma loop_marks prune gs : forall fuel work visited seen es, dfs_loop fuel prune gs work visited seen = Ok es ->
  forall a v b, es = a ++ EBacktrack v :: b -> In (v, true) work \/ In (ECollect v) a.
Proof.
  induction fuel as [|fuel IH]; intros work visited seen es E a v b ES.
  - destruct work as [|(u, bk) r]; cbn [dfs_loop] in E; [|discriminate]. injection E as <-. destruct a; discriminate.
  - destruct work as [|(u, bk) r]; cbn [dfs_loop] in E; [injection E as <-; destruct a; discriminate|]. destruct bk.
    + apply bind_ok in E. destruct E as (es1 & E1 & E). injection E as <-. destruct a as [|x a]; cbn [app] in ES.
      * injection ES as -> _. left. left. auto.
      * injection ES as <- ES. destruct (IH _ _ _ _ E1 a v b ES) as [K|K]; [left; right; auto|right; right; auto].
    + destruct (existsb (Nat.eqb u) visited).
      * destruct (IH _ _ _ _ E a v b ES) as [K|K]; auto. left. right. auto.
      * destruct (push_inputs prune gs (u :: visited) (g_inp (nth u gs gate_none)) ((u, true) :: r) seen) as ((w, s), es0) eqn:EP.
        apply bind_ok in E. destruct E as (es1 & E1 & E). injection E as <-. destruct (push_inputs_events _ _ _ _ _ _ _ _ _ EP) as (PI & PM).
        destruct a as [|x a]; cbn [app] in ES; [discriminate|]. injection ES as <- ES.
        assert (K : exists a', a = es0 ++ a' /\ es1 = a' ++ EBacktrack v :: b).
        { clear -PI ES. revert a ES. induction es0 as [|e es0 IH]; intros a ES; [exists a; auto|]. destruct a as [|x a]; cbn [app] in ES.
          - injection ES as -> _. destruct (PI _ (or_introl eq_refl)) as (y & Ey). discriminate.
          - injection ES as <- ES. destruct (IH (fun e H => PI e (or_intror H)) a ES) as (a' & -> & K). exists a'. auto. }
        destruct K as (a' & -> & ES1). destruct (IH _ _ _ _ E1 a' v b ES1) as [K|K].
        -- apply PM in K. destruct K as [K|K]; [injection K as ->; right; left; auto|left; right; auto].
        -- right. right. apply in_or_app. auto.
Qed.
Lemma start_marks prune gs rl v : ~ In (v, true) (dfs_start prune gs rl).
Proof. unfold dfs_start. rewrite <- in_rev. intros H. apply in_map_iff in H. destruct H as (x & E & _). discriminate. Qed.

Lemma collected_in es v : In v (collected es) <-> In (ECollect v) es.
Proof. unfold collected. rewrite in_flat_map. split; [intros (e & H & K); destruct e; cbn in K; try contradiction; destruct K as [<-|[]]; auto|intros H; exists (ECollect v); cbn; auto]. Qed.
Lemma backtracked_in es v : In v (backtracked es) <-> In (EBacktrack v) es.
Proof. unfold backtracked. rewrite in_flat_map. split; [intros (e & H & K); destruct e; cbn in K; try contradiction; destruct K as [<-|[]]; auto|intros H; exists (EBacktrack v); cbn; auto]. Qed.
Lemma before_first {A} (x y : A) a b : NoDup (a ++ y :: b) -> before x y (a ++ y :: b) -> In x a.
Proof.
  intros ND (p & q & r & E). assert (K : a = p ++ x :: q).
  { assert (E2 : a ++ y :: b = (p ++ x :: q) ++ y :: r) by (rewrite E, <- app_assoc; auto). clear E. revert E2. generalize (p ++ x :: q). intros l E2.
    destruct (app_eq_app _ _ _ _ E2) as (m & [(H1 & H2)|(H1 & H2)]).
    - destruct m as [|z m]; [rewrite app_nil_r in H1; auto|]. cbn in H2. injection H2 as -> H2. exfalso. rewrite H1 in ND. rewrite <- app_assoc in ND. cbn [app] in ND.
      apply NoDup_remove_2 in ND. apply ND. apply in_or_app. right. apply in_or_app. right. left. auto.
    - destruct m as [|z m]; [rewrite app_nil_r in H1; auto|]. cbn in H2. injection H2 as -> H2. exfalso. apply NoDup_remove_2 in ND. apply ND. rewrite H2. apply in_or_app. right. apply in_or_app. right. left. auto. }
  rewrite K. apply in_or_app. right. left. auto.
Qed.

(** ** the border *)
Section Border.
Variables (gs : list gate) (rl : list lit).
Hypothesis out_ok : forall v o, g_out (nth v gs gate_none) = Some o -> lvar o = v.
Hypothesis AC : acyclic (not_mono gs) gs.
Notation reach := (reachable (not_mono gs) gs rl).

Lemma mono_iff v : monotonous gs v <-> defined gs v = true /\ not_mono gs v = false.
Proof. unfold monotonous, not_mono. tauto. Qed.
Lemma region_iff v : region gs rl v <-> reach v.
Proof.
  split.
  - induction 1 as [l H K|v i H IH HI K]; apply mono_iff in K; destruct K as (K1 & K2); [apply r_root; auto|]. apply (r_child _ _ _ v); auto. unfold child. eauto 6.
  - induction 1 as [l H1 H2 H3|u v H IH (C1 & C2 & i & C3 & <-)]; [apply rg_root; auto; apply mono_iff; auto|]. apply (rg_input _ _ u); auto. apply mono_iff. auto.
Qed.
Lemma reach_mono v : reach v -> defined gs v = true /\ not_mono gs v = false.
Proof. induction 1 as [l H1 H2 H3|u v H IH (C1 & C2 & _)]; auto. Qed.

Lemma border_run_ok : forall es seen bd, (forall v, In (ECollect v) es -> defined gs v = true) -> exists bd', border_run gs es seen bd = Ok bd' /\
  forall v, In v bd' <-> In v bd \/ exists a b, es = a ++ EBacktrack v :: b /\ exists i, In i (inputs_of gs v) /\ ~ In (lvar i) (collected a) /\ ~ In (lvar i) seen.
Proof.
  induction es as [|e es IH]; intros seen bd HD; cbn [border_run].
  - exists bd. split; auto. intros v. split; auto. intros [H|([|] & b & E & _)]; auto; discriminate.
  - destruct e as [v|v|v].
    + rewrite (out_var_ok gs out_ok v) by (apply HD; left; auto). cbn [bind]. destruct (IH (uput v seen) bd) as (bd' & E & K); [intros w Hw; apply HD; right; auto|]. exists bd'. split; auto.
      intros w. rewrite K. split; (intros [H|(a & b & E1 & i & H1 & H2 & H3)]; [auto|right]).
      * exists (ECollect v :: a), b. split; [rewrite E1; auto|]. exists i. split; auto. rewrite uput_in in H3. cbn [collected flat_map app]. fold (collected a). cbn [In]. split; [intros [Hq|Hq]; [apply H3; auto|tauto]|tauto].
      * destruct a as [|x a]; [discriminate|]. injection E1 as <- E1. exists a, b. split; auto. exists i. split; auto. cbn [collected flat_map app] in H2. fold (collected a) in H2. cbn [In] in H2. rewrite uput_in.
        split; [tauto|]. intros [Hq|Hq]; [apply H2; left; auto|tauto].
    + set (isb := existsb (fun i => negb (existsb (Nat.eqb (lvar i)) seen)) (g_inp (nth v gs gate_none))). destruct (IH seen (if isb then uput v bd else bd)) as (bd' & E & K); [intros w Hw; apply HD; right; auto|].
      assert (IB : isb = true <-> exists i, In i (inputs_of gs v) /\ ~ In (lvar i) seen).
      { unfold isb. rewrite existsb_exists. split; intros (i & H1 & H2); exists i; split; auto.
        - intros Hq. apply mem_nat in Hq. rewrite Hq in H2. discriminate.
        - destruct (existsb (Nat.eqb (lvar i)) seen) eqn:Q; auto. apply mem_nat in Q. tauto. }
      exists bd'. split; auto. intros w. rewrite K. split.
      * intros [H|(a & b & E1 & i & H1 & H2 & H3)].
        -- destruct isb; auto. apply uput_in in H. destruct H as [->|H]; auto. right. exists [], es. split; auto. destruct (proj1 IB eq_refl) as (i & H1 & H2). exists i. cbn. auto.
        -- right. exists (EBacktrack v :: a), b. split; [rewrite E1; auto|]. exists i. auto.
      * intros [H|(a & b & E1 & i & H1 & H2 & H3)]; [left; destruct isb; auto; apply uput_in; auto|].
        destruct a as [|x a].
        -- injection E1 as -> _. left. assert (T : isb = true) by (apply IB; exists i; auto). rewrite T. apply uput_in. auto.
        -- injection E1 as <- E1. right. exists a, b. split; auto. exists i. auto.
    + destruct (IH seen bd) as (bd' & E & K); [intros w Hw; apply HD; right; auto|]. exists bd'. split; auto.
      intros w. rewrite K. split; (intros [H|(a & b & E1 & i & H1 & H2 & H3)]; [auto|right]).
      * exists (EInput v :: a), b. split; [rewrite E1; auto|]. exists i. auto.
      * destruct a as [|x a]; [discriminate|]. injection E1 as <- E1. exists a, b. split; auto. exists i. auto.
Qed.
Lemma border_run_nd : forall es seen bd bd', border_run gs es seen bd = Ok bd' -> NoDup bd -> NoDup bd'.
Proof.
  induction es as [|e es IH]; intros seen bd bd' E H; cbn [border_run] in E; [injection E as <-; auto|]. destruct e as [v|v|v].
  - apply bind_ok in E. destruct E as (o & _ & E). apply (IH _ _ _ E H).
  - apply (IH _ _ _ E). destruct (existsb _ _); auto. apply uput_nodup. auto.
  - apply (IH _ _ _ E H).
Qed.
Lemma border_ok : exists es bd, traverseDFS (not_mono gs) gs rl = Ok es /\ border_run gs es [] [] = Ok bd /\ NoDup bd /\ (forall v, In v bd <-> border gs rl v) /\
  (seen_nonmonotonous gs rl es = true <-> next_to_nonmonotonous gs rl).
Proof.
  destruct (dfs_ok (not_mono gs) gs rl) as (es & ES & (F1 & F2 & F3) & (G1 & G2) & _). specialize (F3 AC).
  destruct (border_run_ok es [] []) as (bd & EB & KB). { intros v Hv. apply collected_in, G2, reach_mono in Hv. tauto. }
  exists es, bd. split; auto. split; auto. split; [apply (border_run_nd _ _ _ _ EB); constructor|]. split.
  - intros v. rewrite KB. unfold border. split.
    + intros [[]|(a & b & E & i & H1 & H2 & _)]. assert (RV : reach v) by (apply F2, backtracked_in; rewrite E; apply in_or_app; right; left; auto).
      split; [apply region_iff; auto|]. exists i. split; auto. rewrite region_iff. intros RI. apply H2.
      destruct (reach_mono _ RI) as (D1 & D2). assert (CH : child (not_mono gs) gs v (lvar i)) by (split; auto; split; auto; exists i; auto).
      assert (BF : before (lvar i) v (backtracked es)) by (apply F3; auto; apply F2; auto).
      assert (EB2 : backtracked es = backtracked a ++ v :: backtracked b) by (rewrite E; unfold backtracked; rewrite flat_map_app; auto).
      rewrite EB2 in BF, F1. apply before_first in BF; auto. apply backtracked_in in BF. apply in_split in BF. destruct BF as (a1 & a2 & EA).
      destruct (loop_marks _ _ _ _ _ _ _ ES a1 (lvar i) (a2 ++ EBacktrack v :: b)) as [K|K].
      * rewrite E, EA, <- app_assoc. auto.
      * exfalso. apply (start_marks _ _ _ _ K).
      * apply collected_in. rewrite EA. apply in_or_app. auto.
    + intros (RV & i & H1 & H2). right. apply region_iff in RV. apply F2, backtracked_in, in_split in RV. destruct RV as (a & b & E). exists a, b. split; auto. exists i. split; auto. split; [|intros []].
      intros K. apply H2, region_iff, G2. rewrite E. unfold collected. rewrite flat_map_app. apply in_or_app. left. auto.
  - assert (NM : forall l, nonmono_gate gs l = true <-> nonmonotonous gs (lvar l)) by (intros l; unfold nonmono_gate, nonmonotonous, not_mono; apply andb_true_iff).
    unfold seen_nonmonotonous, next_to_nonmonotonous. rewrite orb_true_iff, !existsb_exists. split.
    + intros [(l & H1 & H2)|(e & H1 & H2)]; [left; exists l; split; auto; apply NM; auto|]. destruct e as [v|v|v]; try discriminate. apply existsb_exists in H2. destruct H2 as (i & H2 & H3).
      right. exists v, i. split; [apply region_iff, G2, collected_in; auto|]. split; auto. apply NM. auto.
    + intros [(l & H1 & H2)|(v & i & H1 & H2 & H3)]; [left; exists l; split; auto; apply NM; auto|]. right. exists (ECollect v). split; [apply collected_in, G2, region_iff; auto|].
      apply existsb_exists. exists i. split; auto. apply NM. auto.
Qed.
End Border.

(** ** the checks *)
Lemma puts_in {A} (f : A -> nat) : forall ls s x, In x (fold_left (fun s i => uput (f i) s) ls s) <-> In x s \/ exists i, In i ls /\ f i = x.
Proof.
  induction ls as [|l ls IH]; intros s x; cbn [fold_left]; [split; [auto|intros [H|(i & [] & _)]; auto]|]. rewrite IH, uput_in. split.
  - intros [[->|H]|(i & H1 & H2)]; auto; right; [exists l|exists i]; cbn; auto.
  - intros [H|(i & [<-|H1] & H2)]; auto. right. exists i. auto.
Qed.
Lemma puts_nd {A} (f : A -> nat) : forall ls s, NoDup s -> NoDup (fold_left (fun s i => uput (f i) s) ls s).
Proof. induction ls as [|l ls IH]; intros s H; cbn [fold_left]; auto. apply IH, uput_nodup. auto. Qed.
Lemma two_ok gs bd : allGatesHaveTwoInputs gs bd = true <-> forall v, In v bd -> two_input_variables gs v.
Proof.
  unfold allGatesHaveTwoInputs. rewrite forallb_forall. split; intros H v Hv; specialize (H v Hv).
  - apply Nat.eqb_eq in H. pose proof (puts_in lvar (g_inp (nth v gs gate_none)) []) as P. pose proof (puts_nd lvar (g_inp (nth v gs gate_none)) [] (NoDup_nil _)) as N.
    destruct (fold_left (fun s i => uput (lvar i) s) (g_inp (nth v gs gate_none)) []) as [|x [|y [|]]]; try discriminate. exists x, y. inversion N as [|? ? N1 N2]; subst. split; [intros ->; apply N1; left; auto|].
    intros z. specialize (P z). cbn [In] in P. unfold inputs_of. assert (Sx : x = z <-> z = x) by (split; auto). assert (Sy : y = z <-> z = y) by (split; auto). tauto.
  - apply Nat.eqb_eq. destruct H as (x & y & NE & K). pose proof (puts_in lvar (g_inp (nth v gs gate_none)) []) as P. pose proof (puts_nd lvar (g_inp (nth v gs gate_none)) [] (NoDup_nil _)) as N.
    assert (PE : Permutation (fold_left (fun s i => uput (lvar i) s) (g_inp (nth v gs gate_none)) []) [x; y]).
    { apply NoDup_Permutation; auto; [repeat constructor; cbn; intuition|]. intros z. rewrite P. cbn [In]. specialize (K z). unfold inputs_of in K. assert (Sx : x = z <-> z = x) by (split; auto). assert (Sy : y = z <-> z = y) by (split; auto). tauto. }
    rewrite (Permutation_length PE). auto.
Qed.

Definition occd (m : list (var * occ)) (l : lit) : bool := hasOccured (lsign l) (match aget (lvar l) m with Some o => o | None => (false, false) end).
Lemma lit_split l l' : lvar l = lvar l' -> lsign l = lsign l' -> l = l'.
Proof. intros E1 E2. rewrite (lit_eta l), (lit_eta l'). congruence. Qed.
Lemma occd_put m l x : occd (aput (lvar l) (setOccured (lsign l) (match aget (lvar l) m with Some o => o | None => (false, false) end)) m) x = true <-> x = l \/ occd m x = true.
Proof.
  unfold occd. rewrite aget_aput. destruct (Nat.eqb_spec (lvar x) (lvar l)) as [E|N].
  - rewrite E. set (o := match aget (lvar l) m with Some o => o | None => (false, false) end). destruct (Bool.bool_dec (lsign x) (lsign l)) as [ES|NS].
    + rewrite ES. rewrite (lit_split x l E ES). destruct o as (a, b). destruct (lsign l); cbn; tauto.
    + destruct o as (a, b). split; [intros H; right|intros [->|H]; [congruence|]]; destruct (lsign x), (lsign l); cbn in *; congruence.
  - split; auto. intros [->|H]; auto; congruence.
Qed.
Definition listed (m : list (var * occ)) (ls : list lit) : Prop := forall x, occd m x = true <-> In x ls.
Lemma aig_lits_ok : forall ls m dn, keysND m -> (forall v o, aget v m = Some o -> fst o = true \/ snd o = true) -> listed m dn ->
  match aig_lits ls m with
  | Some m' => NoDup ls /\ (forall x, In x ls -> ~ In x dn) /\ keysND m' /\ (forall v o, aget v m' = Some o -> fst o = true \/ snd o = true) /\ listed m' (ls ++ dn)
  | None => ~ (NoDup ls /\ forall x, In x ls -> ~ In x dn)
  end.
Proof.
  induction ls as [|l ls IH]; intros m dn K1 K2 L; cbn [aig_lits].
  - split; [constructor|]. split; [intros x []|]. auto.
  - change (hasOccured (lsign l) match aget (lvar l) m with Some o => o | None => (false, false) end) with (occd m l). destruct (occd m l) eqn:E.
    + apply L in E. intros (_ & H). apply (H l); [left; auto|auto].
    + assert (NL : ~ In l dn) by (intros H; apply L in H; congruence). set (o := match aget (lvar l) m with Some o => o | None => (false, false) end).
      specialize (IH (aput (lvar l) (setOccured (lsign l) o) m) (l :: dn) (aput_nd _ _ _ K1)).
      assert (A : forall v o', aget v (aput (lvar l) (setOccured (lsign l) o) m) = Some o' -> fst o' = true \/ snd o' = true).
      { intros v o'. rewrite aget_aput. destruct (v =? lvar l); [|apply K2]. intros H. injection H as <-. destruct (lsign l); cbn; auto. }
      assert (B : listed (aput (lvar l) (setOccured (lsign l) o) m) (l :: dn)).
      { intros x. unfold o. rewrite occd_put. cbn [In]. rewrite (L x). intuition. }
      specialize (IH A B). unfold o in IH. match goal with |- match ?X with _ => _ end => change (aig_lits ls _) with X in IH; destruct X as [m'|] end.
      * destruct IH as (I1 & I2 & I3 & I4 & I5). split; [constructor; auto; intros H; apply (I2 l H); left; auto|]. split; [intros x [<-|H] Hd; auto; apply (I2 x H); right; auto|]. split; auto. split; auto.
        intros x. rewrite (I5 x). cbn [app In]. rewrite !in_app_iff. cbn [In]. tauto.
      * intros (N & H). apply IH. inversion N as [|? ? N1 N2]; subst. split; auto. intros x Hx [<-|Hd]; auto. apply (H x); auto. right. auto.
Qed.
Lemma neg_other l : lvar (lneg l) = lvar l /\ lsign (lneg l) = negb (lsign l).
Proof. split; [apply lvar_neg|apply lsign_neg]. Qed.
Lemma aig_ok gs bd : allGatesAreAIGXORsWithUniqueInputVars gs bd = true <->
  NoDup (flat_map (inputs_of gs) bd) /\ forall x, In x (flat_map (inputs_of gs) bd) -> In (lneg x) (flat_map (inputs_of gs) bd).
Proof.
  unfold allGatesAreAIGXORsWithUniqueInputVars. change (fun v => g_inp (nth v gs gate_none)) with (inputs_of gs). set (ls := flat_map (inputs_of gs) bd).
  pose proof (aig_lits_ok ls [] []) as H. cbn [app] in H. assert (L0 : listed [] []).
  { intros x. unfold occd. cbn. destruct (lsign x); cbn; split; try discriminate; intros []. }
  specialize (H (NoDup_nil _) (fun v o E => ltac:(discriminate)) L0).
  match type of H with match ?X with _ => _ end => match goal with |- match ?Y with _ => _ end = _ <-> _ => change Y with X; destruct X as [m|] end end.
  - destruct H as (H1 & _ & H3 & H4 & H5). rewrite app_nil_r in H5. split.
    + intros F. split; auto. intros x Hx. apply H5 in Hx. apply H5. unfold occd in *. destruct (neg_other x) as (-> & ->).
      destruct (aget (lvar x) m) as [o|] eqn:E; [|destruct (lsign x); discriminate]. rewrite forallb_forall in F. specialize (F (lvar x, o) (proj1 (aget_in m H3 _ _) E)). cbn [fst snd] in F. apply andb_true_iff in F. destruct F as (F1 & F2).
      destruct (lsign x); cbn; auto.
    + intros (_ & C). apply forallb_forall. intros (v, o) Hin. cbn [fst snd]. apply (aget_in m H3) in Hin. destruct (H4 v o Hin) as [T|T].
      * assert (X : In (mkLit v true) ls). { apply H5. unfold occd. rewrite lvar_mk, lsign_mk, Hin. auto. }
        apply C, H5 in X. unfold occd in X. destruct (neg_other (mkLit v true)) as (E1 & E2). rewrite E1, E2, lvar_mk, lsign_mk, Hin in X. cbn in X. rewrite T, X. auto.
      * assert (X : In (mkLit v false) ls). { apply H5. unfold occd. rewrite lvar_mk, lsign_mk, Hin. auto. }
        apply C, H5 in X. unfold occd in X. destruct (neg_other (mkLit v false)) as (E1 & E2). rewrite E1, E2, lvar_mk, lsign_mk, Hin in X. cbn in X. rewrite T, X. auto.
  - split; [discriminate|]. intros (C & _). exfalso. apply H. split; auto.
Qed.
Lemma nodup_flat (gs : list gate) : forall bd, NoDup bd -> (forall v, In v bd -> NoDup (inputs_of gs v)) ->
  (NoDup (flat_map (inputs_of gs) bd) <-> forall u v i, In u bd -> In v bd -> In i (inputs_of gs u) -> In i (inputs_of gs v) -> u = v).
Proof.
  induction bd as [|w bd IH]; intros ND NI; cbn [flat_map]; [split; [intros _ u v i []|intros; constructor]|]. inversion ND as [|? ? N1 N2]; subst.
  specialize (IH N2 (fun v H => NI v (or_intror H))). split.
  - intros H u v i Hu Hv Iu Iv. assert (DJ : forall z, In z bd -> In i (inputs_of gs w) -> In i (inputs_of gs z) -> False).
    { intros z Hz I1 I2. assert (I3 : In i (flat_map (inputs_of gs) bd)) by (apply in_flat_map; exists z; auto). clear -H I1 I3. induction (inputs_of gs w) as [|y l IH]; [destruct I1|]. cbn [app] in H. inversion H as [|? ? M1 M2]; subst. destruct I1 as [->|I1]; [apply M1, in_or_app; auto|auto]. }
    destruct Hu as [<-|Hu], Hv as [<-|Hv]; auto; [destruct (DJ v Hv Iu Iv)|destruct (DJ u Hu Iv Iu)|]. apply (proj1 IH (nd_right _ _ H) u v i); auto.
  - intros H. assert (K : NoDup (flat_map (inputs_of gs) bd)) by (apply IH; intros u v i Hu Hv; apply H; right; auto).
    assert (DJ : forall i, In i (inputs_of gs w) -> ~ In i (flat_map (inputs_of gs) bd)).
    { intros i I1 I2. apply in_flat_map in I2. destruct I2 as (z & Hz & I2). assert (w = z) by (apply (H w z i); auto; [left; auto|right; auto]). subst z. auto. }
    pose proof (NI w (or_introl eq_refl)) as NW. clear -K DJ NW. induction (inputs_of gs w) as [|y l IH]; auto. cbn [app]. inversion NW as [|? ? M1 M2]; subst. constructor.
    + intros X. apply in_app_or in X. destruct X as [X|X]; auto. apply (DJ y); auto. left. auto.
    + apply IH; auto. intros i Hi. apply DJ. right. auto.
Qed.

Lemma xor_gate_ok cs g : isBinaryXORGate cs g = true <-> xor_clauses cs g.
Proof.
  unfold isBinaryXORGate, xor_clauses. split.
  - destruct (g_fwd g) as [|c1 [|c2 [|]]]; try discriminate. rewrite !andb_true_iff, !Nat.eqb_eq. intros ((H1 & H2) & H3). eexists c1, c2, _. split; auto. split; auto. split; auto.
    split; [apply (puts_nd (fun l : lit => l)); constructor|]. split; [exact H3|]. intros l. rewrite (puts_in (fun l : lit => l)). cbn [In]. split.
    + intros [[]|(i & H & <-)]. apply in_app_or. auto.
    + intros H. right. exists l. split; auto. apply in_or_app. auto.
  - intros (c1 & c2 & ls & E & H1 & H2 & H3 & H4 & H5). rewrite E, H1, H2. cbn [Nat.eqb andb]. apply Nat.eqb_eq. rewrite <- H4. apply Permutation_length. apply NoDup_Permutation; auto; [apply (puts_nd (fun l : lit => l)); constructor|].
    intros l. rewrite (puts_in (fun l : lit => l)), H5. cbn [In]. split.
    + intros [[]|(i & H & <-)]. apply in_app_or. auto.
    + intros H. right. exists l. split; auto. apply in_or_app. auto.
Qed.
Lemma xor_gates_ok cs gs : forall bd seen, NoDup bd -> xor_gates cs gs bd seen = true <->
  (forall v, In v bd -> xor_clauses cs (nth v gs gate_none)) /\ (forall v i, In v bd -> In i (inputs_of gs v) -> ~ In (lvar i) seen) /\
  (forall u v i j, In u bd -> In v bd -> In i (inputs_of gs u) -> In j (inputs_of gs v) -> lvar i = lvar j -> u = v).
Proof.
  induction bd as [|w bd IH]; intros seen ND; cbn [xor_gates].
  - split; auto. intros _. split; [intros v []|]. split; [intros v i []|intros u v i j []].
  - inversion ND as [|? ? N1 N2]; subst. destruct (isBinaryXORGate cs (nth w gs gate_none)) eqn:EX; cbn [negb].
    2:{ split; [discriminate|]. intros (H & _). specialize (H w (or_introl eq_refl)). apply xor_gate_ok in H. congruence. }
    apply xor_gate_ok in EX. destruct (existsb (fun i => existsb (Nat.eqb (lvar i)) seen) (g_inp (nth w gs gate_none))) eqn:ES.
    { split; [discriminate|]. intros (_ & H & _). apply existsb_exists in ES. destruct ES as (i & I1 & I2). apply mem_nat in I2. destruct (H w i (or_introl eq_refl) I1 I2). }
    assert (NS : forall i, In i (inputs_of gs w) -> ~ In (lvar i) seen).
    { intros i Hi Hs. assert (T : existsb (fun i => existsb (Nat.eqb (lvar i)) seen) (g_inp (nth w gs gate_none)) = true); [|congruence]. apply existsb_exists. exists i. split; auto. apply mem_nat. auto. }
    rewrite (IH _ N2). split.
    + intros (A & B & C). split; [intros v [<-|Hv]; auto|]. split.
      * intros v i [<-|Hv] Hi; auto. intros Hs. apply (B v i Hv Hi). apply (puts_in lvar). auto.
      * intros u v i j [<-|Hu] [<-|Hv] Hi Hj E; auto; [|exfalso; apply (B u i Hu Hi), (puts_in lvar); right; exists j; auto|apply (C u v i j); auto].
        exfalso. apply (B v j Hv Hj), (puts_in lvar). right. exists i. auto.
    + intros (A & B & C). split; [intros v Hv; apply A; right; auto|]. split; [|intros u v i j Hu Hv; apply C; right; auto].
      intros v i Hv Hi Hs. apply (puts_in lvar) in Hs. destruct Hs as [Hs|(j & Hj & E)]; [apply (B v i); auto; right; auto|].
      assert (v = w) by (apply (C v w i j); auto; [right; auto|left; auto]). subst v. auto.
Qed.

Section Main.
Variables (cfg : config) (p : cnf) (g : gproblem) (rl : list lit) (order : list var -> list var).
Hypothesis WF : wf_problem (variables p) (problem p).
Hypothesis AN : analyze cfg p = Ok g.
Hypothesis OR : forall l, Permutation (order l) l.
Notation gs := (gates g).
Lemma inputs_nd v : NoDup (inputs_of gs v).
Proof.
  unfold inputs_of. destruct (analyze_ok cfg p WF) as (g' & E' & HL & _ & HG & _). rewrite AN in E'. injection E' as <-.
  destruct (Nat.lt_ge_cases v (variables p)) as [L|L]; [|rewrite nth_overflow by lia; constructor].
  destruct (HG v L) as [E|(o & _ & G)]; [rewrite E; constructor|apply (gd_inu _ _ _ _ _ G)].
Qed.
Lemma miter_ok : exists b, hasPossiblyMiterStructure order (problem p) gs rl = Ok b /\ (b = true <-> miter_like (problem p) gs rl).
Proof.
  destruct (analyze_acyclic cfg p g WF AN) as (AC & _).
  destruct (border_ok gs rl) as (es & bd & E1 & E2 & N & B & S1); auto.
  { intros v o E. apply (gates_left_total cfg p g v o WF AN E). }
  unfold hasPossiblyMiterStructure. rewrite E1. cbn [bind]. rewrite E2. cbn [bind]. eexists. split; [reflexivity|].
  set (b := order bd). assert (PB : Permutation b bd) by apply OR.
  assert (NB : NoDup b) by (apply (Permutation_NoDup (Permutation_sym PB) N)).
  assert (BB : forall v, In v b <-> border gs rl v).
  { intros v. rewrite <- B. split; intros H; [apply (Permutation_in _ PB H)|apply (Permutation_in _ (Permutation_sym PB) H)]. }
  assert (AB : allGatesAreAIGXORsWithUniqueInputVars gs b = true <-> aig_inputs gs rl).
  { rewrite aig_ok. rewrite (nodup_flat gs b NB (fun v _ => inputs_nd v)). unfold aig_inputs. split.
    - intros (A1 & A2). split; [intros u v i Hu Hv; apply A1; apply BB; auto|]. intros v i Hv Hi. specialize (A2 i). assert (K : In (lneg i) (flat_map (inputs_of gs) b)) by (apply A2, in_flat_map; exists v; split; auto; apply BB; auto).
      apply in_flat_map in K. destruct K as (u & Hu & K). exists u. split; auto. apply BB. auto.
    - intros (A1 & A2). split; [intros u v i Hu Hv; apply A1; apply BB; auto|]. intros x Hx. apply in_flat_map in Hx. destruct Hx as (v & Hv & Hx). destruct (A2 v x (proj1 (BB v) Hv) Hx) as (u & Hu & K). apply in_flat_map. exists u. split; auto. apply BB. auto. }
  assert (XB : allGatesAreBinaryXORsWithUniqueInputVars (problem p) gs b = true <-> xor_inputs (problem p) gs rl).
  { unfold allGatesAreBinaryXORsWithUniqueInputVars. rewrite (xor_gates_ok (problem p) gs b [] NB). unfold xor_inputs. split.
    - intros (A1 & _ & A3). split; [intros v Hv; apply A1, BB; auto|]. intros u v i j Hu Hv. apply A3; apply BB; auto.
    - intros (A1 & A3). split; [intros v Hv; apply A1, BB; auto|]. split; [intros v i _ _ []|]. intros u v i j Hu Hv. apply A3; apply BB; auto. }
  assert (TB : allGatesHaveTwoInputs gs b = true <-> forall v, border gs rl v -> two_input_variables gs v).
  { rewrite two_ok. split; intros H v Hv; apply H, BB; auto. }
  unfold miter_like. rewrite <- TB, <- AB, <- XB, <- S1.
  assert (EB : (length b =? 0) = false <-> exists v, border gs rl v).
  { destruct b as [|v b'] eqn:Eb; cbn; split; try discriminate; auto.
    - intros (v & Hv). apply BB in Hv. destruct Hv.
    - intros _. exists v. apply BB. left. auto. }
  rewrite <- EB. destruct (length b =? 0), (seen_nonmonotonous gs rl es), (allGatesHaveTwoInputs gs b); cbn [orb negb]; rewrite ?orb_true_iff; intuition discriminate.
Qed.
(** a border gate that passes the test for XOR gates says what an XOR gate says in one direction *)
Lemma xor_meaning v o : g_out (nth v gs gate_none) = Some o -> two_input_variables gs v -> xor_clauses (problem p) (nth v gs gate_none) ->
  exists a b, lvar a <> lvar b /\ (forall i, In i (inputs_of gs v) -> lvar i = lvar a \/ lvar i = lvar b) /\ (forall i, In i (inputs_of gs v) -> In (lneg i) (inputs_of gs v)) /\
    forall x, holds (problem p) x (g_fwd (nth v gs gate_none)) <-> (lit_holds x o -> xorb (lit_val x a) (lit_val x b) = true).
Proof using WF AN.
  clear OR order. intros EO (x0 & y0 & NE & TV) (c1 & c2 & ls & EF & L1 & L2 & ND & L5 & HL).
  destruct (gates_shape cfg p g v o WF AN EO) as (_ & FW & _ & IN). cbv zeta in *. unfold inputs_of in *. rewrite EF in FW, IN.
  assert (W : forall c, NoDup (cl (problem p) c) /\ ~ tautology (cl (problem p) c)).
  { intros c. unfold cl. destruct (nth_in_or_default c (problem p) []) as [H|H]; [destruct (WF _ H) as (A & B & _); auto|rewrite H; split; [constructor|intros (l & [] & _)]]. }
  destruct (W c1) as (D1 & T1). destruct (W c2) as (D2 & T2).
  assert (O1 : In (lneg o) (cl (problem p) c1)) by (apply FW; left; auto). assert (O2 : In (lneg o) (cl (problem p) c2)) by (apply FW; right; left; auto).
  assert (RM : forall c, length (cl (problem p) c) = 3 -> NoDup (cl (problem p) c) -> In (lneg o) (cl (problem p) c) -> exists a b, Permutation (cl (problem p) c) [lneg o; a; b]).
  { intros c L D O. apply in_split in O. destruct O as (u & w & E). rewrite E in *. rewrite app_length in L. cbn [length] in L.
    assert (P : Permutation (u ++ lneg o :: w) (lneg o :: u ++ w)) by (symmetry; apply Permutation_middle). destruct (u ++ w) as [|a [|b [|]]] eqn:EU; try (apply (f_equal (@length lit)) in EU; rewrite app_length in EU; cbn in EU; lia). exists a, b. auto. }
  destruct (RM c1 L1 D1 O1) as (a & b & P1). destruct (RM c2 L2 D2 O2) as (a' & b' & P2).
  assert (I1 : forall l, In l (cl (problem p) c1) <-> l = lneg o \/ l = a \/ l = b).
  { intros l. split; intros H; [apply (Permutation_in _ P1) in H; cbn in H; intuition|apply (Permutation_in _ (Permutation_sym P1)); cbn; intuition]. }
  assert (I2 : forall l, In l (cl (problem p) c2) <-> l = lneg o \/ l = a' \/ l = b').
  { intros l. split; intros H; [apply (Permutation_in _ P2) in H; cbn in H; intuition|apply (Permutation_in _ (Permutation_sym P2)); cbn; intuition]. }
  apply (Permutation_NoDup P1) in D1. apply (Permutation_NoDup P2) in D2.
  assert (PL : Permutation ls [lneg o; a; b; a'; b']).
  { apply NoDup_Permutation_bis; auto; [cbn; lia|]. intros l Hl. apply HL in Hl. rewrite I1, I2 in Hl. cbn. intuition. }
  apply (Permutation_NoDup PL) in ND.
  assert (DD : a <> b /\ a' <> b' /\ a <> a' /\ a <> b' /\ b <> a' /\ b <> b' /\ a <> lneg o /\ b <> lneg o /\ a' <> lneg o /\ b' <> lneg o).
  { inversion ND as [|? ? M1 M2]; subst. inversion M2 as [|? ? M3 M4]; subst. inversion M4 as [|? ? M5 M6]; subst. inversion M6 as [|? ? M7 M8]; subst. cbn in *. intuition. }
  destruct DD as (Q1 & Q2 & Q3 & Q4 & Q5 & Q6 & Q7 & Q8 & Q9 & Q10).
  assert (VA : forall l, l = a \/ l = b \/ l = a' \/ l = b' -> lvar l = x0 \/ lvar l = y0).
  { intros l Hl. apply TV. exists l. split; auto. apply IN. destruct Hl as [->|[->|[->| ->]]]; [exists c1|exists c1|exists c2|exists c2]; cbn [In]; rewrite ?I1, ?I2; intuition. }
  assert (NT : forall c u w, ~ tautology (cl (problem p) c) -> In u (cl (problem p) c) -> In w (cl (problem p) c) -> u <> w -> lvar u <> lvar w).
  { intros c u w T Hu Hw N E. apply T. exists u. split; auto. destruct (Bool.bool_dec (lsign u) (lsign w)) as [S1|S1]; [destruct N; apply lit_split; auto|].
    assert (w = lneg u); [|congruence]. apply lit_split; [rewrite lvar_neg; auto|rewrite lsign_neg; destruct (lsign u), (lsign w); auto; congruence]. }
  assert (AB : lvar a <> lvar b) by (apply (NT c1); auto; apply I1; auto). assert (AB' : lvar a' <> lvar b') by (apply (NT c2); auto; apply I2; auto).
  assert (OP : forall u w, u <> w -> lvar u = lvar w -> w = lneg u).
  { intros u w N E. apply lit_split; [rewrite lvar_neg; auto|]. rewrite lsign_neg. destruct (Bool.bool_dec (lsign u) (lsign w)) as [S1|S1]; [destruct N; apply lit_split; auto|destruct (lsign u), (lsign w); auto; congruence]. }
  assert (CASE : (a' = lneg a /\ b' = lneg b) \/ (a' = lneg b /\ b' = lneg a)).
  { pose proof (VA a ltac:(auto)) as V1. pose proof (VA b ltac:(auto)) as V2. pose proof (VA a' ltac:(auto)) as V3. pose proof (VA b' ltac:(auto)) as V4.
    destruct (Nat.eq_dec (lvar a) (lvar a')) as [E|E]; [left|right]; split; apply OP; auto; clear -V1 V2 V3 V4 AB AB' E NE; unfold var, lit in *; lia. }
  exists a, b. split; auto. split.
  { intros i Hi. apply IN in Hi. destruct Hi as (c & Hc & Hi & Ne). assert (K : lvar i = x0 \/ lvar i = y0) by (apply TV; exists i; split; auto; apply IN; exists c; auto).
    pose proof (VA a ltac:(auto)) as V1. pose proof (VA b ltac:(auto)) as V2. clear -V1 V2 K AB NE; unfold var, lit in *; lia. }
  split.
  { intros i Hi. apply IN in Hi. destruct Hi as (c & Hc & Hi & Ne). assert (IS : i = a \/ i = b \/ i = a' \/ i = b') by (destruct Hc as [<-|[<-|[]]]; [apply I1 in Hi|apply I2 in Hi]; tauto).
    apply IN. assert (NG : lneg i = a \/ lneg i = b \/ lneg i = a' \/ lneg i = b').
    { destruct CASE as [(-> & ->)|(-> & ->)]; destruct IS as [->|[->|[->| ->]]]; rewrite ?lneg_invol; tauto. }
    destruct NG as [->|[->|[->| ->]]]; [exists c1|exists c1|exists c2|exists c2]; rewrite ?I1, ?I2; cbn [In]; tauto. }
  intros x. rewrite EF. unfold holds. cbn [In].
  assert (S1 : sat_clause x (cl (problem p) c1) <-> lit_val x o = false \/ lit_val x a = true \/ lit_val x b = true).
  { unfold sat_clause, lit_holds. split.
    - intros (l & Hl & H). apply I1 in Hl. destruct Hl as [->|[->| ->]]; auto. rewrite lit_val_neg in H. left. destruct (lit_val x o); auto.
    - intros [H|[H|H]]; [exists (lneg o); rewrite I1, lit_val_neg, H; auto|exists a; rewrite I1; auto|exists b; rewrite I1; auto]. }
  assert (S2 : sat_clause x (cl (problem p) c2) <-> lit_val x o = false \/ lit_val x a = false \/ lit_val x b = false).
  { unfold sat_clause, lit_holds. split.
    - intros (l & Hl & H). apply I2 in Hl. destruct CASE as [(-> & ->)|(-> & ->)]; destruct Hl as [->|[->| ->]]; rewrite lit_val_neg in H; apply negb_true_iff in H; auto.
    - intros H. assert (K : exists l, (l = lneg o \/ l = lneg a \/ l = lneg b) /\ lit_val x l = true).
      { destruct H as [H|[H|H]]; [exists (lneg o)|exists (lneg a)|exists (lneg b)]; rewrite lit_val_neg, H; auto. }
      destruct K as (l & K1 & K2). exists l. split; auto. apply I2. destruct CASE as [(-> & ->)|(-> & ->)]; tauto. }
  split.
  - intros H HO. unfold lit_holds in HO. pose proof (proj1 S1 (H c1 (or_introl eq_refl))) as K1. pose proof (proj1 S2 (H c2 (or_intror (or_introl eq_refl)))) as K2. rewrite HO in *.
    destruct (lit_val x a), (lit_val x b); cbn; auto; intuition discriminate.
  - intros H. unfold lit_holds in H. destruct (lit_val x o) eqn:EV.
    + specialize (H eq_refl). intros c [<-|[<-|[]]]; [apply S1|apply S2]; destruct (lit_val x a), (lit_val x b); cbn in H; auto; discriminate.
    + intros c [<-|[<-|[]]]; [apply S1|apply S2]; auto.
Qed.
Lemma xor_aig : (forall v, border gs rl v -> two_input_variables gs v) -> xor_inputs (problem p) gs rl -> aig_inputs gs rl.
Proof.
  intros T (X1 & X2). split; [intros u v i Hu Hv Iu Iv; apply (X2 u v i i); auto|]. intros v i Hv Hi. exists v. split; auto.
  assert (D : defined gs v = true) by (destruct Hv as (Hr & _); apply region_iff, reach_mono in Hr; tauto). unfold defined in D. destruct (g_out (nth v gs gate_none)) as [o|] eqn:EO; [|discriminate].
  destruct (xor_meaning v o EO (T v Hv) (X1 v Hv)) as (a & b & _ & _ & K & _). auto.
Qed.
Lemma miter_aig b : hasPossiblyMiterStructure order (problem p) gs rl = Ok b ->
  (b = true <-> (exists v, border gs rl v) /\ next_to_nonmonotonous gs rl /\ (forall v, border gs rl v -> two_input_variables gs v) /\ aig_inputs gs rl).
Proof.
  intros E. destruct miter_ok as (b' & E' & K). rewrite E in E'. injection E' as <-. rewrite K. unfold miter_like. pose proof xor_aig as XA. tauto.
Qed.
End Main.
