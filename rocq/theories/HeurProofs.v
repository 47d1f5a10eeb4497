(** Proofs about the heuristic that counts input dependencies. *)
Require Import List Arith Bool NArith ZArith Lia Permutation.
Require Import Verif.Base Verif.Outcome Verif.CNFModel Verif.GateModel Verif.GateSpec Verif.GateMore Verif.GateProps Verif.ApproxModel Verif.ApproxSpec
  Verif.ApproxLemmas Verif.ApproxProofs Verif.ApproxMore Verif.ApproxRefine Verif.ApproxTags Verif.ApproxRun Verif.ARModel Verif.BranchModel Verif.HeurModel Verif.HeurSpec.
Import ListNotations.
Open Scope nat_scope.

(** ** maps and sets *)
Lemma aget_aput {A} k (x : A) m j : aget j (aput k x m) = if j =? k then Some x else aget j m.
Proof.
  unfold aput, adel. cbn [aget]. destruct (Nat.eqb_spec j k) as [->|N]; auto.
  induction m as [|[k' y] m IH]; auto. cbn [filter fst aget]. destruct (Nat.eqb_spec k k') as [->|N']; cbn [negb].
  - rewrite IH. destruct (Nat.eqb_spec j k'); [congruence|auto].
  - cbn [aget]. rewrite IH. auto.
Qed.
Lemma aget_adel {A} k (m : list (var * A)) j : aget j (adel k m) = if j =? k then None else aget j m.
Proof.
  unfold adel. induction m as [|[k' y] m IH]; [destruct (j =? k); auto|]. cbn [filter fst aget].
  destruct (Nat.eqb_spec k k') as [->|N']; cbn [negb].
  - rewrite IH. destruct (Nat.eqb_spec j k'); auto.
  - cbn [aget]. rewrite IH. destruct (Nat.eqb_spec j k') as [E1|E1]; destruct (Nat.eqb_spec j k) as [E2|E2]; auto; congruence.
Qed.
Lemma uput_in v s x : In x (uput v s) <-> x = v \/ In x s.
Proof.
  unfold uput. destruct (existsb (Nat.eqb v) s) eqn:E; [|cbn [In]; intuition].
  apply existsb_exists in E. destruct E as (y & H & E). apply Nat.eqb_eq in E. subst y. split; auto. intros [->|K]; auto.
Qed.
Lemma uput_nodup v s : NoDup s -> NoDup (uput v s).
Proof.
  unfold uput. destruct (existsb (Nat.eqb v) s) eqn:E; auto. intros H. constructor; auto. intros K.
  assert (existsb (Nat.eqb v) s = true) by (apply existsb_exists; exists v; split; auto; apply Nat.eqb_refl). congruence.
Qed.
Lemma uputs_in s : forall t x, In x (fold_right uput t s) <-> In x s \/ In x t.
Proof. induction s as [|v s IH]; intros t x; cbn [fold_right In]; [tauto|]. rewrite uput_in, IH. intuition. Qed.
Lemma uputs_nodup s : forall t, NoDup t -> NoDup (fold_right uput t s).
Proof. induction s as [|v s IH]; intros t H; cbn [fold_right]; auto. apply uput_nodup. auto. Qed.

(** ** counting *)
Section Count.
Variable gs : list gate.
Variable max : N.
Hypothesis out_ok : forall v o, g_out (nth v gs gate_none) = Some o -> lvar o = v.
Hypothesis AC : acyclic (fun _ => false) gs.
Notation inp v := (g_inp (nth v gs gate_none)).
Notation child := (child (fun _ => false) gs).

Lemma out_var_ok v : defined gs v = true -> out_var gs v = Ok v.
Proof. unfold defined, out_var. destruct (g_out (nth v gs gate_none)) eqn:E; [|discriminate]. rewrite (out_ok v _ E). auto. Qed.

Lemma own_ok ins : forall s s' b, own_inputs gs max ins s = (s', b) -> NoDup s ->
  NoDup s' /\ (forall x, In x s' -> In x s \/ (defined gs x = false /\ exists i, In i ins /\ lvar i = x)) /\
  (if b then (max < N.of_nat (length s'))%N
   else (forall x, In x s -> In x s') /\ (forall i, In i ins -> defined gs (lvar i) = false -> In (lvar i) s')).
Proof.
  induction ins as [|i ins IH]; intros s s' b E H; cbn [own_inputs] in E.
  - injection E as <- <-. split; auto. split; auto. split; auto. intros ? [].
  - destruct (defined gs (lvar i)) eqn:D.
    + destruct (IH _ _ _ E H) as (A1 & A2 & A3). split; auto. split.
      * intros x Hx. destruct (A2 x Hx) as [K|(K1 & j & K2 & K3)]; auto. right. split; auto. exists j. split; auto. right. auto.
      * destruct b; auto. destruct A3 as (A3 & A4). split; auto. intros j [<-|Hj] Dj; [congruence|auto].
    + destruct (max <? N.of_nat (length (uput (lvar i) s)))%N eqn:L.
      * injection E as <- <-. split; [apply uput_nodup; auto|]. split; [|apply N.ltb_lt; auto].
        intros x Hx. apply uput_in in Hx. destruct Hx as [->|Hx]; auto. right. split; auto. exists i. split; auto. left. auto.
      * destruct (IH _ _ _ E (uput_nodup _ _ H)) as (A1 & A2 & A3). split; auto. split.
        -- intros x Hx. destruct (A2 x Hx) as [K|(K1 & j & K2 & K3)]; [|right; split; auto; exists j; split; auto; right; auto].
           apply uput_in in K. destruct K as [->|K]; auto. right. split; auto. exists i. split; auto. left. auto.
        -- destruct b; auto. destruct A3 as (A3 & A4). split; [intros x Hx; apply A3, uput_in; auto|].
           intros j [<-|Hj] Dj; [apply A3, uput_in; auto|auto].
Qed.

Lemma dependents_in outs v u : In u (dependents gs outs v) <-> In u outs /\ child u v.
Proof.
  unfold dependents. rewrite in_flat_map. split.
  - intros (o & Ho & H). apply in_flat_map in H. destruct H as (i & Hi & H). destruct (defined gs (lvar i) && (lvar i =? v)) eqn:E; [|destruct H].
    apply andb_true_iff in E. destruct E as (E1 & E2). apply Nat.eqb_eq in E2. destruct H as [<-|[]]. split; auto. subst v. split; auto. split; auto. exists i. auto.
  - intros (Hu & D & _ & i & Hi & <-). exists u. split; auto. apply in_flat_map. exists i. split; auto. rewrite D, Nat.eqb_refl. left. auto.
Qed.

Lemma push_sets_ok s : forall ds sets, (forall d, In d ds -> exists t, aget d sets = Some t) ->
  exists sets', push_sets s ds sets = Ok sets' /\
    forall u, match aget u sets with
              | None => aget u sets' = None
              | Some t => exists t', aget u sets' = Some t' /\ (NoDup t -> NoDup t') /\ forall x, In x t' <-> In x t \/ (In u ds /\ In x s)
              end.
Proof.
  induction ds as [|d ds IH]; intros sets H; cbn [push_sets].
  - exists sets. split; auto. intros u. destruct (aget u sets) as [t|]; auto. exists t. split; auto. split; auto. intros x. cbn [In]. tauto.
  - destruct (H d (or_introl eq_refl)) as (t & Et). rewrite Et.
    destruct (IH (aput d (fold_right uput t s) sets)) as (sets' & E & K).
    { intros d' Hd'. rewrite aget_aput. destruct (d' =? d); eauto. apply H. right. auto. }
    exists sets'. split; auto. intros u. specialize (K u). rewrite aget_aput in K. destruct (Nat.eqb_spec u d) as [Eu|Nu]; [subst u|].
    + rewrite Et. destruct K as (t' & K1 & K2 & K3). exists t'. split; auto. split; [intros Ht; apply K2, uputs_nodup; auto|].
      intros x. rewrite K3, uputs_in. cbn [In]. intuition.
    + destruct (aget u sets) as [t0|]; auto. destruct K as (t' & K1 & K2 & K3). exists t'. split; auto. split; auto.
      intros x. rewrite K3. cbn [In]. intuition congruence.
Qed.
Lemma push_excess_ok : forall ds counts, (forall d, In d ds -> defined gs d = true) ->
  exists c', push_excess gs ds counts = Ok c' /\ forall u, aget u c' = if existsb (Nat.eqb u) ds then Some size_max else aget u counts.
Proof.
  induction ds as [|d ds IH]; intros counts H; cbn [push_excess].
  - exists counts. split; auto.
  - rewrite (out_var_ok d) by (apply H; left; auto). cbn [bind]. destruct (IH (aput d size_max counts)) as (c' & E & K); [intros d' Hd'; apply H; right; auto|].
    exists c'. split; auto. intros u. rewrite K, aget_aput. cbn [existsb]. destruct (u =? d); cbn [orb]; auto. destruct (existsb (Nat.eqb u) ds); auto.
Qed.

Lemma depends_child u c x : child u c -> depends gs c x -> depends gs u x.
Proof.
  intros H (D & w & Hw & K). split; auto. exists w. split; auto. right. destruct Hw as [->|Hw]; [apply p_one; auto|apply (p_more _ _ _ c); auto].
Qed.
Lemma depends_cases v x : depends gs v x -> (defined gs x = false /\ exists i, In i (inp v) /\ lvar i = x) \/ exists c, child v c /\ depends gs c x.
Proof.
  intros (D & w & [->|Hw] & K); [left; auto|right]. destruct Hw as [u w H|u c w H Hp].
  - exists w. split; auto. split; auto. exists w. auto.
  - exists c. split; auto. split; auto. exists w. auto.
Qed.
Lemma more_child u c n : child u c -> depends_on_more gs c n -> depends_on_more gs u n.
Proof. intros H (l & H1 & H2 & H3). exists l. split; auto. split; auto. intros x Hx. apply (depends_child u c x H). auto. Qed.

Variable outs : list var.
Hypothesis ND : NoDup outs.
Hypothesis DF : forall v, In v outs -> defined gs v = true.
Hypothesis ORD : forall u v, In u outs -> child u v -> before v u outs.

(** what is known about the gates handled so far *)
Definition count_right (v : var) (c : N) : Prop :=
  (c <> size_max /\ exists s, NoDup s /\ (forall x, In x s <-> depends gs v x) /\ c = N.of_nat (length s)) \/
  (c = size_max /\ depends_on_more gs v max).
Record CI (dn rest : list var) (d : dstate) : Prop := {
  ci_outs : outs = dn ++ rest;
  ci_set : forall u, In u rest -> exists s, aget u (d_sets d) = Some s /\ NoDup s /\ (forall x, In x s -> depends gs u x) /\
    (aget u (d_counts d) = None /\ (forall c x, child u c -> In c dn -> depends gs c x -> In x s) \/
     aget u (d_counts d) = Some size_max /\ depends_on_more gs u max);
  ci_done : forall u, In u dn -> exists c, aget u (d_counts d) = Some c /\ count_right u c;
  ci_keys : forall u c, aget u (d_counts d) = Some c -> In u outs }.

Hypothesis small : forall s v, NoDup s -> (forall x, In x s -> depends gs v x) -> (N.of_nat (length s) < size_max)%N.

Lemma not_self v : ~ child v v.
Proof. intros H. apply (AC v). apply p_one. auto. Qed.
Lemma child_done dn v r c : outs = dn ++ v :: r -> child v c -> In c dn.
Proof.
  intros E H. assert (Hv : In v outs) by (rewrite E; apply in_or_app; right; left; auto).
  destruct (ORD v c Hv H) as (a & b & e & E'). rewrite E in E'.
  assert (K : dn = a ++ c :: b).
  { assert (E2 : dn ++ v :: r = (a ++ c :: b) ++ v :: e) by (rewrite E', <- app_assoc; auto).
    rewrite E in ND. clear -ND E2. revert E2. generalize (a ++ c :: b). intros l E2.
    destruct (app_eq_app _ _ _ _ E2) as (m & [(H1 & H2)|(H1 & H2)]).
    - destruct m as [|y m]; [rewrite app_nil_r in H1; auto|]. cbn in H2. injection H2 as -> H2. exfalso.
      rewrite H1 in ND. rewrite <- app_assoc in ND. cbn [app] in ND. apply NoDup_remove_2 in ND. apply ND. apply in_or_app. right. apply in_or_app. right. left. auto.
    - destruct m as [|y m]; [rewrite app_nil_r in H1; auto|]. cbn in H2. injection H2 as -> H2. exfalso.
      apply NoDup_remove_2 in ND. apply ND. rewrite H2. apply in_or_app. right. apply in_or_app. right. left. auto. }
  rewrite K. apply in_or_app. right. left. auto.
Qed.
Lemma parent_rest dn v r u : outs = dn ++ v :: r -> In u outs -> child u v -> In u r.
Proof.
  intros E Hu H. rewrite E in Hu. apply in_app_or in Hu. destruct Hu as [Hu|[<-|Hu]]; auto; [|destruct (not_self v H)].
  exfalso. apply in_split in Hu. destruct Hu as (a & b & ->). rewrite <- app_assoc in E. cbn [app] in E.
  pose proof (child_done a u (b ++ v :: r) v E H) as K. rewrite E in ND. apply in_split in K. destruct K as (a1 & a2 & ->).
  rewrite <- app_assoc in ND. cbn [app] in ND. apply NoDup_remove_2 in ND. apply ND. apply in_or_app. right. apply in_or_app. right. right. apply in_or_app. right. left. auto.
Qed.

Lemma step_ok dn v r d : CI dn (v :: r) d -> exists d', count_step gs outs max v d = Ok d' /\ CI (dn ++ [v]) r d'.
Proof.
  intros [E CS CD CK]. destruct (CS v (or_introl eq_refl)) as (s & Es & Ns & Sd & Cv). unfold count_step. rewrite Es.
  assert (Dv : defined gs v = true) by (apply DF; rewrite E; apply in_or_app; right; left; auto).
  assert (E' : outs = (dn ++ [v]) ++ r) by (rewrite <- app_assoc; auto).
  assert (Nv : forall u, In u r -> u <> v).
  { intros u Hu ->. rewrite E in ND. apply NoDup_remove_2 in ND. apply ND. apply in_or_app. auto. }
  assert (Nd : forall u, In u dn -> u <> v).
  { intros u Hu ->. rewrite E in ND. apply NoDup_remove_2 in ND. apply ND. apply in_or_app. auto. }
  set (known := match aget v (d_counts d) with Some c => (c =? size_max)%N | None => false end).
  destruct (if known then (s, true) else own_inputs gs max (inp v) s) as (s', exceeded) eqn:EX. cbn [fst snd].
  rewrite (out_var_ok v Dv). cbn [bind].
  assert (HX : if exceeded then depends_on_more gs v max else NoDup s' /\ (forall x, In x s' <-> depends gs v x)).
  { unfold known in EX. destruct Cv as [(C1 & C2)|(C1 & C2)]; rewrite C1 in EX.
    - destruct (own_ok _ _ _ _ EX Ns) as (A1 & A2 & A3).
      assert (B : forall x, In x s' -> depends gs v x).
      { intros x Hx. destruct (A2 x Hx) as [K|(K1 & i & K2 & K3)]; auto. split; auto. exists v. split; auto. exists i. auto. }
      destruct exceeded; [exists s'; auto|]. split; auto. intros x. split; auto. intros K. destruct A3 as (A3 & A4).
      destruct (depends_cases v x K) as [(K1 & i & K2 & <-)|(c & K1 & K2)]; [apply A4; auto|]. apply A3. apply (C2 c x K1); auto. apply (child_done dn v r c E K1).
    - rewrite N.eqb_refl in EX. injection EX as <- <-. auto. }
  assert (DP : forall u, In u (dependents gs outs v) -> In u r /\ child u v).
  { intros u Hu. apply dependents_in in Hu. destruct Hu as (Hu & Hc). split; auto. apply (parent_rest dn v r u E Hu Hc). }
  assert (PD : forall u, In u r -> child u v -> In u (dependents gs outs v)).
  { intros u Hu Hc. apply dependents_in. split; auto. rewrite E. apply in_or_app. right. right. auto. }
  assert (RO : forall u, In u r -> In u outs) by (intros u Hu; rewrite E; apply in_or_app; right; right; auto).
  destruct exceeded.
  - destruct (push_excess_ok (dependents gs outs v) (aput v size_max (d_counts d))) as (c' & Ec & Kc).
    { intros u Hu. apply DF, RO. apply (DP u Hu). }
    rewrite Ec. cbn [bind]. eexists. split; [reflexivity|]. constructor; auto.
    + intros u Hu. cbn [d_sets d_counts]. destruct (CS u (or_intror Hu)) as (t & Et & Nt & St & Ct). exists t.
      rewrite aget_adel. destruct (Nat.eqb_spec u v); [destruct (Nv u Hu); auto|]. split; auto. split; auto. split; auto.
      rewrite Kc, aget_aput. destruct (Nat.eqb_spec u v); [congruence|]. destruct (existsb (Nat.eqb u) (dependents gs outs v)) eqn:Ed.
      * right. split; auto. apply existsb_exists in Ed. destruct Ed as (w & Hw & Ew). apply Nat.eqb_eq in Ew. subst w.
        apply (more_child u v); auto. apply (DP u Hw).
      * destruct Ct as [(C1 & C2)|C]; auto. left. split; auto. intros c x Hc Hin Hx. apply in_app_or in Hin. destruct Hin as [Hin|[<-|[]]]; [apply (C2 c); auto|].
        exfalso. apply not_true_iff_false in Ed. apply Ed. apply existsb_exists. exists u. split; [auto|apply Nat.eqb_refl].
    + intros u Hu. cbn [d_counts]. rewrite Kc, aget_aput. apply in_app_or in Hu.
      assert (Nu : existsb (Nat.eqb u) (dependents gs outs v) = false).
      { apply not_true_iff_false. intros K. apply existsb_exists in K. destruct K as (w & Hw & Ew). apply Nat.eqb_eq in Ew. subst w.
        destruct (DP u Hw) as (Hr & _). destruct Hu as [Hu|[<-|[]]]; [|apply (Nv v Hr); auto].
        rewrite E in ND. clear -ND Hu Hr. apply NoDup_remove_1 in ND. induction dn as [|y l IH]; [destruct Hu|]. cbn [app] in ND. inversion ND as [|? ? N1 N2]; subst.
        destruct Hu as [->|Hu]; [apply N1, in_or_app; auto|auto]. }
      rewrite Nu. destruct Hu as [Hu|[<-|[]]].
      * destruct (Nat.eqb_spec u v); [destruct (Nd u Hu); auto|]. auto.
      * rewrite Nat.eqb_refl. exists size_max. split; auto. right. auto.
    + intros u c. cbn [d_counts]. rewrite Kc, aget_aput. destruct (existsb (Nat.eqb u) (dependents gs outs v)) eqn:Ed.
      * intros _. apply existsb_exists in Ed. destruct Ed as (w & Hw & Ew). apply Nat.eqb_eq in Ew. subst w. apply RO, (DP u Hw).
      * destruct (Nat.eqb_spec u v) as [->|]; [intros _; rewrite E; apply in_or_app; right; left; auto|apply CK].
  - destruct HX as (N' & HS). destruct (push_sets_ok s' (dependents gs outs v) (aput v s' (d_sets d))) as (t & Et & Kt).
    { intros u Hu. rewrite aget_aput. destruct (u =? v); eauto. destruct (DP u Hu) as (Hr & _). destruct (CS u (or_intror Hr)) as (t & Et & _). eauto. }
    rewrite Et. cbn [bind]. eexists. split; [reflexivity|]. constructor; auto.
    + intros u Hu. cbn [d_sets d_counts]. destruct (CS u (or_intror Hu)) as (t0 & E0 & N0 & S0 & C0). specialize (Kt u). rewrite aget_aput in Kt.
      destruct (Nat.eqb_spec u v) as [|Nuv]; [destruct (Nv u Hu); auto|]. rewrite E0 in Kt. destruct Kt as (t' & K1 & K2 & K3). exists t'.
      rewrite aget_adel, aget_aput. destruct (Nat.eqb_spec u v); [congruence|]. split; auto. split; auto. split.
      * intros x Hx. apply K3 in Hx. destruct Hx as [Hx|(Hd & Hx)]; auto. apply (depends_child u v); [apply (DP u Hd)|apply HS; auto].
      * destruct C0 as [(C1 & C2)|C]; auto. left. split; auto. intros c x Hc Hin Hx. apply K3. apply in_app_or in Hin. destruct Hin as [Hin|[<-|[]]]; [left; apply (C2 c); auto|].
        right. split; [auto|apply HS; auto].
    + intros u Hu. cbn [d_counts]. rewrite aget_aput. apply in_app_or in Hu. destruct Hu as [Hu|[<-|[]]].
      * destruct (Nat.eqb_spec u v); [destruct (Nd u Hu); auto|]. auto.
      * rewrite Nat.eqb_refl. eexists. split; [reflexivity|]. left. split; [|exists s'; auto].
        pose proof (small s' v N' (fun x H => proj1 (HS x) H)). lia.
    + intros u c. cbn [d_counts]. rewrite aget_aput. destruct (Nat.eqb_spec u v) as [->|]; [intros _; rewrite E; apply in_or_app; right; left; auto|apply CK].
Qed.
Lemma loop_ok2 : forall r dn d, CI dn r d -> exists d', count_loop gs outs max r d = Ok d' /\ CI outs [] d'.
Proof.
  induction r as [|v r IH]; intros dn d H; cbn [count_loop].
  - exists d. split; auto. pose proof (ci_outs _ _ _ H) as E. rewrite app_nil_r in E. subst dn. auto.
  - destruct (step_ok dn v r d H) as (d1 & E1 & H1). rewrite E1. cbn [bind]. apply (IH _ _ H1).
Qed.
Lemma counts_ok : exists d, count_loop gs outs max outs (mkD (map (fun v => (v, [])) outs) []) = Ok d /\
  (forall v, In v outs -> exists c, aget v (d_counts d) = Some c /\ count_right v c) /\ (forall v c, aget v (d_counts d) = Some c -> In v outs).
Proof.
  destruct (loop_ok2 outs [] (mkD (map (fun v => (v, [])) outs) [])) as (d & E & [_ _ H1 H2]).
  - constructor; auto; cbn [d_sets d_counts].
    + intros u Hu. exists []. split; [|split; [constructor|split; [intros ? []|left; split; auto; intros ? ? ? []]]].
      clear -Hu. induction outs as [|y l IH]; [destruct Hu|]. cbn [map aget]. destruct (Nat.eqb_spec u y); auto. destruct Hu; [congruence|auto].
    + intros u [].
    + intros u c H. discriminate.
  - exists d. auto.
Qed.
End Count.
