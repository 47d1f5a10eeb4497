(** The solver with its restart policy: the policy never fails, and the solver is one whose restarts are arbitrary. *)
Require Import List Arith Bool NArith ZArith Lia.
From Coq Require Import ZifyBool ZifyNat ZifyN.
Require Import Verif.Base Verif.Outcome Verif.ContainersModel Verif.ContainersSpec Verif.ContainersProofs Verif.TrailModel Verif.DbModel Verif.PropModel Verif.AnalyzeModel
  Verif.ReduceModel Verif.SolverModel Verif.SolverSpec Verif.RestartModel Verif.RestartSpec.
Import ListNotations.

(** ** The policy *)
Definition QI (q : rst) : Prop := bq_inv (lbdQ q) /\ bq_inv (trailQ q).
Definition cap (q : rst) : nat := length (elems (lbdQ q)).
Definition fill (q : rst) : nat := queuesize (lbdQ q).
Lemma clear_inv b : bq_inv b -> bq_inv (bq_fastclear b).
Proof. intros (H1 & H2 & _). unfold bq_inv, bq_window; cbn [first last queuesize sumofqueue elems bq_fastclear]. split; auto. split; [lia|]. destruct (Nat.eqb_spec 0 (length (elems b))); [lia|]. split; [right; lia|reflexivity]. Qed.
Lemma push_size x b : bq_inv b -> exists b', bq_push x b = Some b' /\ bq_inv b' /\ length (elems b') = length (elems b) /\ 0 < queuesize b' /\ queuesize b' <= S (queuesize b).
Proof.
  intros H. destruct (bq_push_inv x b H) as (b' & E & H' & L & W). exists b'. split; auto. split; auto. split; auto.
  assert (X := bq_window_length b' H'). assert (Y := bq_window_length b H). rewrite W, app_length in X. cbn [length] in X.
  assert (Z : length (if length (elems b) <? S (length (bq_window b)) then tl (bq_window b) else bq_window b) <= length (bq_window b)).
  { destruct (_ <? _); auto. destruct (bq_window b); cbn; lia. }
  lia.
Qed.
Lemma process_ok bl conf size lbd q : QI q -> exists q', process_conflict bl conf size lbd q = Ok q' /\ QI q' /\ cap q' = cap q /\ fill q' <= S (fill q).
Proof.
  intros (H1 & H2). unfold process_conflict. destruct (push_size size (trailQ q) H2) as (tq & E1 & T1 & T2 & T3 & T4). rewrite E1. cbn [defined bind].
  assert (HA : bq_getavg tq <> None) by (unfold bq_getavg; destruct (Nat.eqb_spec (queuesize tq) 0); [lia|discriminate]).
  assert (G : forall b, bq_inv b -> length (elems b) = cap q -> queuesize b <= fill q ->
    exists q', (lq <- defined (bq_push lbd b) ;; Ok (mkRst lq tq)) = Ok q' /\ QI q' /\ cap q' = cap q /\ fill q' <= S (fill q)).
  { intros b B1 B2 B3. destruct (push_size lbd b B1) as (lq & E2 & L1 & L2 & L3 & L4). rewrite E2. cbn [defined bind]. exists (mkRst lq tq). split; auto. split; [split; auto|].
    unfold cap, fill in *. cbn [lbdQ]. lia. }
  destruct ((10000 <? conf)%N && bq_isvalid (lbdQ q)).
  - destruct (bq_getavg tq) as [a|]; [|congruence]. cbn [defined bind]. destruct (bl conf).
    + apply G; [apply clear_inv; auto|reflexivity|cbn [bq_fastclear queuesize]; unfold fill; lia].
    + apply G; auto.
  - cbn [bind]. apply G; auto.
Qed.
Lemma trigger_ok conf large q : QI q -> exists b q', trigger_restart conf large q = Ok (b, q') /\ QI q' /\ cap q' = cap q /\
  (b = true -> fill q = cap q /\ fill q' = 0) /\ (b = false -> q' = q).
Proof.
  intros (H1 & H2). unfold trigger_restart. destruct ((0 <? conf)%N && bq_isvalid (lbdQ q)) eqn:E.
  - apply andb_true_iff in E. destruct E as (_ & E). apply Nat.eqb_eq in E. unfold bq_getavg.
    destruct (Nat.eqb_spec (queuesize (lbdQ q)) 0) as [Z|Z]; [destruct H1; lia|]. cbn [defined bind]. destruct large.
    + exists true, (mkRst (bq_fastclear (lbdQ q)) (trailQ q)). split; auto. split; [split; auto; cbn [lbdQ]; apply clear_inv; auto|]. split; auto.
      split; [|discriminate]. intros _. split; auto.
    + exists false, q. split; auto. split; [split; auto|]. split; auto. split; [discriminate|]. auto.
  - exists false, q. split; auto. split; [split; auto|]. split; auto. split; [discriminate|]. auto.
Qed.
Lemma new_QI nl nt : 1 <= nl -> 1 <= nt -> QI (rst_new nl nt) /\ cap (rst_new nl nt) = nl /\ fill (rst_new nl nt) = 0.
Proof.
  intros H1 H2. split; [split; apply bq_new_inv; auto|]. split; [|reflexivity]. unfold cap. cbn. apply repeat_length.
Qed.

(** ** The clock *)
Lemma callback_same ls s : sv_d (ipasir_callback ls s) = sv_d s /\ sv_w (ipasir_callback ls s) = sv_w s /\ sv_t (ipasir_callback ls s) = sv_t s /\
  sv_clk (ipasir_callback ls s) = sv_clk s /\ sv_conf (ipasir_callback ls s) = sv_conf s /\ sv_calls (ipasir_callback ls s) = sv_calls s /\ sv_nb (ipasir_callback ls s) = sv_nb s /\ sv_e (ipasir_callback ls s) = sv_e s.
Proof. unfold ipasir_callback. destruct (sv_cb s); [destruct (_ <=? _)%Z|]; cbn; tauto. Qed.
Section Refine.
Variables (C : cfg) (O : oracle) (bl : N -> bool).
Definition agree (a b : nat) (f g : nat -> bool) : Prop := forall k, a <= k < b -> g k = f k.

Lemma simp_loop_clk fuel : forall k num max d w t s e k' d' w' t' e', simp_loop C O fuel k num max d w t s e = Ok (k', d', w', t', e') -> k <= k'.
Proof.
  induction fuel as [|f IH]; intros k num max d w t s e k' d' w' t' e' E; cbn [simp_loop] in E; [discriminate|].
  destruct ((max <? 10 * num) && negb (o_term O k)); [|injection E as <- <- <- <- <-; lia].
  apply bind_ok in E. destruct E as ((((((b & d1) & w1) & t1) & s1) & e1) & E1 & E). destruct b; [apply IH in E; lia|]. injection E as <- <- <- <- <-. lia.
Qed.
Lemma process_clk fuel s s' : processClauseDatabase C O fuel s = Ok s' -> sv_clk s <= sv_clk s'.
Proof.
  unfold processClauseDatabase. intros E. apply bind_ok in E. destruct E as (((((k & d) & w) & t) & e) & E1 & E). injection E as <-. cbn [sv_clk].
  apply simp_loop_clk in E1. exact E1.
Qed.
Lemma maintain_clk fuel s s' : maintain C O fuel s = Ok s' -> sv_clk s <= sv_clk s'.
Proof.
  unfold maintain. destruct (trigger_reduce _ _ _ _) as (b, nb). destruct b; [|intros E; injection E as <-; cbn; lia]. intros E.
  apply bind_ok in E. destruct E as (s1 & E1 & E). injection E as <-. cbn [core sv_clk]. destruct ((0 <? c_inproc C)%N && _).
  - apply process_clk in E1. exact E1.
  - destruct (reduce _ _ _ _) as (inc, d). injection E1 as <-. cbn. lia.
Qed.
Lemma start_clk fuel s s' : solve_start C O fuel s = Ok s' -> sv_clk s <= sv_clk s'.
Proof.
  unfold solve_start. intros E. apply bind_ok in E. destruct E as (((cor & e1) & t1) & E1 & E). apply bind_ok in E. destruct E as ((d1 & w1) & E2 & E).
  destruct (c_pre C); [|injection E as <-; cbn; lia]. apply bind_ok in E. destruct E as (s2 & E3 & E). injection E as <-. apply process_clk in E3. exact E3.
Qed.
Lemma maintain_any f fuel s : maintain C (with_restart f O) fuel s = maintain C O fuel s.
Proof. reflexivity. Qed.
Lemma start_any f fuel s : solve_start C (with_restart f O) fuel s = solve_start C O fuel s.
Proof. reflexivity. Qed.

(** ** Refinement *)
Lemma rsearch_search fuel : forall q s r cs q' s', rsearch C O bl fuel q s = Ok (r, cs, q', s') ->
  sv_clk s <= sv_clk s' /\ exists f, forall g, agree (sv_clk s) (sv_clk s') f g -> search C (with_restart g O) fuel s = Ok (r, cs, s').
Proof.
  induction fuel as [|fu IH]; intros q s r cs q' s' E; cbn [rsearch] in E; [discriminate|]. cbn [search].
  apply bind_ok in E. destruct E as ((((k & d) & w) & t) & E1 & E). rewrite E1. cbn [bind]. destruct k as [c|].
  - destruct (dlevel t =? 0).
    { injection E as <- <- <- <-. split; [cbn; lia|]. exists (fun _ => false). auto. }
    apply bind_ok in E. destruct E as ((an & d0) & E2 & E). rewrite E2. cbn [bind].
    apply bind_ok in E. destruct E as (q1 & Eq & E). apply bind_ok in E. destruct E as ((c' & d2) & E3 & E). rewrite E3. cbn [bind].
    apply bind_ok in E. destruct E as ((b & t2) & E4 & E). rewrite E4. cbn [bind].
    destruct (IH _ _ _ _ _ _ E) as (L & f & Hf). destruct (callback_same (an_learnt an) (with_log (sv_conf s + 1) (sv_log s) (core d2 (if 2 <? length (an_learnt an) then attachClause d2 c' w else w) t2 s))) as (_ & _ & _ & X & _).
    rewrite X in L, Hf. cbn [with_log core sv_clk] in L, Hf. split; auto. exists f. auto.
  - apply bind_ok in E. destruct E as ((b & q1) & Eq & E). cbn [with_restart o_restart o_pick]. destruct b.
    { injection E as <- <- <- <-. split; [cbn; lia|]. exists (fun _ => true). intros g Hg. rewrite (Hg (sv_clk s)) by (cbn; lia). reflexivity. }
    destruct (assume_loop (S (length (assum t))) d t) as (ar, t1) eqn:EA.
    assert (Hend : forall rr, (rr = (r, cs, q', s')) -> sv_clk (snd rr) = S (sv_clk s) -> sv_clk s <= sv_clk s' /\ exists f, forall g, agree (sv_clk s) (sv_clk s') f g -> g (sv_clk s) = false).
    { intros rr -> Hrr. cbn [snd] in Hrr. split; [lia|]. exists (fun _ => false). intros g Hg. apply (Hg (sv_clk s)). lia. }
    assert (Hnext : forall p, (t2 <- decide p (newDecisionLevel t1);; rsearch C O bl fu q1 (core d w t2 (core d w t1 (tick (core d w t s))))) = Ok (r, cs, q', s') ->
      sv_clk s <= sv_clk s' /\ exists f, forall g, agree (sv_clk s) (sv_clk s') f g -> g (sv_clk s) = false /\
        (t2 <- decide p (newDecisionLevel t1);; search C (with_restart g O) fu (core d w t2 (core d w t1 (tick (core d w t s))))) = Ok (r, cs, s')).
    { intros p E5. apply bind_ok in E5. destruct E5 as (t2 & E6 & E5). rewrite E6. cbn [bind]. destruct (IH _ _ _ _ _ _ E5) as (L & f & Hf).
      cbn [core tick sv_clk] in L, Hf. split; [lia|]. exists (fun k => if k =? sv_clk s then false else f k). intros g Hg. split.
      - rewrite (Hg (sv_clk s)) by lia. rewrite Nat.eqb_refl. auto.
      - apply Hf. intros k Hk. rewrite (Hg k) by lia. destruct (Nat.eqb_spec k (sv_clk s)); [lia|auto]. }
    destruct ar as [cs'|p|].
    + destruct (Hend (Some false, cs', q1, core d w t1 (tick (core d w t s)))) as (L & f & Hf); [injection E as <- <- <- <-; auto|reflexivity|].
      split; auto. exists f. intros g Hg. rewrite (Hf g Hg). injection E as <- <- <- <-. reflexivity.
    + destruct (Hnext p E) as (L & f & Hf). split; auto. exists f. intros g Hg. destruct (Hf g Hg) as (G1 & G2). rewrite G1. exact G2.
    + destruct (pick (o_pick O (sv_clk s)) t1) as [p|].
      * destruct (Hnext p E) as (L & f & Hf). split; auto. exists f. intros g Hg. destruct (Hf g Hg) as (G1 & G2). rewrite G1. exact G2.
      * destruct (Hend (Some true, [], q1, core d w t1 (tick (core d w t s)))) as (L & f & Hf); [injection E as <- <- <- <-; auto|reflexivity|].
        split; auto. exists f. intros g Hg. rewrite (Hf g Hg). injection E as <- <- <- <-. reflexivity.
Qed.
Lemma riter_iter fuel q s r cs q' s' : rsolve_iter C O bl fuel q s = Ok (r, cs, q', s') ->
  sv_clk s <= sv_clk s' /\ exists f, forall g, agree (sv_clk s) (sv_clk s') f g -> solve_iter C (with_restart g O) fuel s = Ok (r, cs, s').
Proof.
  unfold rsolve_iter, solve_iter. intros E. apply bind_ok in E. destruct E as (s1 & E1 & E). assert (L1 := maintain_clk _ _ _ E1). cbn [core sv_clk] in L1.
  apply bind_ok in E. destruct E as (((d & w) & t) & E2 & E).
  destruct (empt d) eqn:Em.
  - injection E as <- <- <- <-. split; [cbn; lia|]. exists (fun _ => false). intros g _. rewrite maintain_any, E1. cbn [bind]. rewrite E2. cbn [bind]. rewrite Em. reflexivity.
  - destruct (rsearch_search _ _ _ _ _ _ _ E) as (L & f & Hf). cbn [core sv_clk] in L, Hf. split; [lia|]. exists f. intros g Hg.
    rewrite maintain_any, E1. cbn [bind]. rewrite E2. cbn [bind]. rewrite Em. apply Hf. intros k Hk. apply Hg. lia.
Qed.
Lemma rloop_loop fuel n : forall q s r cs q' s', rsolve_loop C O bl n fuel q s = Ok (r, cs, q', s') ->
  sv_clk s <= sv_clk s' /\ exists f, forall g, agree (sv_clk s) (sv_clk s') f g -> solve_loop C (with_restart g O) n fuel s = Ok (r, cs, s').
Proof.
  induction n as [|n IH]; intros q s r cs q' s' E; cbn [rsolve_loop] in E; [discriminate|]. cbn [solve_loop]. cbn [with_restart o_term].
  destruct (o_term O (sv_clk s)) eqn:Et.
  { injection E as <- <- <- <-. split; [cbn; lia|]. exists (fun _ => false). auto. }
  apply bind_ok in E. destruct E as ((((r1 & cs1) & q1) & s1) & E1 & E). destruct (riter_iter _ _ _ _ _ _ _ E1) as (L1 & f1 & F1). cbn [tick sv_clk] in L1, F1.
  destruct r1 as [b|].
  - injection E as <- <- <- <-. split; [lia|]. exists f1. intros g Hg. change (mkOracle (o_term O) g (o_pick O) (o_ptr O) (o_vars O) (o_cands O)) with (with_restart g O).
    rewrite F1; [reflexivity|]. intros k Hk. apply Hg. lia.
  - destruct (IH _ _ _ _ _ _ E) as (L2 & f2 & F2). split; [lia|]. exists (fun k => if k <? sv_clk s1 then f1 k else f2 k). intros g Hg.
    change (mkOracle (o_term O) g (o_pick O) (o_ptr O) (o_vars O) (o_cands O)) with (with_restart g O). rewrite F1.
    + cbn [bind]. apply F2. intros k Hk. rewrite (Hg k) by lia. destruct (Nat.ltb_spec k (sv_clk s1)); [lia|auto].
    + intros k Hk. rewrite (Hg k) by lia. destruct (Nat.ltb_spec k (sv_clk s1)); [auto|lia].
Qed.
Lemma rsolve_solve fuel q s x q' s' : rsolve C O bl fuel q s = Ok (x, q', s') -> exists f, solve C (with_restart f O) fuel s = Ok (x, s').
Proof.
  unfold rsolve, solve. intros E. apply bind_ok in E. destruct E as (s1 & E1 & E). apply bind_ok in E. destruct E as ((((r & cs) & q2) & s2) & E2 & E).
  apply bind_ok in E. destruct E as ((x1 & s3) & E3 & E). injection E as <- <- <-.
  destruct (empt (sv_d s1)) eqn:Em.
  - injection E2 as <- <- <- <-. exists (fun _ => false). rewrite start_any, E1. cbn [bind]. rewrite Em. exact E3.
  - destruct (rloop_loop _ _ _ _ _ _ _ _ E2) as (L & f & Hf). exists f. rewrite start_any, E1. cbn [bind]. rewrite Em. rewrite Hf; [exact E3|]. intros k _. auto.
Qed.

(** ** The policy during a run *)
Lemma rsearch_policy fuel : forall q s r cs q' s', QI q -> rsearch C O bl fuel q s = Ok (r, cs, q', s') ->
  QI q' /\ cap q' = cap q /\ (sv_conf s <= sv_conf s')%N /\
  (r = None -> fill q' = 0 /\ (N.of_nat (cap q) <= N.of_nat (fill q) + (sv_conf s' - sv_conf s))%N).
Proof.
  induction fuel as [|fu IH]; intros q s r cs q' s' HQ E; cbn [rsearch] in E; [discriminate|].
  apply bind_ok in E. destruct E as ((((k & d) & w) & t) & E1 & E). destruct k as [c|].
  - destruct (dlevel t =? 0).
    { injection E as <- <- <- <-. cbn. split; auto. split; auto. split; [lia|discriminate]. }
    apply bind_ok in E. destruct E as ((an & d0) & E2 & E).
    apply bind_ok in E. destruct E as (q1 & Eq & E). apply bind_ok in E. destruct E as ((c' & d2) & E3 & E).
    apply bind_ok in E. destruct E as ((b & t2) & E4 & E).
    destruct (process_ok bl (sv_conf s + 1) (N.of_nat (length (tr t))) (N.of_nat (an_lbd an)) q HQ) as (q1' & Eq' & Q1 & Q2 & Q3). rewrite Eq in Eq'. injection Eq' as <-.
    destruct (IH _ _ _ _ _ _ Q1 E) as (I1 & I2 & I3 & I4). destruct (callback_same (an_learnt an) (with_log (sv_conf s + 1) (sv_log s) (core d2 (if 2 <? length (an_learnt an) then attachClause d2 c' w else w) t2 s))) as (_ & _ & _ & _ & X & _).
    rewrite X in I3, I4. cbn [with_log sv_conf] in I3, I4. split; auto. split; [congruence|]. split; [lia|]. intros Hr. destruct (I4 Hr) as (I5 & I6). split; auto. lia.
  - apply bind_ok in E. destruct E as ((b & q1) & Eq & E).
    destruct (trigger_ok (sv_conf s) (o_restart O (sv_clk s)) q HQ) as (b' & q1' & Eq' & Q1 & Q2 & Q3 & Q4). rewrite Eq in Eq'. injection Eq' as <- <-. destruct b.
    { injection E as <- <- <- <-. split; auto. split; auto. split; [cbn; lia|]. intros _. destruct (Q3 eq_refl). split; auto. lia. }
    assert (q1 = q) by auto. subst q1.
    destruct (assume_loop (S (length (assum t))) d t) as (ar, t1) eqn:EA.
    assert (Hnext : forall p, (t2 <- decide p (newDecisionLevel t1);; rsearch C O bl fu q (core d w t2 (core d w t1 (tick (core d w t s))))) = Ok (r, cs, q', s') ->
      QI q' /\ cap q' = cap q /\ (sv_conf s <= sv_conf s')%N /\
      (r = None -> fill q' = 0 /\ (N.of_nat (cap q) <= N.of_nat (fill q) + (sv_conf s' - sv_conf s))%N)).
    { intros p E5. apply bind_ok in E5. destruct E5 as (t2 & E6 & E5). exact (IH _ _ _ _ _ _ HQ E5). }
    destruct ar as [cs'|p|].
    + injection E as <- <- <- <-. split; auto. split; auto. split; [cbn; lia|discriminate].
    + exact (Hnext p E).
    + destruct (pick (o_pick O (sv_clk s)) t1) as [p|]; [exact (Hnext p E)|]. injection E as <- <- <- <-. split; auto. split; auto. split; [cbn; lia|discriminate].
Qed.
Lemma process_conf fuel s s' : processClauseDatabase C O fuel s = Ok s' -> sv_conf s' = sv_conf s.
Proof. unfold processClauseDatabase. intros E. apply bind_ok in E. destruct E as (((((k & d) & w) & t) & e) & E1 & E). injection E as <-. reflexivity. Qed.
Lemma maintain_conf fuel s s' : maintain C O fuel s = Ok s' -> sv_conf s' = sv_conf s.
Proof.
  unfold maintain. destruct (trigger_reduce _ _ _ _) as (b, nb). destruct b; [|intros E; injection E as <-; reflexivity]. intros E.
  apply bind_ok in E. destruct E as (s1 & E1 & E). injection E as <-. cbn [core sv_conf]. destruct ((0 <? c_inproc C)%N && _).
  - apply process_conf in E1. exact E1.
  - destruct (reduce _ _ _ _) as (inc, d). injection E1 as <-. reflexivity.
Qed.
Lemma riter_policy fuel q s r cs q' s' : QI q -> rsolve_iter C O bl fuel q s = Ok (r, cs, q', s') ->
  QI q' /\ cap q' = cap q /\ (sv_conf s <= sv_conf s')%N /\
  (r = None -> fill q' = 0 /\ (N.of_nat (cap q) <= N.of_nat (fill q) + (sv_conf s' - sv_conf s))%N).
Proof.
  unfold rsolve_iter. intros HQ E. apply bind_ok in E. destruct E as (s1 & E1 & E). assert (L1 := maintain_conf _ _ _ E1). cbn [core sv_conf] in L1.
  apply bind_ok in E. destruct E as (((d & w) & t) & E2 & E). destruct (empt d).
  - injection E as <- <- <- <-. cbn [core sv_conf]. split; auto. split; auto. split; [lia|discriminate].
  - apply rsearch_policy in E; auto. cbn [core sv_conf] in E. rewrite L1 in E. exact E.
Qed.
Lemma rloop_policy fuel n : forall q s r cs q' s', QI q -> rsolve_loop C O bl n fuel q s = Ok (r, cs, q', s') -> QI q' /\ cap q' = cap q /\ (sv_conf s <= sv_conf s')%N.
Proof.
  induction n as [|n IH]; intros q s r cs q' s' HQ E; cbn [rsolve_loop] in E; [discriminate|].
  destruct (o_term O (sv_clk s)) eqn:Et.
  { injection E as <- <- <- <-. cbn. split; auto. split; auto. lia. }
  apply bind_ok in E. destruct E as ((((r1 & cs1) & q1) & s1) & E1 & E). destruct (riter_policy _ _ _ _ _ _ _ HQ E1) as (A1 & A2 & A3 & _). cbn [tick sv_conf] in A3.
  destruct r1 as [b|]; [injection E as <- <- <- <-; auto|]. destruct (IH _ _ _ _ _ _ A1 E) as (B1 & B2 & B3). split; auto. split; [congruence|lia].
Qed.
Lemma rsolve_policy fuel q s x q' s' : QI q -> rsolve C O bl fuel q s = Ok (x, q', s') -> QI q' /\ cap q' = cap q.
Proof.
  unfold rsolve. intros HQ E. apply bind_ok in E. destruct E as (s1 & E1 & E). apply bind_ok in E. destruct E as ((((r & cs) & q2) & s2) & E2 & E).
  apply bind_ok in E. destruct E as ((x1 & s3) & E3 & E). injection E as <- <- <-. destruct (empt (sv_d s1)); [injection E2 as <- <- <- <-; auto|].
  apply rloop_policy in E2; tauto.
Qed.
End Refine.

(** ** Histories *)
Lemma rreach_sreach C nl nt F q s : rreach C nl nt F q s -> sreach C problem_op F s.
Proof.
  intros H. induction H as [|F q s n cs s' H IH H1 H2|F q s ls H IH H1|F q s cb H IH|F q s O bl fuel x q' s' H IH E].
  - apply sr_new.
  - apply (sr_init C problem_op F s n cs true s' IH); auto. reflexivity.
  - apply (sr_assume C problem_op F s ls IH); auto. exact I.
  - apply (sr_callback C problem_op F s cb IH). exact I.
  - destruct (rsolve_solve C O bl fuel q s x q' s' E) as (f & Ef). apply (sr_solve C problem_op F s (with_restart f O) fuel x s' IH); auto. exact I.
Qed.
Lemma rreach_QI C nl nt F q s : 1 <= nl -> 1 <= nt -> rreach C nl nt F q s -> QI q /\ cap q = nl.
Proof.
  intros H1 H2 H. induction H as [|F q s n cs s' H IH H3 H4|F q s ls H IH H3|F q s cb H IH|F q s O bl fuel x q' s' H IH E]; auto.
  - destruct (new_QI nl nt H1 H2) as (A & B & _). auto.
  - destruct IH as (A & B). destruct (rsolve_policy C O bl fuel q s x q' s' A E). split; auto. congruence.
Qed.
