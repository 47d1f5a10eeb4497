(** Where the solver with its restart policy fails, the solver with arbitrary restarts fails in the same way. *)
Require Import List Arith Bool NArith ZArith Lia.
Require Import Verif.Base Verif.Outcome Verif.ContainersModel Verif.TrailModel Verif.DbModel Verif.PropModel Verif.AnalyzeModel
  Verif.ReduceModel Verif.SolverModel Verif.SolverSpec Verif.RestartModel Verif.RestartSpec Verif.RestartProofs.
Import ListNotations.

Lemma bind_err {A B} (m : out A) (f : A -> out B) e : bind m f = Err e -> m = Err e \/ exists x, m = Ok x /\ f x = Err e.
Proof. destruct m as [x|e']; cbn [bind]; intros E; [right; eauto|left; congruence]. Qed.
Section Fail.
Variables (C : cfg) (O : oracle) (bl : N -> bool).
Definition from (a : nat) (f g : nat -> bool) : Prop := forall k, a <= k -> g k = f k.

Lemma rsearch_err fuel : forall q s e, QI q -> rsearch C O bl fuel q s = Err e ->
  exists f, forall g, from (sv_clk s) f g -> search C (with_restart g O) fuel s = Err e.
Proof.
  induction fuel as [|fu IH]; intros q s e HQ E; cbn [rsearch] in E; cbn [search].
  { injection E as <-. exists (fun _ => false). reflexivity. }
  apply bind_err in E. destruct E as [E|((((k & d) & w) & t) & E1 & E)]; [rewrite E; exists (fun _ => false); reflexivity|]. rewrite E1. cbn [bind]. destruct k as [c|].
  - destruct (dlevel t =? 0); [discriminate|].
    apply bind_err in E. destruct E as [E|((an & d0) & E2 & E)]; [rewrite E; exists (fun _ => false); reflexivity|]. rewrite E2. cbn [bind].
    destruct (process_ok bl (sv_conf s + 1) (N.of_nat (length (tr t))) (N.of_nat (an_lbd an)) q HQ) as (q1 & Eq & Q1 & _). rewrite Eq in E. cbn [bind] in E.
    apply bind_err in E. destruct E as [E|((c' & d2) & E3 & E)]; [rewrite E; exists (fun _ => false); reflexivity|]. rewrite E3. cbn [bind].
    apply bind_err in E. destruct E as [E|((b & t2) & E4 & E)]; [rewrite E; exists (fun _ => false); reflexivity|]. rewrite E4. cbn [bind].
    destruct (IH _ _ _ Q1 E) as (f & Hf). destruct (callback_same (an_learnt an) (with_log (sv_conf s + 1) (sv_log s) (core d2 (if 2 <? length (an_learnt an) then attachClause d2 c' w else w) t2 s))) as (_ & _ & _ & X & _).
    rewrite X in Hf. cbn [with_log core sv_clk] in Hf. exists f. exact Hf.
  - destruct (trigger_ok (sv_conf s) (o_restart O (sv_clk s)) q HQ) as (b & q1 & Eq & Q1 & _ & _ & Q4). rewrite Eq in E. cbn [bind] in E. cbn [with_restart o_restart o_pick]. destruct b; [discriminate|].
    destruct (assume_loop (S (length (assum t))) d t) as (ar, t1) eqn:EA.
    assert (Hnext : forall p, (t2 <- decide p (newDecisionLevel t1);; rsearch C O bl fu q1 (core d w t2 (core d w t1 (tick (core d w t s))))) = Err e ->
      exists f, forall g, from (sv_clk s) f g -> g (sv_clk s) = false /\
        (t2 <- decide p (newDecisionLevel t1);; search C (with_restart g O) fu (core d w t2 (core d w t1 (tick (core d w t s))))) = Err e).
    { intros p E5. apply bind_err in E5. destruct E5 as [E5|(t2 & E6 & E5)].
      - rewrite E5. exists (fun _ => false). intros g Hg. split; [apply (Hg (sv_clk s)); lia|reflexivity].
      - rewrite E6. cbn [bind]. destruct (IH _ _ _ Q1 E5) as (f & Hf). cbn [core tick sv_clk] in Hf. exists (fun k => if k =? sv_clk s then false else f k). intros g Hg. split.
        + rewrite (Hg (sv_clk s)) by lia. rewrite Nat.eqb_refl. auto.
        + apply Hf. intros k Hk. rewrite (Hg k) by lia. destruct (Nat.eqb_spec k (sv_clk s)); [lia|auto]. }
    destruct ar as [cs'|p|]; [discriminate| |].
    + destruct (Hnext p E) as (f & Hf). exists f. intros g Hg. destruct (Hf g Hg) as (G1 & G2). rewrite G1. exact G2.
    + destruct (pick (o_pick O (sv_clk s)) t1) as [p|]; [|discriminate]. destruct (Hnext p E) as (f & Hf). exists f. intros g Hg. destruct (Hf g Hg) as (G1 & G2). rewrite G1. exact G2.
Qed.
Lemma riter_err fuel q s e : QI q -> rsolve_iter C O bl fuel q s = Err e ->
  exists f, forall g, from (sv_clk s) f g -> solve_iter C (with_restart g O) fuel s = Err e.
Proof.
  unfold rsolve_iter, solve_iter. intros HQ E. apply bind_err in E. destruct E as [E|(s1 & E1 & E)].
  { exists (fun _ => false). intros g _. rewrite maintain_any, E. reflexivity. }
  assert (L1 : sv_clk (core (sv_d s) (sv_w s) (trail_reset (sv_t s)) s) <= sv_clk s1) by (exact (maintain_clk C O bl _ _ _ E1)). cbn [core sv_clk] in L1.
  apply bind_err in E. destruct E as [E|(((d & w) & t) & E2 & E)].
  { exists (fun _ => false). intros g _. rewrite maintain_any, E1. cbn [bind]. rewrite E. reflexivity. }
  destruct (empt d) eqn:Em; [discriminate|]. destruct (rsearch_err _ _ _ _ HQ E) as (f & Hf). cbn [core sv_clk] in Hf. exists f. intros g Hg.
  rewrite maintain_any, E1. cbn [bind]. rewrite E2. cbn [bind]. rewrite Em. apply Hf. intros k Hk. apply Hg. lia.
Qed.
Lemma rloop_err fuel n : forall q s e, QI q -> rsolve_loop C O bl n fuel q s = Err e ->
  exists f, forall g, from (sv_clk s) f g -> solve_loop C (with_restart g O) n fuel s = Err e.
Proof.
  induction n as [|n IH]; intros q s e HQ E; cbn [rsolve_loop] in E; cbn [solve_loop].
  { injection E as <-. exists (fun _ => false). reflexivity. }
  cbn [with_restart o_term]. destruct (o_term O (sv_clk s)) eqn:Et; [discriminate|].
  apply bind_err in E. destruct E as [E|((((r1 & cs1) & q1) & s1) & E1 & E)].
  { destruct (riter_err _ _ _ _ HQ E) as (f & Hf). cbn [tick sv_clk] in Hf. exists f. intros g Hg.
    change (mkOracle (o_term O) g (o_pick O) (o_ptr O) (o_vars O) (o_cands O)) with (with_restart g O). rewrite Hf; [reflexivity|]. intros k Hk. apply Hg. lia. }
  destruct (riter_iter C O bl _ _ _ _ _ _ _ E1) as (L1 & f1 & F1). cbn [tick sv_clk] in L1, F1. destruct (riter_policy C O bl _ _ _ _ _ _ _ HQ E1) as (Q1 & _).
  destruct r1 as [b|]; [discriminate|]. destruct (IH _ _ _ Q1 E) as (f2 & F2). exists (fun k => if k <? sv_clk s1 then f1 k else f2 k). intros g Hg.
  change (mkOracle (o_term O) g (o_pick O) (o_ptr O) (o_vars O) (o_cands O)) with (with_restart g O). rewrite F1.
  - cbn [bind]. apply F2. intros k Hk. rewrite (Hg k) by lia. destruct (Nat.ltb_spec k (sv_clk s1)); [lia|auto].
  - intros k Hk. rewrite (Hg k) by lia. destruct (Nat.ltb_spec k (sv_clk s1)); [auto|lia].
Qed.
Lemma rsolve_err fuel q s e : QI q -> rsolve C O bl fuel q s = Err e -> exists f, solve C (with_restart f O) fuel s = Err e.
Proof.
  unfold rsolve, solve. intros HQ E. apply bind_err in E. destruct E as [E|(s1 & E1 & E)]; [exists (fun _ => false); rewrite start_any, E; reflexivity|].
  apply bind_err in E. destruct E as [E|((((r & cs) & q2) & s2) & E2 & E)].
  { destruct (empt (sv_d s1)) eqn:Em; [discriminate|]. destruct (rloop_err _ _ _ _ _ HQ E) as (f & Hf). exists f. rewrite start_any, E1. cbn [bind]. rewrite Em. rewrite Hf; [reflexivity|]. intros k _. auto. }
  apply bind_err in E. destruct E as [E|((x1 & s3) & E3 & E)]; [|discriminate]. destruct (empt (sv_d s1)) eqn:Em.
  - injection E2 as <- <- <- <-. exists (fun _ => false). rewrite start_any, E1. cbn [bind]. rewrite Em. cbn [bind]. exact E.
  - destruct (rloop_loop C O bl _ _ _ _ _ _ _ _ E2) as (L & f & Hf). exists f. rewrite start_any, E1. cbn [bind]. rewrite Em. rewrite Hf; [exact E|]. intros k _. auto.
Qed.
End Fail.
