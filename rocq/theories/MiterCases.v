(** Cases for C56. *)
Require Import List Arith Bool Lia Permutation.
Require Import Verif.Base Verif.Outcome Verif.CNFModel Verif.GateModel Verif.GateSpec Verif.GateMore Verif.GateCases Verif.SimProp Verif.HeurModel Verif.MiterModel Verif.MiterSpec Verif.MiterProofs.
Import ListNotations.
Open Scope nat_scope.

(** x0 = x1 xor x2 is the root, x1 = x3 and x4, x2 = x3 and x4 *)
Definition mcase : list clause := [[0]; [1; 2; 4]; [1; 3; 5]; [0; 2; 5]; [0; 3; 4]; [3; 6]; [3; 8]; [2; 7; 9]; [5; 6]; [5; 8]; [4; 7; 9]].
Definition mcase_g : gproblem := match analyze patterns_only (mkCnf mcase 5) with Ok g => g | Err _ => gp_new 0 end.
Lemma mcase_ok : wf_problem 5 mcase /\ analyze patterns_only (mkCnf mcase 5) = Ok mcase_g /\ root_lits (mkCnf mcase 5) mcase_g = [0] /\
  hasPossiblyMiterStructure (@rev var) mcase (gates mcase_g) [0] = Ok true /\ miter_like mcase (gates mcase_g) [0] /\ border (gates mcase_g) [0] 0 /\
  g_out (nth 0 (gates mcase_g) gate_none) = Some 0 /\ two_input_variables (gates mcase_g) 0 /\ xor_clauses mcase (nth 0 (gates mcase_g) gate_none) /\ inputs_of (gates mcase_g) 0 = [2; 3; 4; 5].
Proof.
  assert (WF : wf_problem 5 mcase) by (apply wf_check; vm_compute; reflexivity).
  assert (AN : analyze patterns_only (mkCnf mcase 5) = Ok mcase_g) by (vm_compute; reflexivity).
  assert (ML : miter_like mcase (gates mcase_g) [0]).
  { destruct (miter_ok patterns_only (mkCnf mcase 5) mcase_g [0] (fun l => l) WF AN (fun l => Permutation_refl l)) as (b & E & K). apply K. vm_compute in E. injection E as <-. reflexivity. }
  assert (BD : border (gates mcase_g) [0] 0).
  { split; [apply (rg_root (gates mcase_g) [0] 0); [left; auto|split; vm_compute; reflexivity]|]. exists 2. split; [vm_compute; tauto|]. intros R.
    assert (M : forall v, region (gates mcase_g) [0] v -> monotonous (gates mcase_g) v) by (intros v [l _ H|u i _ _ H]; auto). destruct (M _ R) as (_ & E). vm_compute in E. discriminate. }
  split; [exact WF|]. split; [exact AN|]. split; [vm_compute; reflexivity|]. split; [vm_compute; reflexivity|]. split; [exact ML|]. split; [exact BD|]. split; [vm_compute; reflexivity|].
  destruct ML as (_ & _ & T & _). split; [apply (T 0 BD)|]. split; [|vm_compute; reflexivity].
  exists 1, 2, [1; 2; 4; 3; 5]. split; [vm_compute; reflexivity|]. split; [reflexivity|]. split; [reflexivity|]. split; [repeat constructor; cbn; intuition discriminate|]. split; [reflexivity|].
  intros l. cbn. intuition.
Qed.

(** x0 = x1 or x2 or x3 is the root, x1 = x4 and x5, x2 = not x4 and x6, x3 = not x5 and not x6, x4 = x7 and x8 *)
Definition tcase : list clause :=
  [[0]; [1; 2; 4; 6]; [0; 3]; [0; 5]; [0; 7]; [3; 8]; [3; 10]; [2; 9; 11]; [5; 9]; [5; 12]; [4; 8; 13]; [7; 11]; [7; 13]; [6; 10; 12]; [9; 14]; [9; 16]; [8; 15; 17]].
Definition tcase_g : gproblem := match analyze patterns_only (mkCnf tcase 9) with Ok g => g | Err _ => gp_new 0 end.
Lemma tcase_border v : border (gates tcase_g) [0] v -> v = 1 \/ v = 2 \/ v = 3.
Proof.
  assert (WF : wf_problem 9 tcase) by (apply wf_check; vm_compute; reflexivity).
  assert (AN : analyze patterns_only (mkCnf tcase 9) = Ok tcase_g) by (vm_compute; reflexivity).
  destruct (border_ok (gates tcase_g) [0]) as (es & bd & E1 & E2 & _ & B & _).
  - intros u o E. apply (gates_left_total patterns_only (mkCnf tcase 9) tcase_g u o WF AN E).
  - apply (analyze_acyclic patterns_only (mkCnf tcase 9) tcase_g WF AN).
  - vm_compute in E1. injection E1 as <-. vm_compute in E2. injection E2 as <-. intros H. apply B in H. cbn in H. intuition.
Qed.
Lemma pairs_refuted : exists p g, wf_problem (variables p) (problem p) /\ analyze patterns_only p = Ok g /\
  (forall order, (forall l, Permutation (order l) l) -> hasPossiblyMiterStructure order (problem p) (gates g) (root_lits p g) = Ok true) /\
  (forall v, border (gates g) (root_lits p g) v -> ~ xor_clauses (problem p) (nth v (gates g) gate_none)) /\
  (forall u v, border (gates g) (root_lits p g) u -> border (gates g) (root_lits p g) v ->
     (forall i, In i (inputs_of (gates g) u) -> exists j, In j (inputs_of (gates g) v) /\ lvar j = lvar i) -> u = v).
Proof.
  exists (mkCnf tcase 9), tcase_g. assert (WF : wf_problem 9 tcase) by (apply wf_check; vm_compute; reflexivity).
  assert (AN : analyze patterns_only (mkCnf tcase 9) = Ok tcase_g) by (vm_compute; reflexivity).
  assert (RL : root_lits (mkCnf tcase 9) tcase_g = [0]) by (vm_compute; reflexivity). rewrite RL. cbn [problem variables].
  split; [exact WF|]. split; [exact AN|]. split.
  - intros order HO. destruct (miter_ok patterns_only (mkCnf tcase 9) tcase_g [0] order WF AN HO) as (b & E & K).
    destruct (miter_ok patterns_only (mkCnf tcase 9) tcase_g [0] (fun l => l) WF AN (fun l => Permutation_refl l)) as (b' & E' & K'). vm_compute in E'. injection E' as <-.
    cbn [problem] in E. rewrite E. f_equal. apply K, K'. reflexivity.
  - split.
    + intros v Hv (c1 & c2 & ls & H1 & H2 & _). apply tcase_border in Hv. destruct Hv as [->|[->| ->]]; vm_compute in H1; injection H1 as <- <-; discriminate.
    + intros u v Hu Hv H. apply tcase_border in Hu. apply tcase_border in Hv.
      assert (I1 : inputs_of (gates tcase_g) 1 = [8; 10]) by (vm_compute; reflexivity). assert (I2 : inputs_of (gates tcase_g) 2 = [9; 12]) by (vm_compute; reflexivity). assert (I3 : inputs_of (gates tcase_g) 3 = [11; 13]) by (vm_compute; reflexivity).
      destruct Hu as [->|[->| ->]], Hv as [->|[->| ->]]; auto; exfalso; rewrite ?I1, ?I2, ?I3 in H;
        [destruct (H 10) as (j & J1 & J2)|destruct (H 8) as (j & J1 & J2)|destruct (H 12) as (j & J1 & J2)|destruct (H 9) as (j & J1 & J2)|destruct (H 13) as (j & J1 & J2)|destruct (H 11) as (j & J1 & J2)];
        (try (cbn [In]; auto; fail)); cbn [In] in J1; destruct J1 as [<-|[<-|[]]]; vm_compute in J2; discriminate.
Qed.
(** isBinaryXORGate alone: o implies (a or b) and (c or d) *)
Lemma xor_test_refuted : exists cs g, isBinaryXORGate cs g = true /\ g_out g = Some 0 /\
  forall a b, lvar a <> lvar b -> exists x, lit_holds x 0 /\ holds cs x (g_fwd g) /\ xorb (lit_val x a) (lit_val x b) = false.
Proof.
  exists [[1; 2; 4]; [1; 6; 8]], (mkGate (Some 0) [0; 1] [] false [2; 4; 6; 8]). split; [reflexivity|]. split; [reflexivity|]. intros a b NE. cbn [g_fwd].
  assert (X : forall u w, lvar u <> lvar w -> lvar w <> 0 -> exists x, lit_holds x 0 /\ holds [[1; 2; 4]; [1; 6; 8]] x [0; 1] /\ xorb (lit_val x u) (lit_val x w) = false).
  { intros u w N W. exists (fun v => if v =? lvar w then xorb (negb (lsign u)) (lsign w) else true). split.
    - unfold lit_holds, lit_val. change (lvar 0) with 0. destruct (Nat.eqb_spec 0 (lvar w)); [congruence|reflexivity].
    - split.
      + intros c [<-|[<-|[]]]; unfold sat_clause, lit_holds, lit_val; change (cl [[1; 2; 4]; [1; 6; 8]] 0) with [1; 2; 4]; change (cl [[1; 2; 4]; [1; 6; 8]] 1) with [1; 6; 8].
        * destruct (Nat.eqb_spec 1 (lvar w)) as [E|E]; [exists 4|exists 2]; (split; [cbn; auto|]); cbn -[Nat.eqb lvar]; [change (lvar 4) with 2; rewrite <- E|change (lvar 2) with 1; apply Nat.eqb_neq in E; rewrite E]; reflexivity.
        * destruct (Nat.eqb_spec 3 (lvar w)) as [E|E]; [exists 8|exists 6]; (split; [cbn; auto|]); cbn -[Nat.eqb lvar]; [change (lvar 8) with 4; rewrite <- E|change (lvar 6) with 3; apply Nat.eqb_neq in E; rewrite E]; reflexivity.
      + unfold lit_val. rewrite Nat.eqb_refl. apply Nat.eqb_neq in N. rewrite N. destruct (lsign u), (lsign w); reflexivity. }
  destruct (Nat.eq_dec (lvar b) 0) as [E|E]; [|apply (X a b NE E)].
  assert (NA : lvar a <> 0) by congruence. destruct (X b a (fun H => NE (eq_sym H)) NA) as (x & H1 & H2 & H3). exists x. split; auto. split; auto. rewrite xorb_comm. auto.
Qed.
