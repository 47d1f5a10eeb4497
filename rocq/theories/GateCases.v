(** Concrete problems for the theorems about gates. *)
Require Import List Arith Bool NArith Lia.
Require Import Verif.Base Verif.Outcome Verif.CNFModel Verif.GateModel Verif.GateSpec Verif.BlockMore Verif.GatePat Verif.GateMore Verif.DfsProofs.
Import ListNotations.

Definition bcase : list clause := [[0; 3]; [0; 5]; [1; 2; 4]; [0; 6]; [1; 6]].
Lemma bcase_wf : wf_problem 4 bcase.
Proof. apply wf_check. reflexivity. Qed.
Lemma bcase_ok :
  let ops := [BNum 0; BRemove [4]; BSet 0; BMin; BStrip 0; BNum 1] in
  wf_problem 4 bcase /\ Forall (bop_ok bcase 4) ops /\ history bcase ops [0; 1; 2] /\
  fst (getNumBlocked bcase 0 (block_state bcase 4 [])) = 0%N /\
  fst (isBlockedSet bcase 0 (block_state bcase 4 [BNum 0; BRemove [4]])) = false /\
  fst (stripUnblockedClauses bcase 0 (block_state bcase 4 [BNum 0; BRemove [4]])) = [3] /\
  fst (isBlockedSet bcase 0 (block_state bcase 4 ops)) = true.
Proof.
  cbv zeta. split; [apply bcase_wf|]. split; [repeat first [apply Forall_nil | apply Forall_cons]; cbn [bop_ok]; try lia; auto; intros c [<-|[]]; cbn; lia|]. split; [|vm_compute; auto].
  assert (H3 : history bcase [BNum 0; BRemove [4]; BSet 0; BMin] [0; 1; 2; 3]).
  { change [BNum 0; BRemove [4]; BSet 0; BMin] with ((([] ++ [BNum 0]) ++ [BRemove [4]]) ++ [BSet 0] ++ [BMin]). rewrite app_assoc. apply h_min, h_set. apply (h_remove _ _ _ (seq 0 5)); [apply h_num; apply h_nil|repeat constructor; cbn; lia|]. intros c. cbn. lia. }
  change [BNum 0; BRemove [4]; BSet 0; BMin; BStrip 0; BNum 1] with (([BNum 0; BRemove [4]; BSet 0; BMin] ++ [BStrip 0]) ++ [BNum 1]). apply h_num. apply (h_strip _ _ _ _ _ H3); [repeat constructor; cbn; lia|].
  assert (HF : Forall (bop_ok bcase 4) [BNum 0; BRemove [4]; BSet 0; BMin]) by (repeat first [apply Forall_nil | apply Forall_cons]; cbn [bop_ok]; try lia; auto; intros c [<-|[]]; cbn; lia).
  destruct (strip_spec bcase 4 bcase_wf _ _ 0 H3 HF ltac:(lia)) as (_ & HS).
  assert (E : fst (stripUnblockedClauses bcase 0 (brun bcase 4 [BNum 0; BRemove [4]; BSet 0; BMin])) = [3]) by (vm_compute; auto). rewrite E in HS. clear E.
  destruct (history_inv bcase 4 bcase_wf _ _ H3 HF) as (HI & _).
  intros c. split.
  - intros Hc. assert (Hc4 : In c [0; 1; 2; 3]) by (cbn in Hc |- *; lia). split; auto. intros Ho. apply (blocked_iff bcase 4 bcase_wf _ _ 0 c HI Ho). cbn in Hc. destruct Hc as [<-|[<-|[<-|[]]]]; [vm_compute; auto|vm_compute; auto|]. cbn in Ho. lia.
  - intros (Hc & HB). cbn in Hc. destruct Hc as [<-|[<-|[<-|[<-|[]]]]]; cbn; auto. exfalso. destruct (proj1 (HS 3) (or_introl eq_refl)) as (_ & Ho & HN). apply HN, HB. auto.
Qed.

Definition patterns_only : config := mkCfg 0 true false false (fun _ => false) (fun _ _ => false).
(** unit x, x = o xor y, o = a and b, and two stray clauses *)
Definition acase : list clause := [[0]; [1; 2; 4]; [1; 3; 5]; [0; 2; 5]; [0; 3; 4]; [3; 6]; [3; 8]; [2; 7; 9]; [10; 13]; [11; 13]].
Lemma acase_wf : wf_problem 7 acase.
Proof. apply wf_check. reflexivity. Qed.
Lemma acase_ok : wf_problem 7 acase /\ exists g, analyze patterns_only (mkCnf acase 7) = Ok g /\
  roots g = [0; 9] /\ map (fun gt => (g_out gt, g_fwd gt, g_bwd gt, g_notMono gt)) (firstn 2 (gates g)) = [(Some 0, [1; 2], [3; 4], false); (Some 2, [5; 6], [7], true)] /\ gate_count g = 3 /\
  exists g1, analyze (mkCfg 1 true false false (fun _ => false) (fun _ _ => false)) (mkCnf acase 7) = Ok g1 /\ roots g1 = [0] /\ remainder g1 = [8; 9].
Proof. split; [apply acase_wf|]. eexists. split; [vm_compute; reflexivity|]. split; auto. split; auto. split; auto. eexists. split; [vm_compute; reflexivity|]. auto. Qed.
Lemma acase_functional : exists g, analyze patterns_only (mkCnf acase 7) = Ok g /\ let gt := nth 1 (gates g) gate_none in
  g_notMono gt = true /\ functional acase 2 (gate_clauses gt).
Proof.
  destruct acase_ok as (WF & g & E & _). exists g. split; auto. cbv zeta.
  assert (HG : g_out (nth 1 (gates g) gate_none) = Some 2 /\ g_notMono (nth 1 (gates g) gate_none) = true /\ length (g_fwd (nth 1 (gates g) gate_none)) = 2 /\ length (g_bwd (nth 1 (gates g) gate_none)) = 1) by (vm_compute in E; injection E as <-; cbn; auto).
  destruct HG as (H1 & H2 & H3 & H4). split; auto. destruct (gates_functional patterns_only (mkCnf acase 7) g 1 2 WF E H1 H2) as [H|(H & _)]; auto; [intros k f H; discriminate|intros _ HL; rewrite H3, H4 in HL; discriminate|discriminate].
Qed.
(** x = o xor y and eight clauses with the output o over the inputs a, b, c that the pattern test takes for a complete table *)
Definition odd_gate : list clause :=
  [[0]; [1; 2; 4]; [1; 3; 5]; [0; 2; 5]; [0; 3; 4];
   [3; 6; 8; 10]; [3; 6; 8; 11]; [3; 7; 9; 11]; [3; 6; 8];
   [2; 6; 9; 10]; [2; 6; 9; 11]; [2; 6; 9]; [2; 7; 8; 10]].
Lemma pattern_refuted : exists g, analyze patterns_only (readClauses cnf_empty odd_gate) = Ok g /\
  let p := readClauses cnf_empty odd_gate in
  let gt := nth 1 (gates g) gate_none in
  wf_problem (variables p) (problem p) /\ g_out gt = Some 2 /\ g_notMono gt = true /\
  exists x, holds (problem p) (make_true x 2) (gate_clauses gt) /\ holds (problem p) (make_true x (lneg 2)) (gate_clauses gt).
Proof.
  eexists. split; [vm_compute; reflexivity|]. cbv zeta. split; [apply wf_check; vm_compute; reflexivity|]. split; auto. split; auto. exists (fun v => match v with 3 => true | 5 => true | _ => false end). split; intros c Hc; apply sat_clauseb_spec; cbn in Hc; repeat (destruct Hc as [<-|Hc]; [vm_compute; reflexivity|]); destruct Hc.
Qed.

(** a diamond: 0 = f(1, 2), 1 = f(3, 4), 2 = f(3), 3 = f(5) *)
Definition dcase : list gate :=
  [mkGate (Some 0) [] [] false [2; 4]; mkGate (Some 2) [] [] false [6; 8]; mkGate (Some 4) [] [] false [7]; mkGate (Some 6) [] [] false [10]; gate_none; gate_none].
Lemma dcase_child u v : child (fun _ => false) dcase u v -> u < v.
Proof. intros (_ & _ & i & Hi & <-). destruct u as [|[|[|[|[|[|u]]]]]]; cbn in Hi; try (destruct u; destruct Hi); repeat (destruct Hi as [<-|Hi]; [cbn; lia|]); destruct Hi. Qed.
Lemma dcase_path u v : path (fun _ => false) dcase u v -> u < v.
Proof. induction 1 as [u v H|u v w H Hp IH]; apply dcase_child in H; lia. Qed.
Lemma dcase_ok : in_range dcase [0] /\ acyclic (fun _ => false) dcase /\ getTopoOrder dcase [0] = Ok [3; 2; 1; 0] /\
  exists es, traverseDFS (fun v => v =? 1) dcase [0] = Ok es /\ backtracked es = [3; 2; 0] /\ input_vars es = [5].
Proof.
  split; [split|].
  - intros l [<-|[]]. cbn. lia.
  - intros g l Hg Hl. cbn in Hg. repeat (destruct Hg as [<-|Hg]; [cbn in Hl; repeat (destruct Hl as [<-|Hl]; [cbn; lia|]); destruct Hl|]). destruct Hg.
  - split; [intros v H; apply dcase_path in H; lia|]. split; [vm_compute; auto|]. eexists. split; [vm_compute; reflexivity|]. auto.
Qed.
