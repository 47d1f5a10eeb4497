(** Cases for C55. *)
Require Import List Arith Bool NArith ZArith Lia Permutation.
Require Import Verif.Base Verif.Outcome Verif.CNFModel Verif.GateModel Verif.GateSpec Verif.GateMore Verif.ApproxModel Verif.ApproxSpec Verif.ARModel Verif.BranchModel
  Verif.SimProp Verif.GateCases Verif.HeurModel Verif.HeurSpec Verif.HeurProofs Verif.HeurRun Verif.HeurFilter.
Import ListNotations.
Open Scope nat_scope.

Lemma root_range p g l : wf_problem (variables p) (problem p) -> In l (root_lits p g) -> lvar l < variables p.
Proof.
  intros WF H. apply in_flat_map in H. destruct H as (c & _ & H). unfold cl in H. destruct (nth_in_or_default c (problem p) []) as [K|K]; [|rewrite K in H; destruct H].
  apply (WF _ K). auto.
Qed.

(** x0 = x1 and x2, x1 = x3 and x4, x2 = x4 and x5 and x6; x0 is the root *)
Definition hcase : list clause := [[0]; [1; 2]; [1; 4]; [0; 3; 5]; [3; 6]; [3; 8]; [2; 7; 9]; [5; 8]; [5; 10]; [5; 12]; [4; 9; 11; 13]].
Definition hcase_g : gproblem := match analyze patterns_only (mkCnf hcase 7) with Ok g => g | Err _ => gp_new 0 end.
Definition hcase_h : heur := mkHeur [[0]; [2]; [1]] 0.
Lemma hcase_dep x : In x [4; 5; 6] -> depends (gates hcase_g) 2 x.
Proof.
  intros H. assert (K : defined (gates hcase_g) x = false /\ exists i, In i (g_inp (nth 2 (gates hcase_g) gate_none)) /\ lvar i = x).
  { assert (E : g_inp (nth 2 (gates hcase_g) gate_none) = [8; 10; 12]) by (vm_compute; reflexivity). rewrite E.
    destruct H as [<-|[<-|[<-|[]]]]; (split; [vm_compute; reflexivity|]); [exists 8|exists 10|exists 12]; (split; [cbn; tauto|reflexivity]). }
  split; [apply K|]. exists 2. split; auto. apply K.
Qed.
Lemma hcase_ok : wf_problem 7 hcase /\ analyze patterns_only (mkCnf hcase 7) = Ok hcase_g /\ root_lits (mkCnf hcase 7) hcase_g = [0] /\
  h_new (gates hcase_g) [0] [3%N; 2%N] = Ok hcase_h /\ distinct_vars (concat [[2; 4]] ++ [0]) /\
  depends_on_more (gates hcase_g) 2 2 /\ gone (gates hcase_g) [0] [3%N; 2%N] 1 2 /\ ~ gone (gates hcase_g) [0] [3%N; 2%N] 0 2 /\
  (exists h s cs n, h_run 0 hcase_h (rs_new [[2; 4]] [0] 7) = Ok (h, s, cs, n) /\ n_enabled n = 2) /\
  (exists h s cs n, h_run 1 hcase_h (rs_new [[2; 4]] [0] 7) = Ok (h, s, cs, n) /\ n_enabled n = 0).
Proof.
  assert (WF : wf_problem 7 hcase) by (apply wf_check; vm_compute; reflexivity).
  assert (AN : analyze patterns_only (mkCnf hcase 7) = Ok hcase_g) by (vm_compute; reflexivity).
  assert (HN : h_new (gates hcase_g) [0] [3%N; 2%N] = Ok hcase_h) by (vm_compute; reflexivity).
  assert (G : forall k v, (exists i, i < S k /\ In v (nth i (h_sets hcase_h) [])) <-> gone (gates hcase_g) [0] [3%N; 2%N] k v).
  { destruct (h_new_ok patterns_only (mkCnf hcase 7) hcase_g [0] [3%N; 2%N] WF AN) as (h & E & _ & _ & _ & H).
    - intros l [<-|[]]. vm_compute. lia.
    - vm_compute. reflexivity.
    - rewrite HN in E. injection E as <-. auto. }
  split; [exact WF|]. split; [exact AN|]. split; [vm_compute; reflexivity|]. split; [exact HN|].
  split; [repeat constructor; cbn; intuition discriminate|].
  split; [exists [4; 5; 6]; split; [repeat constructor; cbn; intuition discriminate|split; [apply hcase_dep|reflexivity]]|].
  split; [apply G; exists 1; split; [lia|cbn; auto]|].
  split; [intros K; apply G in K; destruct K as (i & Hi & K); destruct i as [|i]; [cbn in K; intuition discriminate|lia]|].
  split; (do 4 eexists; split; [vm_compute; reflexivity|reflexivity]).
Qed.

(** the variable 0 is in a class and a backbone: it is taken out of the set of the step when the backbone is removed *)
Lemma shared_refuted : exists eqs bs next h h' s cs n a, conj_ok eqs bs next /\ h_new (gates hcase_g) [0] [3%N; 2%N] = Ok h /\
  h_run 0 h (rs_new eqs bs next) = Ok (h', s, cs, n) /\ respects (gone (gates hcase_g) [0] [3%N; 2%N] 0) eqs bs a /\
  ~ exists b, agree_below next b a /\ sat b cs /\ (forall l, In l (n_assume n) -> lit_holds b l).
Proof.
  exists [[0; 2; 4]], [0], 7, hcase_h. do 4 eexists. exists (fun v => negb (v =? 0)).
  split. { split; [repeat constructor; cbn; intuition discriminate|]. split; [repeat constructor; cbn; intuition discriminate|]. intros l H. cbn in H. repeat (destruct H as [<-|H]; [cbn; lia|]). destruct H. }
  split; [vm_compute; reflexivity|]. split; [vm_compute; reflexivity|]. split.
  - assert (G0 : gone (gates hcase_g) [0] [3%N; 2%N] 0 0).
    { destruct hcase_ok as (WF & AN & _ & HN & _). destruct (h_new_ok patterns_only (mkCnf hcase 7) hcase_g [0] [3%N; 2%N] WF AN) as (h & E & _ & _ & _ & H).
      - intros l [<-|[]]. vm_compute. lia.
      - vm_compute. reflexivity.
      - rewrite HN in E. injection E as <-. apply H. exists 0. split; [lia|cbn; auto]. }
    split.
    + intros ls x y [<-|[]] Hx Hy Nx Ny. destruct Hx as [<-|[<-|[<-|[]]]]; [destruct (Nx G0)| |]; (destruct Hy as [<-|[<-|[<-|[]]]]; [destruct (Ny G0)| |]); reflexivity.
    + intros l [<-|[]] Nl. destruct (Nl G0).
  - intros (b & A & S1 & S2). assert (C : sat_clause b [5; 0; 19]) by (apply S1; vm_compute; auto).
    assert (D : lit_holds b 18) by (apply S2; vm_compute; auto).
    assert (B2 : b 2 = true) by (rewrite (A 2) by lia; reflexivity). assert (B0 : b 0 = false) by (rewrite (A 0) by lia; reflexivity).
    unfold lit_holds, lit_val in D. change (lvar 18) with 9 in D. change (lsign 18) with false in D.
    destruct C as (l & Hl & C). unfold lit_holds, lit_val in C. cbn [In] in Hl. destruct Hl as [<-|[<-|[<-|[]]]].
    + change (lvar 5) with 2 in C. change (lsign 5) with true in C. rewrite B2 in C. discriminate.
    + change (lvar 0) with 0 in C. change (lsign 0) with false in C. rewrite B0 in C. discriminate.
    + change (lvar 19) with 9 in C. change (lsign 19) with true in C. destruct (b 9); discriminate.
Qed.
Lemma filter_case : filter_advice [fun v _ => (v =? 2)] false 0 [mkAdv [4; 6; 8; 5] false (Some [7; 8; 9; 10]%Z); mkAdv [6] true None; mkAdv [0] false None] =
  [mkAdv [8; 6] false (Some [9; 8; 9; 10]%Z); mkAdv [6] true None; mkAdv [] false None].
Proof. vm_compute. reflexivity. Qed.
