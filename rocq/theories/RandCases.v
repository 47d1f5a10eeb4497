(** Concrete cases of drawing inputs and of simulation runs. *)
Require Import List Arith Bool NArith Lia.
Require Import Verif.Base Verif.Outcome Verif.CNFModel Verif.GateModel Verif.GateSpec Verif.BranchSpec Verif.SimModel Verif.SimSpec Verif.SimCases Verif.RsilSpec.
Require Import Verif.RandModel Verif.RandSpec Verif.RandProofs Verif.RandRun.
Import ListNotations.

Definition zeros : vectors := repeat [0; 0]%N 5.
Definition hist_of (n : nat) : list vectors := match vectors_of 2 scase_ord default_rz zeros n with Ok (h, _) => h | Err _ => [] end.
Lemma direction_refuted : exists vs r, randomize_with 1 [0] (biased_rz 5 true) [[0%N]] = Ok (vs, r) /\ length (filter (fun j => sim_assignment vs j 0) (seq 0 64)) = 2.
Proof. eexists _, _. split; [vm_compute; reflexivity|vm_compute; reflexivity]. Qed.
Lemma default_ok : usable default_rz /\ map (documented_bias 1 5 1) (seq 0 8) = [1; 2; 3; 4; 5; 0; 1; 2]%N.
Proof. split; [cbn [usable default_rz alternate_rz cyclic_rz b_max]; split; [discriminate|split; reflexivity]|vm_compute; reflexivity]. Qed.
Lemma alternate_refuted K ins n a b p vs l r : (1 <= p)%N -> calls K ins n (alternate_rz a b p) vs = Ok (l, r) <-> exists a', calls K ins n a vs = Ok (l, a') /\ r = Alternating a' b p 0.
Proof.
  intros HP. unfold alternate_rz. rewrite alternating_calls by lia. split.
  - intros E. apply bind_ok in E. destruct E as ((l' & a') & E & E2). injection E2 as <- <-. exists a'. auto.
  - intros (a' & E & ->). rewrite E. reflexivity.
Qed.
(** what the documentation of the default asks for: calls 5 to 9 would go to the second strategy, whose first call has bias 1 *)
Lemma default_refuted : exists l r, calls 1 [0] 6 default_rz [[0%N]] = Ok (l, r) /\ r = Alternating (Biased (mkBiased (state_after 65535 16) 1 5 1 true 6)) (cyclic_rz 1 5 1 false) 5 0.
Proof. eexists _, _. split; [vm_compute; reflexivity|vm_compute; reflexivity]. Qed.
(** the remainder by max + 1 = 2^32 = 0, the quotient by a period of zero *)
Lemma undefined K ins vs : (forall v, In v ins -> v < length vs) -> NoDup ins -> randomize_with K ins (cyclic_rz 1 4294967295 1 true) vs = Err UB /\ randomize_with K ins (alternate_rz simple_rz simple_rz 0) vs = Err UB.
Proof. intros HB ND. split; [|reflexivity]. cbn [randomize_with cyclic_rz]. unfold biased_randomize. destruct (draw_all_ok K ins ND (b_state (mkBiased 65535 1 4294967295 1 true 0)) vs HB) as (v1 & E & _). rewrite E. reflexivity. Qed.

Lemma nc_all n : n <= 3 -> no_collisions 2 (outputs scase_ord) (hist_of n).
Proof.
  intros Hn. assert (EO : outputs scase_ord = [2; 1; 0]) by (vm_compute; reflexivity). rewrite EO.
  assert (W : forall n, n <= 3 -> forall vs, In vs (hist_of n) -> wf_vectors 2 5 vs).
  { intros m Hm vs Hv. assert (HF : forallb (vectors_okb 2 5) (hist_of m) = true) by (destruct m as [|[|[|[|m]]]]; [vm_compute; reflexivity|vm_compute; reflexivity|vm_compute; reflexivity|vm_compute; reflexivity|lia]). rewrite forallb_forall in HF. apply vectors_okb_ok. auto. }
  apply (nc_check_ok 2 5 [2; 1; 0] (hist_of n) (W n Hn)); [intros v [<-|[<-|[<-|[]]]]; lia|]. destruct n as [|[|[|[|n]]]]; [vm_compute; reflexivity|vm_compute; reflexivity|vm_compute; reflexivity|vm_compute; reflexivity|lia].
Qed.
(** 300 assignments take three rounds of 128; with two of them made and the time up, the next run continues with the third *)
Lemma run_case : (forall i h r, i <= 0 + 3 -> vectors_of 2 scase_ord default_rz zeros i = Ok (h, r) -> no_collisions 2 (outputs scase_ord) h) /\
  (exists st, run_steps 2 log_sched scase_ord (fun _ => true) (fun _ => false) 300 (fresh_sim default_rz zeros) = Ok (Conj [[5; 3; 1]] [], st) /\ m_vs st = last (hist_of 3) zeros) /\
  (exists st st', run_steps 2 log_sched scase_ord (fun _ => true) (fun k => k =? 1) 300 (fresh_sim default_rz zeros) = Ok (OutOfTime, st) /\ m_vs st = last (hist_of 2) zeros /\
     run_steps 2 log_sched scase_ord (fun _ => true) (fun _ => false) 100 st = Ok (Conj [[5; 3; 1]] [], st') /\ m_vs st' = last (hist_of 3) zeros) /\
  (exists st, run_open 2 log_sched scase_ord (fun _ => false) 20 (fresh_sim default_rz zeros) = Ok (Conj [[5; 3; 1]] [], st) /\ m_vs st = last (hist_of 12) zeros).
Proof.
  split; [intros i h r Hi E; pose proof (nc_all i ltac:(lia)) as H; unfold hist_of in H; rewrite E in H; exact H|].
  split; [eexists; split; [vm_compute; reflexivity|vm_compute; reflexivity]|]. split; [eexists _, _; split; [vm_compute; reflexivity|]; split; [vm_compute; reflexivity|]; split; [vm_compute; reflexivity|vm_compute; reflexivity]|].
  eexists. split; [vm_compute; reflexivity|vm_compute; reflexivity].
Qed.
Lemma cyclic_case : NoDup [3; 4] /\ (forall v, In v [3; 4] -> v < length zeros) /\ (exists l r, calls 2 [3; 4] 3 (cyclic_rz 1 5 1 false) zeros = Ok (l, r) /\ nth 3 (nth 2 l []) [] = drawn N.land 2 [3; 4] (state_after 65535 12) 3 3 /\
  nth 3 (nth 2 l []) [] = [11400286313250816; 4616224871146332673]%N).
Proof. split; [repeat constructor; cbn; intuition lia|]. split; [intros v [<-|[<-|[]]]; cbn; lia|]. eexists _, _. split; [vm_compute; reflexivity|]. split; vm_compute; reflexivity. Qed.
