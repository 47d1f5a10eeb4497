(** C71: the distribution of distances. *)
Require Import List Arith Bool QArith.
Require Import Verif.Base Verif.Outcome Verif.DistModel Verif.DistSpec Verif.DistProps Verif.DistriModel Verif.DistriSpec Verif.DistriProofs.
Import ListNotations.
Open Scope nat_scope.

(** Without sampling: entry k is the number of pairs of nodes at distance k. *)
Theorem C71_distribution : forall n adj s rs, closed n adj -> 2 <= n -> (s == 1)%Q ->
  exists r, distanceDistribution n adj s rs = Ok r /\ length r = n /\ forall k, k < n -> pairs_at n adj k (nth k r 0).
Proof. exact distribution_ok. Qed.
Print Assumptions C71_distribution.
(** The average is the sum of the distances of the pairs with a walk between them, divided by the number of all pairs of different nodes. *)
Theorem C71_average : forall n adj s rs, closed n adj -> 2 <= n -> (s == 1)%Q ->
  exists T, total_distance n adj T /\ averageDistance n adj s rs = Ok (Some (qn T / (qn n * (qn n - 1)))%Q).
Proof. exact average_ok. Qed.
Print Assumptions C71_average.
(** Sampling: the first source is the number of nodes itself, which is no node; the search writes outside its array. *)
Theorem C71_sample_refuted : forall n adj s rs, 2 <= n -> (~ (1 <= s)%Q /\ (1 <= qn n * s)%Q) \/ ((1 < s)%Q /\ (s < qn n)%Q) -> distanceDistribution n adj s rs = Err UB.
Proof.
  exact (fun n adj s rs H C => match C with or_introl (conj A B) => sampled_ub n adj s rs H A B | or_intror (conj A B) => sampled_ub_count n adj s rs H A B end).
Qed.
Print Assumptions C71_sample_refuted.
(** A sample as large as the graph is not sampled, but the numbers are still divided by its size: the two pairs at distance 1 of a single edge
    are reported as one. *)
Theorem C71_full_sample_refuted : exists n adj s, closed n adj /\ 2 <= n /\ (s == qn n)%Q /\
  forall rs, distanceDistribution n adj s rs = Ok [1; 1] /\ pairs_at n adj 1 2.
Proof.
  exists 2, (fun x => nth x [[1]; [0]] []), 2%Q. assert (CL : closed 2 (fun x => nth x [[1]; [0]] [])).
  { intros x y H Hy. destruct x as [|[|x]]; cbn in Hy; [| |do 2 apply Nat.succ_lt_mono in H; inversion H]; destruct Hy as [<-|[]]; repeat constructor. }
  split; auto. split; auto. split; [reflexivity|]. intros rs. split; [reflexivity|]. destruct (C71_distribution 2 _ 1%Q [] CL (le_n 2) (Qeq_refl 1)) as (r & E & _ & P). vm_compute in E. injection E as <-. apply (P 1). auto.
Qed.
Print Assumptions C71_full_sample_refuted.
Example C71_case : closed 7 dgraph /\ distanceDistribution 7 dgraph 1 [] = Ok [7; 8; 11; 9; 3; 0; 0] /\ averageDistance 7 dgraph 1 [] = Ok (Some (qn 69 / (qn 7 * (qn 7 - 1)))%Q).
Proof. split; [apply C70_case|]. split; vm_compute; reflexivity. Qed.
Print Assumptions C71_case.
