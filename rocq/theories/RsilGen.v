Require Import List Arith Bool NArith ZArith Lia Permutation.
Require Import Verif.Base Verif.Outcome Verif.CNFModel Verif.CNFProofs Verif.TrailModel Verif.GateModel Verif.GateSpec Verif.GateMore Verif.HeurModel Verif.MiterModel Verif.MiterSpec Verif.MiterProofs.
Require Import Verif.BranchModel Verif.BranchSpec Verif.BranchProofs Verif.SimModel Verif.SimSpec Verif.SimProp Verif.SimCases Verif.RsilModel Verif.RsilSpec.
Import ListNotations.

(** ** Filters *)
Lemma nodup_filter_concat (f : list lit -> bool) rest : forall cls, NoDup (map lvar (concat cls ++ rest)) -> NoDup (map lvar (concat (filter f cls) ++ rest)).
Proof.
  induction cls as [|c cls IH]; intros H; auto. cbn [concat filter] in *. rewrite <- app_assoc, map_app in H.
  assert (HT : NoDup (map lvar (concat cls ++ rest))) by (clear - H; induction (map lvar c); auto; cbn in H; inversion H; auto).
  specialize (IH HT). destruct (f c); auto. cbn [concat]. rewrite <- app_assoc, map_app.
  induction (map lvar c) as [|x r IHr]; auto. cbn [app] in *. inversion H as [|? ? H1 H2]; subst. constructor; auto. intros X. apply H1. apply in_app_or in X. apply in_or_app. destruct X as [X|X]; auto. right.
  rewrite map_app in *. apply in_app_or in X. apply in_or_app. destruct X as [X|X]; auto. left. apply in_map_iff in X. destruct X as (l & <- & X). apply in_map. apply in_concat in X. destruct X as (d & X1 & X2). apply filter_In in X1. apply in_concat. exists d. split; [apply X1|auto].
Qed.
Lemma filtered_spec mx nb cls bbs cls' bbs' : filtered mx nb (cls, bbs) = (cls', bbs') ->
  (forall c, In c cls' <-> In c cls /\ (0 < mx -> length c <= mx)) /\ (forall l, In l bbs' <-> In l bbs /\ nb = false) /\
  (forall n, good_conjectures n cls bbs -> good_conjectures n cls' bbs').
Proof.
  unfold filtered, size_filter, backbone_filter. intros E.
  assert (A : cls' = (if 0 <? mx then filter (fun c => length c <=? mx) cls else cls) /\ bbs' = if nb then [] else bbs) by (destruct (0 <? mx), nb; cbn [fst snd] in E; inversion E; auto).
  destruct A as [-> ->]. clear E. split; [|split].
  - intros c. destruct (Nat.ltb_spec 0 mx) as [H|H].
    + rewrite filter_In, Nat.leb_le. intuition.
    + split; [intros X; split; [exact X|intros; lia]|intros [X _]; exact X].
  - intros l. destruct nb; cbn; intuition discriminate.
  - intros n [HN HR].
    assert (G : good_conjectures n (if 0 <? mx then filter (fun c => length c <=? mx) cls else cls) bbs).
    { destruct (0 <? mx); [|split; auto]. split; [apply nodup_filter_concat; auto|]. intros l Hl. apply HR. apply in_app_or in Hl. apply in_or_app. destruct Hl as [Hl|Hl]; auto. left.
      apply in_concat in Hl. destruct Hl as (d & X1 & X2). apply filter_In in X1. apply in_concat. exists d. split; [apply X1|auto]. }
    destruct nb; auto. destruct G as [G1 G2]. split.
    + rewrite app_nil_r. rewrite map_app in G1. clear - G1. induction (map lvar (concat _)) as [|z r IH]; [constructor|]. cbn in G1. inversion G1 as [|? ? H1 H2]; subst. constructor; auto. intros X. apply H1, in_or_app. auto.
    + intros l Hl. rewrite app_nil_r in Hl. apply G2, in_or_app; auto.
Qed.

(** ** The whole generation *)
Section Gen.
Variables (o : rsil_opts) (cfg : config) (ord_f : list var -> list var) (K : nat) (sched : nat -> bool) (fills : list (var -> vec)) (init : vectors) (p : cnf) (g : gproblem).
Hypothesis WF : wf_problem (variables p) (problem p).
Hypothesis AN : analyze cfg p = Ok g.
Hypothesis OR : forall l, Permutation (ord_f l) l.
Hypothesis SM : simulable K fills init p g.

Lemma outputs_range ord v : readGates None (problem p) (gates g) (root_lits p g) = Ok ord -> In v (outputs ord) -> v < variables p.
Proof.
  intros E Hv. destruct (order_correct cfg p g WF AN) as (ord' & E' & _ & O2 & _). rewrite E in E'. injection E' as <-.
  apply O2, reach_defined in Hv. unfold defined in Hv. destruct (g_out (nth v (gates g) gate_none)) as [l|] eqn:EO; [|discriminate].
  destruct (gates_ok cfg p g v l WF AN EO) as (_ & H & _). auto.
Qed.
Lemma generate_ok : exists r ord hist cls bbs, generateConjectures o cfg ord_f K sched fills init p = Ok r /\
  readGates None (problem p) (gates g) (root_lits p g) = Ok ord /\ sim_steps K ord fills init = Ok hist /\
  (forall l, In l bbs <-> In (lvar l) (outputs ord) /\ always K hist l) /\
  (forall l m, In (lvar l) (outputs ord) -> In (lvar m) (outputs ord) -> lvar l <> lvar m ->
     (alike K hist l m <-> (exists c, In c cls /\ ((In l c /\ In m c) \/ (In (lneg l) c /\ In (lneg m) c))) \/
                           (In l bbs /\ In m bbs) \/ (In (lneg l) bbs /\ In (lneg m) bbs))) /\
  (forall c, In c cls -> 2 <= length c /\ forall l, In l c -> In (lvar l) (outputs ord)) /\
  match r with
  | Some (cls', bbs') => simulation_wanted o p g (miter_like (problem p) (gates g) (root_lits p g)) /\
      (forall c, In c cls' <-> In c cls /\ (0 < ro_max o -> length c <= ro_max o)) /\ (forall l, In l bbs' <-> In l bbs /\ ro_nobb o = false) /\
      (cls' <> [] \/ bbs' <> []) /\ good_conjectures (variables p) cls' bbs'
  | None => ~ simulation_wanted o p g (miter_like (problem p) (gates g) (root_lits p g)) \/
      ((forall c, In c cls -> 0 < ro_max o < length c) /\ (bbs = [] \/ ro_nobb o = true))
  end.
Proof.
  destruct SM as (HK & HF & HC & HO). destruct (order_correct cfg p g WF AN) as (ord & E & _). destruct (HO ord E) as (O1 & O2 & O3 & O4).
  destruct (run_correct cfg p g WF AN K sched ord fills init HK HC E O1 HF O2 O3 O4) as (hist & cls & bbs & R1 & R2 & R3 & R4 & R5 & R6 & R7).
  assert (ES : sim_steps K ord fills init = Ok hist). { unfold run in R1. apply bind_ok in R1. destruct R1 as (h & E1 & R1). apply bind_ok in R1. destruct R1 as ([? ?] & _ & R1). apply bind_ok in R1. destruct R1 as (? & _ & R1). inversion R1; subst. auto. }
  destruct (miter_ok cfg p g (root_lits p g) ord_f WF AN OR) as (b & EM & MI).
  assert (GC : good_conjectures (variables p) cls bbs).
  { destruct R7 as [G1 G2]. split; auto. intros l Hl. apply (outputs_range ord); auto. apply in_app_or in Hl. destruct Hl as [Hl|Hl]; [|apply R4; auto]. apply in_concat in Hl. destruct Hl as (c & X1 & X2). apply (proj2 (R6 c X1)). auto. }
  assert (GEN : generateConjectures o cfg ord_f K sched fills init p = (if ro_gate_timeout o then Ok None else if gate_count g * ro_den o <=? ro_num o * variables p then Ok None else
     ok <- (if ro_miters o then Ok b else Ok true) ;; if negb ok then Ok None else if ro_sim_timeout o then Ok None else Ok (match filtered (ro_max o) (ro_nobb o) (cls, bbs) with ([], []) => None | _ => Some (filtered (ro_max o) (ro_nobb o) (cls, bbs)) end))).
  { unfold generateConjectures. rewrite AN. cbn [bind]. fold (root_lits p g). rewrite EM, E. cbn [bind]. rewrite R1. reflexivity. }
  destruct (filtered (ro_max o) (ro_nobb o) (cls, bbs)) as [cls' bbs'] eqn:EF. rewrite ?EF in GEN. destruct (filtered_spec _ _ _ _ _ _ EF) as (F1 & F2 & F3).
  assert (FIN : forall r, r = (if ro_gate_timeout o then Ok None else if gate_count g * ro_den o <=? ro_num o * variables p then Ok None else
     ok <- (if ro_miters o then Ok b else Ok true) ;; if negb ok then Ok None else if ro_sim_timeout o then Ok None else Ok (match (cls', bbs') with ([], []) => None | _ => Some (cls', bbs') end)) ->
     exists x, r = Ok x /\ match x with
  | Some (cls', bbs') => simulation_wanted o p g (miter_like (problem p) (gates g) (root_lits p g)) /\
      (forall c, In c cls' <-> In c cls /\ (0 < ro_max o -> length c <= ro_max o)) /\ (forall l, In l bbs' <-> In l bbs /\ ro_nobb o = false) /\
      (cls' <> [] \/ bbs' <> []) /\ good_conjectures (variables p) cls' bbs'
  | None => ~ simulation_wanted o p g (miter_like (problem p) (gates g) (root_lits p g)) \/
      ((forall c, In c cls -> 0 < ro_max o < length c) /\ (bbs = [] \/ ro_nobb o = true))
  end).
  { intros r ->. unfold simulation_wanted. destruct (ro_gate_timeout o); [exists None; split; auto; left; intros [X _]; discriminate|].
    destruct (Nat.leb_spec (gate_count g * ro_den o) (ro_num o * variables p)); [exists None; split; auto; left; intros (_ & X & _); lia|].
    assert (EB : (if ro_miters o then Ok b else Ok true) = Ok (if ro_miters o then b else true)) by (destruct (ro_miters o); auto). rewrite EB. cbn [bind].
    destruct (if ro_miters o then b else true) eqn:EB2; cbn [negb].
    2:{ exists None. split; auto. left. intros (_ & _ & X & _). destruct (ro_miters o); [|discriminate]. specialize (X eq_refl). apply MI in X. congruence. }
    assert (MO : ro_miters o = true -> miter_like (problem p) (gates g) (root_lits p g)) by (intros X; rewrite X in EB2; apply MI; auto).
    destruct (ro_sim_timeout o); [exists None; split; auto; left; intros (_ & _ & _ & X); discriminate|].
    assert (DEC : (cls' = [] /\ bbs' = []) \/ (cls' <> [] \/ bbs' <> [])) by (destruct cls', bbs'; [left; auto|right; right; discriminate|right; left; discriminate|right; left; discriminate]).
    destruct DEC as [[-> ->]|DEC].
    - exists None. split; auto. right. split.
      + intros c Hc. destruct (Nat.eq_dec (ro_max o) 0) as [Z|Z]; [exfalso; apply (proj2 (F1 c)); split; auto; lia|].
        destruct (Nat.le_gt_cases (length c) (ro_max o)) as [L|L]; [exfalso; apply (proj2 (F1 c)); auto|]. lia.
      + destruct (ro_nobb o); auto. left. destruct bbs as [|l r]; auto. exfalso. apply (proj2 (F2 l)). split; auto. left; auto.
    - exists (Some (cls', bbs')). split.
      + destruct cls', bbs'; auto. destruct DEC as [X|X]; contradiction.
      + split; [auto|]. split; [exact F1|]. split; [exact F2|]. split; [exact DEC|]. apply F3. exact GC. }
  destruct (FIN _ eq_refl) as (x & EX & HX). exists x, ord, hist, cls, bbs. split.
  { rewrite GEN. exact EX. }
  split; [auto|]. split; [auto|]. split; [auto|]. split; [auto|]. split; [|exact HX]. intros c Hc. destruct (R6 c Hc) as [H1 H2]. split; auto. intros l Hl. apply H2; auto.
Qed.
End Gen.

(** ** Helpers of Conjectures.cc *)
Lemma foldmax_ge : forall (ls : list lit) r, r <= fold_left (fun r l => Nat.max r (lvar l)) ls r /\ (forall l, In l ls -> lvar l <= fold_left (fun r l => Nat.max r (lvar l)) ls r) /\
  (fold_left (fun r l => Nat.max r (lvar l)) ls r = r \/ exists l, In l ls /\ lvar l = fold_left (fun r l => Nat.max r (lvar l)) ls r).
Proof.
  induction ls as [|l ls IH]; intros r; cbn [fold_left]; [split; [auto|split; [intros l []|auto]]|].
  destruct (IH (Nat.max r (lvar l))) as (H1 & H2 & H3). split; [lia|]. split.
  - intros k [<-|Hk]; [lia|auto].
  - destruct H3 as [H3|(k & Hk & H3)]; [|right; exists k; split; [right|]; auto]. rewrite H3. destruct (Nat.max_dec r (lvar l)) as [E|E]; rewrite E; [auto|right; exists l; split; [left|]; auto].
Qed.
Lemma max_var cls bbs : (forall l, In l (concat cls ++ bbs) -> lvar l <= getMaxVar (cls, bbs)) /\
  (getMaxVar (cls, bbs) = 0 \/ exists l, In l (concat cls ++ bbs) /\ lvar l = getMaxVar (cls, bbs)).
Proof.
  unfold getMaxVar. cbn [fst snd].
  assert (G : forall cls r, r <= fold_left (fun r cls => fold_left (fun r l => Nat.max r (lvar l)) cls r) cls r /\ (forall l, In l (concat cls) -> lvar l <= fold_left (fun r cls => fold_left (fun r l => Nat.max r (lvar l)) cls r) cls r) /\
    (fold_left (fun r cls => fold_left (fun r l => Nat.max r (lvar l)) cls r) cls r = r \/ exists l, In l (concat cls) /\ lvar l = fold_left (fun r cls => fold_left (fun r l => Nat.max r (lvar l)) cls r) cls r)).
  { clear. induction cls as [|c cls IH]; intros r; cbn [fold_left concat]; [split; [auto|split; [intros l []|auto]]|].
    destruct (foldmax_ge c r) as (A1 & A2 & A3). destruct (IH (fold_left (fun r l => Nat.max r (lvar l)) c r)) as (H1 & H2 & H3). split; [lia|]. split.
    - intros l Hl. apply in_app_or in Hl. destruct Hl as [Hl|Hl]; [specialize (A2 l Hl); lia|auto].
    - destruct H3 as [H3|(k & Hk & H3)]; [|right; exists k; split; [apply in_or_app|]; auto]. rewrite H3. destruct A3 as [A3|(k & Hk & A3)]; [left; auto|right; exists k; split; [apply in_or_app; auto|auto]]. }
  destruct (foldmax_ge bbs 0) as (B1 & B2 & B3). destruct (G cls (fold_left (fun r l => Nat.max r (lvar l)) bbs 0)) as (H1 & H2 & H3). split.
  - intros l Hl. apply in_app_or in Hl. destruct Hl as [Hl|Hl]; [auto|]. specialize (B2 l Hl). lia.
  - destruct H3 as [H3|(k & Hk & H3)]; [|right; exists k; split; [apply in_or_app|]; auto]. rewrite H3. destruct B3 as [B3|(k & Hk & B3)]; [left; auto|right; exists k; split; [apply in_or_app; auto|auto]].
Qed.
Lemma pairs_length {B} (l : list B) : 2 * length (pairs_of l) = length l * length l - length l.
Proof. induction l as [|x l IH]; auto. cbn [pairs_of]. rewrite app_length, map_length. cbn [length]. nia. Qed.
Lemma count_equivalences cls bbs : countLiteralEquivalences (cls, bbs) = length (flat_map pairs_of cls).
Proof.
  unfold countLiteralEquivalences. cbn [fst].
  assert (G : forall cls r, fold_left (fun r (c : list lit) => r + (length c * length c - length c) / 2) cls r = r + length (flat_map pairs_of cls)).
  { clear. induction cls as [|c cls IH]; intros r; cbn [fold_left flat_map]; [cbn; lia|]. rewrite IH, app_length, <- pairs_length, Nat.mul_comm, Nat.div_mul by lia. lia. }
  apply G.
Qed.
