(** Proofs about the heuristic that counts input dependencies: its steps in a refinement strategy. *)
Require Import List Arith Bool NArith ZArith Lia Permutation.
Require Import Verif.Base Verif.Outcome Verif.CNFModel Verif.GateModel Verif.GateSpec Verif.GateProofs Verif.GateMore Verif.ApproxModel Verif.ApproxSpec
  Verif.ApproxLemmas Verif.ApproxProofs Verif.ApproxMore Verif.ApproxRefine Verif.ApproxTags Verif.ApproxRun Verif.ARModel Verif.BranchModel Verif.HeurModel Verif.HeurSpec Verif.HeurProofs.
Import ListNotations.
Open Scope nat_scope.

Lemma nd_left {A} (a b : list A) : NoDup (a ++ b) -> NoDup a.
Proof. induction a as [|x a IH]; intros H; [constructor|]. cbn in H. inversion H as [|? ? N1 N2]; subst. constructor; auto. intros K. apply N1, in_or_app. auto. Qed.
Lemma nd_right {A} (a b : list A) : NoDup (a ++ b) -> NoDup b.
Proof. induction a as [|x a IH]; intros H; auto. inversion H; auto. Qed.

(** ** keys *)
Definition keysND {A} (m : list (var * A)) : Prop := NoDup (map fst m).
Lemma adel_nokey {A} k (m : list (var * A)) : ~ In k (map fst (adel k m)).
Proof.
  intros H. apply in_map_iff in H. destruct H as ((k', x) & E & H). unfold adel in H. apply filter_In in H. destruct H as (_ & H). cbn [fst] in *. subst k'. rewrite Nat.eqb_refl in H. discriminate.
Qed.
Lemma adel_nd {A} k (m : list (var * A)) : keysND m -> keysND (adel k m).
Proof.
  unfold keysND, adel. induction m as [|[k' x] m IH]; cbn [filter map fst]; auto. intros H. inversion H as [|? ? N1 N2]; subst.
  destruct (negb (k =? k')); auto. cbn [map fst]. constructor; auto. intros K. apply N1. apply in_map_iff in K. destruct K as (e & E & K). apply filter_In in K. rewrite <- E. apply in_map. tauto.
Qed.
Lemma aput_nd {A} k (x : A) m : keysND m -> keysND (aput k x m).
Proof. intros H. unfold keysND, aput. cbn [map fst]. constructor; [apply adel_nokey|apply adel_nd; auto]. Qed.
Lemma aget_in {A} (m : list (var * A)) : keysND m -> forall k x, aget k m = Some x <-> In (k, x) m.
Proof.
  unfold keysND. induction m as [|[k' y] m IH]; cbn [map fst aget In]; intros H k x; [split; [discriminate|intros []]|]. inversion H as [|? ? N1 N2]; subst.
  destruct (Nat.eqb_spec k k') as [E|N].
  - subst k'. split; [intros E; injection E as <-; auto|]. intros [E|K]; [injection E as <-; auto|]. exfalso. apply N1. apply (in_map fst) in K. auto.
  - rewrite (IH N2). split; auto. intros [E|K]; auto. injection E as E _. congruence.
Qed.
Lemma excess_nd gs : forall ds c c', push_excess gs ds c = Ok c' -> keysND c -> keysND c'.
Proof.
  induction ds as [|d ds IH]; intros c c' E H; cbn [push_excess] in E; [injection E as <-; auto|]. apply bind_ok in E. destruct E as (o & _ & E). apply (IH _ _ E). apply aput_nd. auto.
Qed.
Lemma loop_nd gs outs max : forall vs d d', count_loop gs outs max vs d = Ok d' -> keysND (d_counts d) -> keysND (d_counts d').
Proof.
  induction vs as [|v vs IH]; intros d d' E H; cbn [count_loop] in E; [injection E as <-; auto|]. apply bind_ok in E. destruct E as (d1 & E1 & E). apply (IH _ _ E).
  unfold count_step in E1. destruct (aget v (d_sets d)) as [s|]; [|discriminate].
  destruct (if match aget v (d_counts d) with Some c => (c =? size_max)%N | None => false end then (s, true) else own_inputs gs max (g_inp (nth v gs gate_none)) s) as (s', ex).
  apply bind_ok in E1. destruct E1 as (o & _ & E1). destruct ex; apply bind_ok in E1; destruct E1 as (c & E2 & E1); injection E1 as <-; cbn [d_counts].
  - apply (excess_nd _ _ _ _ E2). apply aput_nd. auto.
  - apply aput_nd. auto.
Qed.

(** ** sets of the steps *)
Lemma upd_nth_length {A} (f : A -> A) : forall l k, length (upd_nth k f l) = length l.
Proof. induction l as [|x l IH]; intros [|k]; cbn; auto. Qed.
Lemma upd_nth_same {A} (f : A -> A) d : forall l k, k < length l -> nth k (upd_nth k f l) d = f (nth k l d).
Proof. induction l as [|x l IH]; intros [|k] H; cbn in *; try lia; auto. apply IH. lia. Qed.
Lemma upd_nth_other {A} (f : A -> A) d : forall l k j, j <> k -> nth j (upd_nth k f l) d = nth j l d.
Proof. induction l as [|x l IH]; intros [|k] [|j] H; cbn; auto; try congruence. Qed.
Lemma first_below_le config c : first_below config c <= length config.
Proof. induction config as [|x r IH]; cbn; auto. destruct (x <? c)%N; lia. Qed.
Lemma first_below_first config c : forall i limit, nth_error config i = Some limit -> (limit < c)%N -> first_below config c <= i.
Proof.
  induction config as [|x r IH]; intros [|i] limit E H; cbn in *; try discriminate; destruct (N.ltb_spec x c); try lia.
  - injection E as ->. lia.
  - specialize (IH _ _ E H). lia.
Qed.
Lemma first_below_at config c : first_below config c < length config -> exists limit, nth_error config (first_below config c) = Some limit /\ (limit < c)%N.
Proof.
  induction config as [|x r IH]; cbn; [lia|]. destruct (N.ltb_spec x c) as [H|H]; cbn; [eauto|]. intros K. apply IH. lia.
Qed.
Lemma fill_ok config : forall (es : list (var * N)) sets, length sets = S (length config) ->
  let r := fold_left (fun sets e => upd_nth (first_below config (snd e)) (uput (fst e)) sets) es sets in
  length r = S (length config) /\ forall v i, In v (nth i r []) <-> In v (nth i sets []) \/ exists c, In (v, c) es /\ first_below config c = i.
Proof.
  induction es as [|[w c] es IH]; intros sets HL; cbn [fold_left fst snd]; cbv zeta.
  - split; auto. intros v i. split; auto. intros [H|(c & [] & _)]; auto.
  - specialize (IH (upd_nth (first_below config c) (uput w) sets)). rewrite upd_nth_length in IH. specialize (IH HL). cbv zeta in IH. destruct IH as (I1 & I2).
    split; auto. intros v i. rewrite I2. destruct (Nat.eq_dec i (first_below config c)) as [E|E].
    + subst i. rewrite upd_nth_same by (pose proof (first_below_le config c); lia). rewrite uput_in. split.
      * intros [[->|K]|(c' & K1 & K2)]; auto; right; [exists c; split; [left; auto|auto]|exists c'; split; [right; auto|auto]].
      * intros [K|(c' & [K1|K1] & K2)]; auto; [injection K1 as -> ->; auto|right; exists c'; auto].
    + rewrite upd_nth_other by auto. split.
      * intros [K|(c' & K1 & K2)]; auto. right. exists c'. split; [right; auto|auto].
      * intros [K|(c' & [K1|K1] & K2)]; auto; [injection K1 as -> ->; congruence|right; exists c'; auto].
Qed.
Lemma nth_repeat_nil {A} (n i : nat) : nth i (repeat (@nil A) n) [] = [].
Proof. revert i. induction n as [|n IH]; intros [|i]; cbn; auto. Qed.

Section New.
Variables (cfg : config) (p : cnf) (g : gproblem) (rl : list lit) (config : list N).
Hypothesis WF : wf_problem (variables p) (problem p).
Hypothesis AN : analyze cfg p = Ok g.
Hypothesis RL : forall l, In l rl -> lvar l < variables p.
Hypothesis SM : (N.of_nat (variables p) < size_max)%N.
Notation gs := (gates g).

Lemma gates_length : length gs = variables p.
Proof. destruct (analyze_ok cfg p WF) as (g' & E' & HL & _). rewrite AN in E'. injection E' as <-. auto. Qed.
Lemma dep_range v x : depends gs v x -> x < variables p.
Proof.
  intros (_ & u & _ & i & Hi & <-). destruct (analyze_acyclic cfg p g WF AN) as (_ & IR). destruct (IR [] (fun l H => False_ind _ H)) as (_ & H).
  rewrite <- gates_length. destruct (Nat.lt_ge_cases u (length gs)) as [L|L]; [|rewrite nth_overflow in Hi by auto; destruct Hi].
  apply (H (nth u gs gate_none)); auto. apply nth_In. auto.
Qed.
Lemma small_sets s v : NoDup s -> (forall x, In x s -> depends gs v x) -> (N.of_nat (length s) < size_max)%N.
Proof.
  intros H1 H2. assert (L : length s <= length (seq 0 (variables p))).
  { apply NoDup_incl_length; auto. intros x Hx. apply in_seq. pose proof (dep_range v x (H2 x Hx)). lia. }
  rewrite seq_length in L. lia.
Qed.
Lemma reach_def v : reachable (fun _ => false) gs rl v -> defined gs v = true.
Proof. induction 1 as [l H1 H2 H3|u v H IH (C1 & _)]; auto. Qed.

Lemma h_new_ok : exists h, h_new gs rl config = Ok h /\ h_step h = 0 /\ length (h_sets h) = S (length config) /\
  (forall v i j, In v (nth i (h_sets h) []) -> In v (nth j (h_sets h) []) -> i = j) /\
  forall k v, (exists i, i < S k /\ In v (nth i (h_sets h) [])) <-> gone gs rl config k v.
Proof.
  destruct (analyze_order cfg p g rl WF AN RL) as (outs & EO & ND & IN & ORD).
  destruct (analyze_acyclic cfg p g WF AN) as (AC & _).
  destruct (counts_ok gs (hd 0%N config)) with (outs := outs) as (d & ED & D1 & D2); auto.
  { intros v o E. apply (gates_left_total cfg p g v o WF AN E). }
  { intros v Hv. apply reach_def, IN. auto. }
  { intros s v. apply small_sets. }
  unfold h_new, countInputDependencies. rewrite EO. cbn [bind]. rewrite ED. cbn [bind].
  assert (KN : keysND (d_counts d)) by (apply (loop_nd _ _ _ _ _ _ ED); constructor).
  eexists. split; [reflexivity|]. cbn [h_step h_sets]. split; auto.
  destruct (fill_ok config (d_counts d) (repeat [] (S (length config)))) as (L & F); [apply repeat_length|]. cbv zeta in L, F. split; auto. split.
  { intros v i j Hi Hj. apply F in Hi. apply F in Hj. rewrite nth_repeat_nil in *. destruct Hi as [[]|(c & Hi & <-)]. destruct Hj as [[]|(c' & Hj & <-)].
    apply aget_in in Hi; auto. apply aget_in in Hj; auto. congruence. }
  intros k v.
  assert (ST : (exists i, i < S k /\ In v (nth i (fold_left (fun sets e => upd_nth (first_below config (snd e)) (uput (fst e)) sets) (d_counts d) (repeat [] (S (length config)))) [])) <->
    exists c, aget v (d_counts d) = Some c /\ first_below config c <= k).
  { split.
    - intros (i & Hi & H). apply F in H. rewrite nth_repeat_nil in H. destruct H as [[]|(c & H & E)]. exists c. split; [apply aget_in; auto|lia].
    - intros (c & H & E). exists (first_below config c). split; [lia|]. apply F. right. exists c. split; auto. apply aget_in; auto. }
  rewrite ST. split.
  - intros (c & H & E). pose proof (D2 v c H) as Hv. split; [apply IN; auto|].
    destruct (Nat.le_gt_cases (length config) k) as [L1|L1]; auto. right.
    destruct (first_below_at config c) as (limit & N1 & N2); [lia|]. destruct (D1 v Hv) as (c' & H' & CR). rewrite H in H'. injection H' as <-.
    destruct CR as [(_ & s & S1 & S2 & ->)|(-> & M)].
    + exists (first_below config (N.of_nat (length s))), limit. split; auto. split; auto. exists s. split; auto. split; auto. intros x Hx. apply S2. auto.
    + destruct config as [|c0 r]; [cbn in L1; lia|]. exists 0, c0. split; [lia|]. split; auto.
  - intros (RV & K). apply IN in RV. destruct (D1 v RV) as (c & H & CR). exists c. split; auto.
    destruct K as [K|(i & limit & I1 & I2 & l & M1 & M2 & M3)]; [pose proof (first_below_le config c); lia|].
    assert (LC : (limit < c)%N); [|pose proof (first_below_first config c i limit I2 LC); lia].
    destruct CR as [(_ & s & S1 & S2 & ->)|(-> & M)].
    + assert (length l <= length s) by (apply NoDup_incl_length; auto; intros x Hx; apply S2, M2; auto). lia.
    + pose proof (small_sets l v M1 M2). lia.
Qed.
End New.

(** ** marking *)
Lemma mem_nat v (s : list var) : existsb (Nat.eqb v) s = true <-> In v s.
Proof. rewrite existsb_exists. split; [intros (x & H & E); apply Nat.eqb_eq in E; subst x; auto|intros H; exists v; split; auto; apply Nat.eqb_refl]. Qed.
Lemma mark_set_ok : forall vs set, let r := mark_set vs set in
  forall x, (In x (fst r) <-> In x vs /\ In x set) /\ (In x (snd r) <-> In x set /\ ~ In x vs).
Proof.
  induction vs as [|v vs IH]; intros set r x; unfold r; cbn [mark_set]; [cbn; tauto|].
  destruct (existsb (Nat.eqb v) set) eqn:E.
  - apply mem_nat in E. specialize (IH (filter (fun w => negb (v =? w)) set) x).
    destruct (mark_set vs (filter (fun w => negb (v =? w)) set)) as (m, rest). cbn [fst snd In] in *. rewrite filter_In in IH. destruct (Nat.eqb_spec v x) as [->|N]; cbn [negb] in IH.
    + intuition congruence.
    + intuition congruence.
  - assert (NI : ~ In v set) by (intros K; apply mem_nat in K; congruence). specialize (IH set x). cbn [In]. cbv zeta in IH.
    destruct (Nat.eq_dec v x) as [->|N]; intuition congruence.
Qed.

(** the heuristic in step [j] (the step is [S j] for the C++ counter); [sets0]: the sets it was built with *)
Definition hok (sets0 : list (list var)) (j : nat) (h : heur) : Prop :=
  h_step h = j /\ length (h_sets h) = length sets0 /\ forall i, j <= i -> nth i (h_sets h) [] = nth i sets0 [].

Lemma h_mark_ok vs h k : h_step h = S k -> exists m h', h_mark vs h = Ok (m, h') /\ h_step h' = S k /\ length (h_sets h') = length (h_sets h) /\
  (forall i, i <> k -> nth i (h_sets h') [] = nth i (h_sets h) []) /\
  forall x, (In x m <-> In x vs /\ In x (nth k (h_sets h) [])) /\ (In x (nth k (h_sets h') []) <-> In x (nth k (h_sets h) []) /\ ~ In x vs).
Proof.
  intros E. unfold h_mark. rewrite E. destruct (nth_error (h_sets h) k) as [set|] eqn:N.
  - pose proof (mark_set_ok vs set) as M. destruct (mark_set vs set) as (m, rest). cbv zeta in M. cbn [fst snd] in M. exists m. eexists. split; [reflexivity|]. cbn [h_step h_sets].
    split; auto. rewrite upd_nth_length. split; auto. split; [intros i Hi; apply upd_nth_other; auto|].
    assert (L : k < length (h_sets h)) by (apply nth_error_Some; congruence). rewrite (upd_nth_same _ [] _ _ L). rewrite (nth_error_nth _ _ [] N). auto.
  - exists [], h. split; auto. split; auto. split; auto. split; auto. apply nth_error_None in N. rewrite nth_overflow by auto. cbn. tauto.
Qed.
Definition evars (e : eqi) : list var := map (fun i => lvar (fst i)) (ei_list e).
Lemma h_classes_ok : forall es h k, h_step h = S k -> (forall i j x, In x (evars (nth i es (ei_new []))) -> In x (evars (nth j es (ei_new []))) -> i < length es -> j < length es -> i = j) ->
  exists ms h', h_classes es h = Ok (ms, h') /\ h_step h' = S k /\ length (h_sets h') = length (h_sets h) /\
  (forall i, i <> k -> nth i (h_sets h') [] = nth i (h_sets h) []) /\
  forall i x, i < length es -> In x (nth i ms []) <-> In x (evars (nth i es (ei_new []))) /\ In x (nth k (h_sets h) []).
Proof.
  induction es as [|e es IH]; intros h k E D; cbn [h_classes].
  - exists [], h. split; auto. split; auto. split; auto. split; auto. intros i x H. cbn in H. lia.
  - destruct (h_mark_ok (evars e) h k E) as (m & h1 & E1 & S1 & L1 & O1 & M1). unfold evars in E1 at 1. rewrite E1. cbn [bind].
    destruct (IH h1 k S1) as (ms & h2 & E2 & S2 & L2 & O2 & M2).
    { intros i j x H1 H2 H3 H4. assert (S i = S j); [|lia]. apply (D (S i) (S j) x); cbn [nth length]; auto; lia. }
    rewrite E2. cbn [bind]. exists (m :: ms), h2. split; auto. split; auto. split; [congruence|]. split; [intros i Hi; rewrite O2, O1; auto|].
    intros [|i] x Hi; cbn [nth] in *; [apply M1|]. cbn [length] in Hi. rewrite (M2 i x) by lia. split; [intros (H1 & H2); apply M1 in H2; tauto|].
    intros (H1 & H2). split; auto. apply M1. split; auto. intros K. specialize (D 0 (S i) x K H1). cbn [length] in D. lia.
Qed.

(** ** one step *)
Section Steps.
Variables (eqs : list (list lit)) (bs : list lit) (sets0 : list (list var)) (next : var).
Hypothesis DV : distinct_vars (concat eqs ++ bs).
Definition gonej (j : nat) (v : var) : Prop := exists i, i < j /\ In v (nth i sets0 []).
Record rel (j : nat) (cls : list (list lit)) (bl : list lit) : Prop := {
  r_len : length cls = length eqs;
  r_sub : forall k x, In x (nth k cls []) -> In x (nth k eqs []);
  r_keep : forall k x, In x (nth k eqs []) -> ~ gonej j (lvar x) -> In x (nth k cls []);
  r_two : forall k x, 2 <= length (nth k cls []) -> In x (nth k cls []) -> ~ gonej j (lvar x);
  r_bb : forall l, In l bl <-> In l bs /\ ~ gonej j (lvar l) }.

Lemma gonej_S j v : gonej (S j) v <-> gonej j v \/ In v (nth j sets0 []).
Proof.
  unfold gonej. split.
  - intros (i & H1 & H2). destruct (Nat.eq_dec i j) as [->|N]; auto. left. exists i. split; auto. lia.
  - intros [(i & H1 & H2)|H]; [exists i; split; auto|exists j; auto].
Qed.
Lemma gonej_dec j v : gonej j v \/ ~ gonej j v.
Proof.
  induction j as [|j IH]; [right; intros (i & H & _); lia|]. rewrite gonej_S. destruct IH as [H|H]; auto.
  destruct (in_dec Nat.eq_dec v (nth j sets0 [])); auto. right. tauto.
Qed.
Lemma out_of_in Q x ls : In x (out_of Q ls) <-> In x ls /\ ~ In (lvar x) Q.
Proof.
  unfold out_of. rewrite filter_In. split; intros (H1 & H2); split; auto.
  - intros K. apply smem_in in K. rewrite K in H2. discriminate.
  - destruct (smem (lvar x) Q) eqn:E; auto. exfalso. apply H2, smem_in. auto.
Qed.
Lemma evars_ok e c x : EI e c -> In x (evars e) <-> 2 <= length c /\ In x (map lvar c).
Proof.
  intros H. unfold evars. pose proof (ei_list_ring e c H) as P.
  assert (Q : Permutation (map (fun i : impl => lvar (fst i)) (ei_list e)) (map (fun i : impl => lvar (fst i)) (ring c))) by (apply Permutation_map; auto).
  assert (R : In x (map (fun i : impl => lvar (fst i)) (ei_list e)) <-> In x (map (fun i : impl => lvar (fst i)) (ring c))).
  { split; intros K; [apply (Permutation_in _ Q K)|apply (Permutation_in _ (Permutation_sym Q) K)]. }
  rewrite R. unfold ring. destruct (Nat.ltb_spec (length c) 2) as [L|L]; [cbn; split; [intros []|lia]|].
  assert (CM : map (fun i : impl => lvar (fst i)) (combine c (tl c ++ [hd 0 c])) = map lvar (map fst (combine c (tl c ++ [hd 0 c])))) by (rewrite map_map; auto). rewrite CM. assert (CF : map fst (combine c (tl c ++ [hd 0 c])) = c).
  { assert (LL : length (tl c ++ [hd 0 c]) = length c) by (rewrite app_length; destruct c; cbn in *; lia). revert LL. generalize (tl c ++ [hd 0 c]). clear.
    induction c as [|a c IH]; intros [|b l] H; cbn in *; try lia; auto. f_equal. apply IH. lia. }
  rewrite CF. tauto.
Qed.
Lemma nth_concat x k : In x (nth k eqs []) -> In x (concat eqs).
Proof. intros H. apply in_concat. exists (nth k eqs []). split; auto. apply nth_In. destruct (Nat.lt_ge_cases k (length eqs)) as [L|L]; auto. rewrite nth_overflow in H by auto. destruct H. Qed.
Lemma same_class : forall (es : list (list lit)) i j x y, NoDup (map lvar (concat es)) -> In x (nth i es []) -> In y (nth j es []) -> lvar x = lvar y -> i = j.
Proof.
  induction es as [|c es IH]; intros i j x y ND Hi Hj E; [destruct i; destruct Hi|]. cbn [concat] in ND. rewrite map_app in ND.
  assert (IC : forall k z, In z (nth k es []) -> In (lvar z) (map lvar (concat es))).
  { intros k z H. apply in_map, in_concat. exists (nth k es []). split; auto. apply nth_In. destruct (Nat.lt_ge_cases k (length es)) as [L|L]; auto. rewrite nth_overflow in H by auto. destruct H. }
  assert (DJ : forall v, In v (map lvar c) -> In v (map lvar (concat es)) -> False).
  { clear -ND. intros v H1 H2. induction (map lvar c) as [|w l IH]; [destruct H1|]. cbn [app] in ND. inversion ND as [|? ? N1 N2]; subst. destruct H1 as [->|H1]; [apply N1, in_or_app; auto|auto]. }
  destruct i as [|i], j as [|j]; cbn [nth] in *; auto.
  - exfalso. apply (DJ (lvar x)); [apply in_map; auto|]. rewrite E. apply (IC j). auto.
  - exfalso. apply (DJ (lvar y)); [apply in_map; auto|]. rewrite <- E. apply (IC i). auto.
  - f_equal. apply (IH i j x y); auto. apply (nd_right _ _ ND).
Qed.
Lemma f2_nth {A B} (R : A -> B -> Prop) d1 d2 : forall l1 l2, Forall2 R l1 l2 -> forall i, i < length l1 -> R (nth i l1 d1) (nth i l2 d2).
Proof. induction 1 as [|a b l1 l2 H F IH]; intros [|i] L; cbn in *; try lia; auto. apply IH. lia. Qed.
Lemma dv_parts : distinct_vars (concat eqs) /\ distinct_vars bs /\ forall x y, In x (concat eqs) -> In y bs -> lvar x <> lvar y.
Proof.
  unfold distinct_vars in *. rewrite map_app in DV. split; [apply (nd_left _ _ DV)|]. split; [apply (nd_right _ _ DV)|].
  intros x y H1 H2 E. apply (in_map lvar) in H1. apply (in_map lvar) in H2. rewrite <- E in H2. revert H1 H2. clear -DV. generalize (lvar x). intros v H1 H2.
  induction (map lvar (concat eqs)) as [|w l IH]; [destruct H1|]. cbn [app] in DV. inversion DV as [|? ? N1 N2]; subst. destruct H1 as [->|H1]; [apply N1, in_or_app; auto|auto].
Qed.

Lemma round_ok A h j cls bl : Forall2 EI (as_eqs A) cls -> BI (as_bbs A) bl -> rel j cls bl -> hok sets0 j h ->
  exists m h', h_round A h = Ok (m, h') /\ hok sets0 (S j) h' /\ rel (S j) (stepcls (mk_eq m) cls) (out_of (mk_bb m) bl).
Proof.
  intros FE FB [R1 R2 R3 R4 R5] (HS & HL & HI). destruct dv_parts as (DE & DB & DX). unfold h_round.
  set (h1 := h_begin h). assert (S1 : h_step h1 = S j) by (cbn; congruence).
  assert (BP : Permutation (bb_list (as_bbs A)) bl) by apply FB.
  assert (BV : forall x, In x (map lvar (bb_list (as_bbs A))) <-> In x (map lvar bl)).
  { intros x. split; intros K; [apply (Permutation_in _ (Permutation_map lvar BP) K)|apply (Permutation_in _ (Permutation_sym (Permutation_map lvar BP)) K)]. }
  assert (B : exists b h2, (match bb_list (as_bbs A) with [] => Ok ([], h1) | _ => h_mark (map lvar (bb_list (as_bbs A))) h1 end) = Ok (b, h2) /\ h_step h2 = S j /\
    length (h_sets h2) = length sets0 /\ (forall i, i <> j -> nth i (h_sets h2) [] = nth i (h_sets h) []) /\
    forall x, (In x b <-> In x (map lvar bl) /\ In x (nth j sets0 [])) /\ (In x (nth j (h_sets h2) []) <-> In x (nth j sets0 []) /\ ~ In x (map lvar bl))).
  { rewrite <- (HI j (Nat.le_refl j)). destruct (bb_list (as_bbs A)) as [|b0 br] eqn:EB.
    - exists [], h1. split; auto. split; auto. split; auto. split; auto. intros x. rewrite <- !BV. cbn [map In h1 h_begin h_sets]. tauto.
    - rewrite <- EB in *. destruct (h_mark_ok (map lvar (bb_list (as_bbs A))) h1 j S1) as (b & h2 & E & S2 & L2 & O2 & M2). exists b, h2. split; auto. split; auto. split; [rewrite L2; cbn; auto|].
      split; auto. intros x. rewrite <- !BV. apply M2. }
  destruct B as (b & h2 & EB & S2 & L2 & O2 & M2). rewrite EB. cbn [bind].
  assert (LE : length (as_eqs A) = length cls) by (clear -FE; induction FE; cbn; congruence).
  destruct (h_classes_ok (as_eqs A) h2 j S2) as (ms & h3 & EM & S3 & L3 & O3 & M3).
  { intros i k x H1 H2 H3 H4. apply (evars_ok _ _ x (f2_nth EI (ei_new []) [] _ _ FE i H3)) in H1. apply (evars_ok _ _ x (f2_nth EI (ei_new []) [] _ _ FE k H4)) in H2.
    destruct H1 as (_ & H1). destruct H2 as (_ & H2). apply in_map_iff in H1. destruct H1 as (y & E1 & H1). apply in_map_iff in H2. destruct H2 as (z & E2 & H2).
    apply (same_class eqs i k y z DE (R2 _ _ H1) (R2 _ _ H2)). congruence. }
  rewrite EM. cbn [bind]. eexists. exists h3. split; [reflexivity|]. cbn [mk_eq mk_bb]. split.
  - split; auto. split; [congruence|]. intros i Hi. rewrite O3, O2 by lia. apply HI. lia.
  - assert (MK : forall k y, In y (nth k cls []) -> In (lvar y) (nth k ms []) <-> 2 <= length (nth k cls []) /\ In (lvar y) (nth j sets0 [])).
    { intros k y Hy. assert (K : k < length cls) by (destruct (Nat.lt_ge_cases k (length cls)) as [L|L]; auto; rewrite nth_overflow in Hy by auto; destruct Hy).
      rewrite (M3 k) by lia. rewrite (evars_ok _ _ _ (f2_nth EI (ei_new []) [] _ _ FE k ltac:(lia))). destruct (M2 (lvar y)) as (_ & M2'). rewrite M2'.
      split; [tauto|]. intros (H1 & H2). split; [split; auto; apply in_map; auto|]. split; auto. intros K2. apply in_map_iff in K2. destruct K2 as (z & E & Hz).
      apply R5 in Hz. apply (DX y z); [apply (nth_concat y k), R2; auto|tauto|auto]. }
    constructor.
    + rewrite stepcls_length. auto.
    + intros k x. rewrite stepcls_nth, out_of_in. intros (H & _). auto.
    + intros k x H1 H2. rewrite stepcls_nth, out_of_in. rewrite gonej_S in H2. assert (H3 : In x (nth k cls [])) by (apply R3; tauto). split; auto. rewrite MK by auto. tauto.
    + intros k x. rewrite stepcls_nth. intros L H. apply out_of_in in H. destruct H as (H1 & H2). rewrite MK in H2 by auto.
      assert (LL : 2 <= length (nth k cls [])). { unfold out_of in L. pose proof (filter_length_le (fun l => negb (smem (lvar l) (nth k ms []))) (nth k cls [])). lia. }
      rewrite gonej_S. intros [K|K]; [apply (R4 k x LL H1 K)|tauto].
    + intros l. rewrite out_of_in, gonej_S, R5. destruct (M2 (lvar l)) as (M2' & _). rewrite M2'. split.
      * intros ((H1 & H2) & H3). split; auto. intros [K|K]; auto. apply H3. split; auto. apply in_map, R5. auto.
      * intros (H1 & H2). split; [tauto|]. tauto.
Qed.

Lemma refine_run : forall k h s T cls bl j n, INV next s T cls bl -> rel j cls bl -> hok sets0 j h ->
  exists h' s' n' cs' ms, h_refine k h s (clauses_of next T) n = Ok (h', s', cs', n') /\ refine_all ms s (clauses_of next T) n = Ok (s', cs', n') /\
    rel (k + j) (runcls ms cls) (runbb ms bl) /\ hok sets0 (k + j) h'.
Proof.
  induction k as [|k IH]; intros h s T cls bl j n HI HR HK; cbn [h_refine].
  - exists h, s, n, (clauses_of next T), []. split; auto.
  - destruct (round_ok (rs_app s) h j cls bl (v_ei _ _ _ _ _ HI) (v_bi _ _ _ _ _ HI) HR HK) as (m & h1 & E1 & K1 & R1). rewrite E1. cbn [bind].
    destruct (refine_ok next s T cls bl m HI) as (s1 & n1 & T1 & E2 & I1 & C1 & _). rewrite E2. cbn [bind]. rewrite C1.
    destruct (IH h1 s1 T1 _ _ (S j) n1 I1 R1 K1) as (h' & s' & n' & cs' & ms & E3 & E4 & R3 & K3).
    exists h', s', n', cs', (m :: ms). split; auto. split; [cbn [refine_all]; rewrite E2; cbn [bind]; rewrite C1; auto|].
    replace (S k + j) with (k + S j) by lia. cbn [runcls runbb]. auto.
Qed.
Lemma run_ok k h : hok sets0 0 h -> exists h' s cs n m0 ms, h_run k h (rs_new eqs bs next) = Ok (h', s, cs, n) /\
  rs_run m0 ms (rs_new eqs bs next) = Ok (s, cs, n) /\ rel (S k) (runcls (m0 :: ms) eqs) (runbb (m0 :: ms) bs) /\ hok sets0 (S k) h'.
Proof.
  intros HK. destruct dv_parts as (DE & DB & DX). unfold h_run.
  destruct (round_ok (rs_app (rs_new eqs bs next)) h 0 eqs bs) as (m & h1 & E1 & K1 & R1); auto.
  - cbn. clear -DE. induction eqs as [|c r IH]; cbn; constructor; cbn in DE; apply distinct_app in DE; destruct DE as (N1 & N2 & _); [apply (new_ok c N1)|auto].
  - apply bb_new_ok. auto.
  - constructor; auto.
    + intros k0 x _ _ (i & H & _). lia.
    + intros l. split; [intros H; split; auto; intros (i & K & _); lia|tauto].
  - rewrite E1. cbn [bind]. destruct (init_ok next eqs bs m DE DB) as (s & n & T & E2 & I1 & C1 & _). rewrite E2. cbn [bind]. rewrite C1.
    destruct (refine_run k h1 s T _ _ 1 n I1 R1 K1) as (h' & s' & n' & cs' & ms & E3 & E4 & R3 & K3).
    exists h', s', cs', n', m, ms. split; auto. split; [unfold rs_run; rewrite E2; cbn [bind]; rewrite C1; auto|]. replace (S k) with (k + 1) by lia. auto.
Qed.
Lemma rel_respects j cls bl a : rel j cls bl ->
  ((forall c, In c cls -> all_equal a c) /\ (forall l, In l bl -> lit_holds a l)) <-> respects (gonej j) eqs bs a.
Proof.
  intros [R1 R2 R3 R4 R5]. split.
  - intros (H1 & H2). split.
    + intros ls x y Hl Hx Hy Nx Ny. apply (In_nth _ _ []) in Hl. destruct Hl as (k & Hk & <-). apply (H1 (nth k cls [])); auto. apply nth_In. lia.
    + intros l Hl Nl. apply H2, R5. auto.
  - intros (H1 & H2). split.
    + intros c Hc x y Hx Hy. apply (In_nth _ _ []) in Hc. destruct Hc as (k & Hk & <-). destruct (Nat.eq_dec x y) as [->|N]; auto.
      assert (L : 2 <= length (nth k cls [])). { destruct (nth k cls []) as [|u [|v r]]; cbn in *; [tauto|destruct Hx as [->|[]]; destruct Hy as [->|[]]; congruence|lia]. }
      apply (H1 (nth k eqs [])); auto; [apply nth_In; lia|apply (R4 k); auto|apply (R4 k); auto].
    + intros l Hl. apply R5 in Hl. apply H2; tauto.
Qed.
Lemma respects_ext (P Q : var -> Prop) a : (forall v, P v <-> Q v) -> respects P eqs bs a -> respects Q eqs bs a.
Proof. intros E (H1 & H2). split; [intros ls x y A B C D F; apply (H1 ls); auto; rewrite E; auto|intros l A B; apply H2; auto; rewrite E; auto]. Qed.
End Steps.

(** ** the theorems *)
Section Main.
Variables (cfg : config) (p : cnf) (g : gproblem) (rl : list lit) (config : list N) (eqs : list (list lit)) (bs : list lit) (next : var).
Hypothesis WF : wf_problem (variables p) (problem p).
Hypothesis AN : analyze cfg p = Ok g.
Hypothesis RL : forall l, In l rl -> lvar l < variables p.
Hypothesis SM : (N.of_nat (variables p) < size_max)%N.
Hypothesis DV : distinct_vars (concat eqs ++ bs).
Hypothesis NX : forall l, In l (concat eqs ++ bs) -> lvar l < next.
Lemma conj_from : conj_ok eqs bs next.
Proof. destruct (dv_parts eqs bs DV) as (A & B & _). split; auto. Qed.
Lemma heur_run k : exists h, h_new (gates g) rl config = Ok h /\ exists h' s cs n m0 ms, h_run k h (rs_new eqs bs next) = Ok (h', s, cs, n) /\
  rs_run m0 ms (rs_new eqs bs next) = Ok (s, cs, n) /\ rel eqs bs (h_sets h) (S k) (runcls (m0 :: ms) eqs) (runbb (m0 :: ms) bs) /\
  forall v, gonej (h_sets h) (S k) v <-> gone (gates g) rl config k v.
Proof.
  destruct (h_new_ok cfg p g rl config WF AN RL SM) as (h & E & HS & HL & _ & HG). exists h. split; auto.
  destruct (run_ok eqs bs (h_sets h) next DV k h) as (h' & s & cs & n & m0 & ms & E1 & E2 & R & _); [split; auto|].
  exists h', s, cs, n, m0, ms. split; auto. split; auto. split; auto. intros v. apply HG.
Qed.
Lemma heur_defined k : exists h h' s cs n, h_new (gates g) rl config = Ok h /\ h_run k h (rs_new eqs bs next) = Ok (h', s, cs, n).
Proof. destruct (heur_run k) as (h & E & h' & s & cs & n & m0 & ms & E1 & _). exists h, h', s, cs, n. auto. Qed.
Lemma heur_sound k h h' s cs n a : h_new (gates g) rl config = Ok h -> h_run k h (rs_new eqs bs next) = Ok (h', s, cs, n) ->
  sat a cs -> (forall l, In l (n_assume n) -> lit_holds a l) -> respects (gone (gates g) rl config k) eqs bs a.
Proof.
  intros E0 E1 H1 H2. destruct (heur_run k) as (h0 & E & h'' & s' & cs' & n' & m0 & ms & F1 & F2 & R & G). rewrite E0 in E. injection E as <-. rewrite E1 in F1. injection F1 as <- <- <- <-.
  apply (respects_ext eqs bs _ _ a G). apply (rel_respects eqs bs _ _ _ _ a R). apply approx_meaning. apply (strategy_sound _ _ _ _ _ _ _ _ _ conj_from F2); auto.
Qed.
Lemma heur_complete k h h' s cs n a : h_new (gates g) rl config = Ok h -> h_run k h (rs_new eqs bs next) = Ok (h', s, cs, n) ->
  respects (gone (gates g) rl config k) eqs bs a -> exists b, agree_below next b a /\ sat b cs /\ (forall l, In l (n_assume n) -> lit_holds b l).
Proof.
  intros E0 E1 H. destruct (heur_run k) as (h0 & E & h'' & s' & cs' & n' & m0 & ms & F1 & F2 & R & G). rewrite E0 in E. injection E as <-. rewrite E1 in F1. injection F1 as <- <- <- <-.
  apply (strategy_complete _ _ _ _ _ _ _ _ _ conj_from F2). apply approx_meaning. apply (rel_respects eqs bs _ _ _ _ a R).
  apply (respects_ext eqs bs (gone (gates g) rl config k)); auto. intros v. symmetry. apply G.
Qed.
Lemma heur_last k h h' s cs n : h_new (gates g) rl config = Ok h -> h_run k h (rs_new eqs bs next) = Ok (h', s, cs, n) ->
  (forall l, In l (concat eqs ++ bs) -> gone (gates g) rl config k (lvar l)) -> n_enabled n = 0.
Proof.
  intros E0 E1 H. destruct (heur_run k) as (h0 & E & h'' & s' & cs' & n' & m0 & ms & F1 & F2 & R & G). rewrite E0 in E. injection E as <-. rewrite E1 in F1. injection F1 as <- <- <- <-.
  rewrite (strategy_enabled _ _ _ _ _ _ _ _ conj_from F2). rewrite <- runbb_keep, <- runcls_current. destruct R as [R1 R2 R3 R4 R5].
  assert (B : runbb (m0 :: ms) bs = []).
  { destruct (runbb (m0 :: ms) bs) as [|l r]; auto. exfalso. destruct (proj1 (R5 l) (or_introl eq_refl)) as (K1 & K2). apply K2, G, H, in_or_app. auto. }
  assert (C : flat_map ring (runcls (m0 :: ms) eqs) = []).
  { assert (Z : forall c, In c (runcls (m0 :: ms) eqs) -> ring c = []).
    { intros c Hc. apply (In_nth _ _ []) in Hc. destruct Hc as (i & Hi & <-). unfold ring. destruct (Nat.ltb_spec (length (nth i (runcls (m0 :: ms) eqs) [])) 2) as [L|L]; auto. exfalso.
      destruct (nth i (runcls (m0 :: ms) eqs) []) as [|x r] eqn:EN; [cbn in L; lia|]. assert (HX : In x (nth i (runcls (m0 :: ms) eqs) [])) by (rewrite EN; left; auto).
      apply (R4 i x); [rewrite EN; auto|auto|]. apply G, H, in_or_app. left. apply (nth_concat eqs x i). auto. }
    clear -Z. induction (runcls (m0 :: ms) eqs) as [|c r IH]; auto. cbn [flat_map]. rewrite (Z c) by (left; auto). apply IH. intros c' Hc'. apply Z. right. auto. }
  rewrite B, C. auto.
Qed.
End Main.

Lemma begins_ok h : forall j, let h' := Nat.iter j h_begin h in h_sets h' = h_sets h /\ h_step h' = j + h_step h.
Proof. induction j as [|j IH]; cbv zeta in *; [auto|]. change (Nat.iter (S j) h_begin h) with (h_begin (Nat.iter j h_begin h)). destruct IH as (A & B). cbn [h_begin h_sets h_step]. rewrite A, B. auto. Qed.
Lemma heur_probe cfg p g rl config h k v : wf_problem (variables p) (problem p) -> analyze cfg p = Ok g -> (forall l, In l rl -> lvar l < variables p) ->
  (N.of_nat (variables p) < size_max)%N -> h_new (gates g) rl config = Ok h ->
  exists b, h_probe v (Nat.iter (S k) h_begin h) = Ok b /\
    (b = true <-> gone (gates g) rl config k v /\ forall i, i < k -> ~ gone (gates g) rl config i v).
Proof.
  intros WF AN RL SM E0. destruct (h_new_ok cfg p g rl config WF AN RL SM) as (h0 & E & HS & HL & HU & HG). rewrite E0 in E. injection E as <-.
  destruct (begins_ok h (S k)) as (A & B). cbv zeta in A, B. unfold h_probe. rewrite A, B, HS. cbn [plus]. rewrite Nat.add_0_r.
  assert (N : match nth_error (h_sets h) k with Some set => Ok (existsb (Nat.eqb v) set) | None => Ok false end = Ok (existsb (Nat.eqb v) (nth k (h_sets h) []))).
  { destruct (nth_error (h_sets h) k) as [set|] eqn:EN; [rewrite (nth_error_nth _ _ [] EN); auto|]. apply nth_error_None in EN. rewrite nth_overflow by auto. auto. }
  rewrite N. eexists. split; [reflexivity|]. rewrite mem_nat. split.
  - intros H. split; [apply HG; exists k; auto|]. intros i Hi K. apply HG in K. destruct K as (j & Hj & K). specialize (HU v k j H K). lia.
  - intros (H & K). apply HG in H. destruct H as (i & Hi & H). destruct (Nat.eq_dec i k) as [->|NE]; auto. exfalso. apply (K i); [lia|]. apply HG. exists i. auto.
Qed.
