(** The simulator's loop. *)
Require Import List Arith Bool NArith Lia.
Require Import Verif.Base Verif.Outcome Verif.CNFModel Verif.CNFProofs Verif.TrailProofs Verif.GateModel Verif.GateSpec Verif.BranchSpec.
Require Import Verif.SimModel Verif.SimSpec Verif.SimWords Verif.SimHist Verif.SimProp Verif.SimCases Verif.RsilSpec Verif.RandModel Verif.RandSpec Verif.RandProofs.
Import ListNotations.

Lemma sim_steps_snoc K ord fills : forall vs hist f v, sim_steps K ord fills vs = Ok hist -> sim_step K ord f (last hist vs) = Ok v -> sim_steps K ord (fills ++ [f]) vs = Ok (hist ++ [v]).
Proof.
  induction fills as [|g fills IH]; intros vs hist f v E1 E2; cbn [sim_steps] in E1.
  - injection E1 as <-. cbn [last] in E2. cbn [app sim_steps]. rewrite E2. reflexivity.
  - apply bind_ok in E1. destruct E1 as (v1 & E1 & E3). apply bind_ok in E3. destruct E3 as (r & E3 & E4). injection E4 as <-. cbn [app sim_steps]. rewrite E1. cbn [bind]. rewrite (IH v1 r f v E3); [reflexivity|]. destruct r as [|a r]; [exact E2|]. change (last (v1 :: a :: r) vs) with (last (a :: r) vs) in E2. clear - E2. assert (forall (x : list vectors) (d e : vectors) a, last (a :: x) d = last (a :: x) e) as EQ by (induction x as [|b x IHx]; intros d e c; [reflexivity|]; apply (IHx d e b)). rewrite (EQ r v1 vs). exact E2.
Qed.
Lemma updates_snoc sched outs h : forall st v st1 st2, updates sched outs st h = Ok st1 -> updates sched outs st (h ++ [v]) = Ok st2 -> update sched outs st1 v = Ok st2.
Proof.
  induction h as [|x h IH]; intros st v st1 st2 E1 E2; cbn [updates app] in *.
  - injection E1 as <-. apply bind_ok in E2. destruct E2 as (s & E & E2). injection E2 as <-. auto.
  - apply bind_ok in E1. destruct E1 as (s & E & E1). rewrite E in E2. cbn [bind] in E2. eauto.
Qed.
Lemma real_steps_ok K n : 1 <= K -> (n <= real_steps K n * (64 * N.of_nat K) < n + 64 * N.of_nat K)%N.
Proof.
  intros HK. unfold real_steps. set (w := (64 * N.of_nat K)%N). assert (HW : (w <> 0)%N) by lia. pose proof (N.div_mod n w HW) as D. pose proof (N.mod_lt n w HW) as L. destruct (N.eqb_spec (n mod w) 0); nia.
Qed.

Section R.
Variables (cfg : config) (p : cnf) (g : gproblem).
Hypothesis WF : wf_problem (variables p) (problem p).
Hypothesis HA : analyze cfg p = Ok g.
Variables (K : nat) (sched : nat -> bool) (ord : order) (init : vectors) (rz : strategy).
Hypothesis HK : 1 <= K.
Hypothesis HC : backward_covered (problem p) (gates g).
Hypothesis EO : readGates None (problem p) (gates g) (root_lits p g) = Ok ord.
Hypothesis WI : wf_vectors K (o_amount ord) init.
Hypothesis H28 : (N.of_nat (o_amount ord) <= 2 ^ 28)%N.
Hypothesis HU : usable rz.

Lemma wf_last hist : (forall vs, In vs hist -> wf_vectors K (o_amount ord) vs) -> wf_vectors K (o_amount ord) (last hist init).
Proof.
  clear sched HK HC EO HU WF HA H28. intros H. assert (last hist init = init \/ In (last hist init) hist) as [E|E]; [|rewrite E; exact WI|auto].
  clear H. induction hist as [|x hist IH]; [left; auto|]. destruct hist as [|y hist]; [right; left; auto|]. change (last (x :: y :: hist) init) with (last (y :: hist) init). destruct IH as [E|E]; [left; auto|right; right; auto].
Qed.
Lemma vectors_ok n : exists hist r fills, vectors_of K ord rz init n = Ok (hist, r) /\ usable r /\ length hist = n /\ (forall vs, In vs hist -> wf_vectors K (o_amount ord) vs) /\
  length fills = n /\ sim_steps K ord fills init = Ok hist /\ (forall f v, In f fills -> wf_vec K (f v)).
Proof.
  clear sched HK H28. induction n as [|n (hist & r & fills & E & U & L & W & LF & ES & WV)]; [exists [], rz, []; split; [reflexivity|]; split; auto; split; auto; split; [intros v []|]; split; auto; split; auto; intros f v []|].
  cbn [vectors_of]. rewrite E. cbn [bind]. destruct (order_correct cfg p g WF HA) as (ord' & EO' & O1 & O2 & O3 & O4 & O5). rewrite EO in EO'. injection EO' as <-.
  pose proof (wf_last hist W) as WL.
  destruct (randomize_with_ok K (o_inputs ord) r O3 U (last hist init)) as (v1 & r1 & f & E1 & U1 & F1 & WF1). { intros v Hv. destruct WL as (LL & _). unfold vectors, vec in *. rewrite LL. apply O5. auto. }
  rewrite E1. cbn [bind].
  destruct (sim_step_ok cfg p g WF HA K HC ord EO f (last hist init) WL) as (v2 & E2 & W2 & _); [intros v _; apply WF1|].
  assert (EP : propagate K (o_steps ord) v1 = Ok v2).
  { unfold sim_step in E2. destruct (randomize_filled (o_inputs ord) f O3 (last hist init)) as (v1' & ER & FR). { intros v Hv. destruct WL as (LL & _). unfold vectors, vec in *. rewrite LL. apply O5. auto. } rewrite ER in E2. cbn [bind] in E2. rewrite (filled_eq _ _ _ _ _ F1 FR). exact E2. }
  rewrite EP. cbn [bind]. exists (hist ++ [v2]), r1, (fills ++ [f]). split; [reflexivity|]. split; auto. split; [rewrite app_length, L; cbn [length]; lia|]. split; [intros vs Hv; apply in_app_iff in Hv; destruct Hv as [Hv|[<-|[]]]; auto|]. split; [rewrite app_length, LF; cbn [length]; lia|]. split; [apply (sim_steps_snoc K ord fills init hist f v2 ES E2)|].
  intros h v Hh. apply in_app_iff in Hh. destruct Hh as [Hh|[<-|[]]]; auto.
Qed.
(** the gates hold in every simulated assignment *)
Lemma vectors_hold n hist r : vectors_of K ord rz init n = Ok (hist, r) -> length hist = n /\ (forall vs, In vs hist -> wf_vectors K (o_amount ord) vs) /\
  forall a v, simulated K hist a -> In v (outputs ord) -> holds (problem p) a (gate_clauses (nth v (gates g) gate_none)).
Proof.
  clear sched HK H28. intros E. destruct (vectors_ok n) as (h & r' & fills & E' & _ & L & W & _ & ES & WV). rewrite E in E'. assert (h = hist) by congruence. subst h. split; auto. split; auto.
  destruct (sim_steps_ok cfg p g WF HA K HC ord EO fills init WI) as (h & E1 & _ & _ & S1); [intros f v Hf _; auto|]. rewrite ES in E1. assert (h = hist) by congruence. subst h.
  intros a v Ha Hv. destruct (order_correct cfg p g WF HA) as (ord' & EO' & O1 & O2 & _). rewrite EO in EO'. injection EO' as <-. apply S1; auto. apply O2. auto.
Qed.
Variable B : nat.
Hypothesis NC : forall n hist r, n <= B -> vectors_of K ord rz init n = Ok (hist, r) -> no_collisions K (outputs ord) hist.

Lemma partition_ok n hist r : 1 <= n <= B -> vectors_of K ord rz init n = Ok (hist, r) ->
  exists st cls bbs, updates sched (outputs ord) (0, []) hist = Ok st /\ getConjectures (outputs ord) (snd st) = Ok (cls, bbs) /\ exact_conjectures K (outputs ord) hist cls bbs /\ good_conjectures (o_amount ord) cls bbs.
Proof.
  intros Hn E. destruct (vectors_hold n hist r E) as (L & W & _). destruct (order_correct cfg p g WF HA) as (ord' & EO' & O1 & O2 & O3 & O4 & O5). rewrite EO in EO'. injection EO' as <-.
  destruct (partition_correct K (o_amount ord) (outputs ord) sched hist HK) as (st & cls & bbs & P1 & P2 & P3 & P4 & P5 & P6); auto.
  { intros ->. cbn [length] in L. lia. }
  { split; auto. intros v Hv. assert (v < o_amount ord) by auto. split; auto. lia. }
  { apply (NC n hist r ltac:(lia) E). }
  exists st, cls, bbs. split; auto. split; auto. split; auto. split; auto.
Qed.
Lemma round_ok n st : S n <= B -> has_made K sched ord rz init n st -> exists st', sim_round K sched ord st = Ok st' /\ has_made K sched ord rz init (S n) st'.
Proof.
  intros HB (hist & E & EV & EU). destruct (vectors_ok (S n)) as (h' & r' & _ & E' & _ ). pose proof E' as E2. cbn [vectors_of] in E2. rewrite E in E2. cbn [bind] in E2. unfold sim_round. rewrite EV.
  apply bind_ok in E2. destruct E2 as ((v1 & r2) & E3 & E2). rewrite E3. cbn [bind]. apply bind_ok in E2. destruct E2 as (v2 & E4 & E2). rewrite E4. cbn [bind]. injection E2 as <- <-.
  destruct (partition_ok (S n) _ _ ltac:(lia) E') as (st1 & _ & _ & P1 & _). unfold outputs in P1. rewrite (updates_snoc _ _ _ _ _ _ _ EU P1). cbn [bind]. eexists. split; [reflexivity|]. exists (hist ++ [v2]). cbn [m_rz m_vs m_part]. split; [exact E'|]. split; [rewrite last_last; auto|exact P1].
Qed.
Lemma loop_ok worth late bounded n0 : forall n step st, n0 + step + n <= B -> has_made K sched ord rz init (n0 + step) st ->
  (exists k st', step <= k < step + n /\ (forall i, step <= i < k -> gives_up worth i = false /\ late i = false) /\ (gives_up worth k || late k) = true /\
     sim_loop K sched ord worth late bounded n step st = Ok (negb (gives_up worth k), st') /\ has_made K sched ord rz init (n0 + S k) st') \/
  ((forall i, step <= i < step + n -> gives_up worth i = false /\ late i = false) /\
   exists st', sim_loop K sched ord worth late bounded n step st = (if bounded then Ok (false, st') else Err Fuel) /\ has_made K sched ord rz init (n0 + (step + n)) st').
Proof.
  induction n as [|n IH]; intros step st HN HM; cbn [sim_loop].
  - right. split; [intros i Hi; lia|]. exists st. rewrite Nat.add_0_r. auto.
  - destruct (round_ok (n0 + step) st ltac:(lia) HM) as (st1 & E1 & HM1). rewrite E1. cbn [bind]. replace (S (n0 + step)) with (n0 + S step) in HM1 by lia.
    change ((10 <? step) && negb (worth step)) with (gives_up worth step). destruct (gives_up worth step) eqn:EG.
    { left. exists step, st1. split; [lia|]. split; [intros i Hi; lia|]. rewrite EG. split; auto. }
    destruct (late step) eqn:EL. { left. exists step, st1. split; [lia|]. split; [intros i Hi; lia|]. rewrite EG, EL. split; auto. }
    destruct (IH (S step) st1 ltac:(lia) HM1) as [(k & st' & Hk & HB & HS & E & H)|(HB & st' & E & H)].
    + left. exists k, st'. split; [lia|]. split; [|auto]. intros i Hi. destruct (Nat.eq_dec i step) as [->|]; [auto|]. apply HB. lia.
    + right. split; [|exists st'; replace (step + S n) with (S step + n) by lia; auto]. intros i Hi. destruct (Nat.eq_dec i step) as [->|]; [auto|]. apply HB. lia.
Qed.
Lemma conj_of n st : 1 <= n <= B -> has_made K sched ord rz init n st -> exists hist cls bbs, vectors_of K ord rz init n = Ok (hist, m_rz st) /\ getConjectures (map (fun s => lvar (fst s)) (o_steps ord)) (snd (m_part st)) = Ok (cls, bbs) /\
  exact_conjectures K (outputs ord) hist cls bbs /\ good_conjectures (o_amount ord) cls bbs.
Proof.
  intros Hn (hist & E & EV & EU). destruct (partition_ok n hist _ Hn E) as (st1 & cls & bbs & P1 & P2 & P3 & P4). unfold outputs in P1, P2. rewrite EU in P1. assert (st1 = m_part st) by congruence. subst st1. exists hist, cls, bbs. split; auto.
Qed.
End R.
Lemma loop_more K sched ord worth late n : forall m step st r, n <= m -> sim_loop K sched ord worth late false n step st = Ok r -> sim_loop K sched ord worth late false m step st = Ok r.
Proof.
  induction n as [|n IH]; intros m step st r Hm E; [discriminate|]. destruct m as [|m]; [lia|]. cbn [sim_loop] in *. apply bind_ok in E. destruct E as (st1 & E1 & E). rewrite E1. cbn [bind]. destruct (_ && _); [auto|]. destruct (late step); [auto|]. apply IH; [lia|auto].
Qed.
Section M.
Variables (cfg : config) (p : cnf) (g : gproblem).
Hypothesis WF : wf_problem (variables p) (problem p).
Hypothesis HA : analyze cfg p = Ok g.
Variables (K : nat) (sched : nat -> bool) (ord : order) (init : vectors) (rz : strategy).
Hypothesis HK : 1 <= K.
Hypothesis HC : backward_covered (problem p) (gates g).
Hypothesis EO : readGates None (problem p) (gates g) (root_lits p g) = Ok ord.
Hypothesis WI : wf_vectors K (o_amount ord) init.
Hypothesis H28 : (N.of_nat (o_amount ord) <= 2 ^ 28)%N.
Hypothesis HU : usable rz.
Lemma run_steps_ok worth late n R n0 st : (0 < n)%N -> (n <= N.of_nat R * (64 * N.of_nat K) < n + 64 * N.of_nat K)%N ->
  (forall i hist r, i <= n0 + R -> vectors_of K ord rz init i = Ok (hist, r) -> no_collisions K (outputs ord) hist) -> has_made K sched ord rz init n0 st ->
  exists m expired e st', steps_made worth late R m expired /\
    run_steps K sched ord worth late n st = Ok (e, st') /\ has_made K sched ord rz init (n0 + m) st' /\
    if expired then e = OutOfTime
    else exists hist cls bbs, e = Conj cls bbs /\ vectors_of K ord rz init (n0 + m) = Ok (hist, m_rz st') /\ exact_conjectures K (outputs ord) hist cls bbs /\ good_conjectures (o_amount ord) cls bbs.
Proof.
  intros Hn HR NC HM. pose proof (real_steps_ok K n HK) as HR'.
  assert (ER : N.to_nat (real_steps K n) = R). { assert (real_steps K n = N.of_nat R) as ->; [|lia]. set (x := real_steps K n) in *. clearbody x. destruct (N.lt_trichotomy x (N.of_nat R)) as [HL|[|HL]]; auto; nia. }
  assert (HR1 : 1 <= R). { destruct R; [|lia]. change (N.of_nat 0) with 0%N in HR. rewrite N.mul_0_l in HR. lia. }
  unfold run_steps, run_impl. rewrite ER.
  assert (HM0 : has_made K sched ord rz init (n0 + 0) st) by (rewrite Nat.add_0_r; auto).
  destruct (loop_ok cfg p g WF HA K sched ord init rz HK HC EO WI H28 HU (n0 + R) NC worth late true n0 R 0 st ltac:(lia) HM0) as [(k & st' & Hk & HB & HS & E & H)|(HB & st' & E & H)]; rewrite E; cbn [bind].
  - exists (S k), (negb (gives_up worth k)). destruct (gives_up worth k) eqn:EG; cbn [negb].
    + destruct (conj_of cfg p g WF HA K sched ord init rz HK HC EO WI H28 HU (n0 + R) NC (n0 + S k) st' ltac:(lia) H) as (hist & cls & bbs & V & C & X & G). rewrite C. cbn [bind]. eexists _, st'. split; [|split; [reflexivity|split; [exact H|exists hist, cls, bbs; auto]]].
      right. split; [lia|]. split; [intros i Hi; apply HB; lia|]. replace (S k - 1) with k by lia. auto.
    + exists OutOfTime, st'. split; [|split; [reflexivity|split; [exact H|reflexivity]]]. right. split; [lia|]. split; [intros i Hi; apply HB; lia|]. replace (S k - 1) with k by lia. cbn [orb] in HS. auto.
  - exists R, false. destruct (conj_of cfg p g WF HA K sched ord init rz HK HC EO WI H28 HU (n0 + R) NC (n0 + (0 + R)) st' ltac:(lia) H) as (hist & cls & bbs & V & C & X & G). rewrite C. cbn [bind]. eexists _, st'. split; [|split; [reflexivity|split; [exact H|exists hist, cls, bbs; auto]]].
    left. split; auto. split; auto. intros k Hk. apply HB. lia.
Qed.
Lemma run_open_ok worth n0 st k fuel : 11 <= k -> worth k = false -> (forall i, 11 <= i < k -> worth i = true) -> k < fuel ->
  (forall i hist r, i <= n0 + S k -> vectors_of K ord rz init i = Ok (hist, r) -> no_collisions K (outputs ord) hist) -> has_made K sched ord rz init n0 st ->
  exists hist cls bbs st', run_open K sched ord worth fuel st = Ok (Conj cls bbs, st') /\ has_made K sched ord rz init (n0 + S k) st' /\
       vectors_of K ord rz init (n0 + S k) = Ok (hist, m_rz st') /\ exact_conjectures K (outputs ord) hist cls bbs /\ good_conjectures (o_amount ord) cls bbs.
Proof.
  intros Hk Hw Hb Hf NC HM. assert (HM0 : has_made K sched ord rz init (n0 + 0) st) by (rewrite Nat.add_0_r; auto). unfold run_open, run_impl.
  assert (GK : gives_up worth k = true) by (unfold gives_up; rewrite Hw; destruct (Nat.leb_spec 11 k); [auto|lia]).
  destruct (loop_ok cfg p g WF HA K sched ord init rz HK HC EO WI H28 HU (n0 + S k) NC worth (fun _ => false) false n0 (S k) 0 st ltac:(lia) HM0) as [(k' & st' & Hk' & HB & HS & E & H)|(HB & st' & E & H)]; [|exfalso; destruct (HB k ltac:(lia)); congruence].
  rewrite orb_false_r in HS. assert (k' = k).
  { destruct (Nat.lt_trichotomy k' k) as [HL|[|HL]]; auto; [|destruct (HB k ltac:(lia)); congruence]. unfold gives_up in HS. apply andb_true_iff in HS. destruct HS as (H1 & H2). apply Nat.leb_le in H1. rewrite (Hb k') in H2 by lia. discriminate. }
  subst k'. rewrite GK in E. cbn [negb] in E. rewrite (loop_more _ _ _ _ _ (S k) fuel _ _ _ ltac:(lia) E). cbn [bind].
  destruct (conj_of cfg p g WF HA K sched ord init rz HK HC EO WI H28 HU (n0 + S k) NC (n0 + S k) st' ltac:(lia) H) as (hist & cls & bbs & V & C & X & G). rewrite C. cbn [bind]. exists hist, cls, bbs, st'. auto.
Qed.
Lemma run_forever worth n0 st fuel : (forall k, 11 <= k -> worth k = true) ->
  (forall i hist r, i <= n0 + fuel -> vectors_of K ord rz init i = Ok (hist, r) -> no_collisions K (outputs ord) hist) -> has_made K sched ord rz init n0 st ->
  run_open K sched ord worth fuel st = Err Fuel.
Proof.
  intros Hw NC HM. assert (HM0 : has_made K sched ord rz init (n0 + 0) st) by (rewrite Nat.add_0_r; auto). unfold run_open, run_impl.
  destruct (loop_ok cfg p g WF HA K sched ord init rz HK HC EO WI H28 HU (n0 + fuel) NC worth (fun _ => false) false n0 fuel 0 st ltac:(lia) HM0) as [(k' & st' & Hk' & HB & HS & E & H)|(HB & st' & E & H)]; [|rewrite E; reflexivity].
  rewrite orb_false_r in HS. unfold gives_up in HS. apply andb_true_iff in HS. destruct HS as (H1 & H2). apply Nat.leb_le in H1. rewrite (Hw k') in H2 by lia. discriminate.
Qed.
End M.
Lemma fresh_ok K sched ord init rz : has_made K sched ord rz init 0 (fresh_sim rz init).
Proof. exists []. auto. Qed.
Lemma rounds_ok cfg p g : wf_problem (variables p) (problem p) -> analyze cfg p = Ok g ->
  forall K ord init rz, backward_covered (problem p) (gates g) -> readGates None (problem p) (gates g) (root_lits p g) = Ok ord ->
  wf_vectors K (o_amount ord) init -> usable rz -> forall n, (exists hist r, vectors_of K ord rz init n = Ok (hist, r)) /\
  forall hist r, vectors_of K ord rz init n = Ok (hist, r) -> length hist = n /\ (forall vs, In vs hist -> wf_vectors K (o_amount ord) vs) /\
    forall a v, simulated K hist a -> In v (outputs ord) -> holds (problem p) a (gate_clauses (nth v (gates g) gate_none)).
Proof.
  intros WF HA K ord init rz HC EO WI HU n. split.
  - destruct (vectors_ok cfg p g WF HA K ord init rz HC EO WI HU n) as (hist & r & _ & E & _). exists hist, r. exact E.
  - intros hist r. exact (vectors_hold cfg p g WF HA K ord init rz HC EO WI HU n hist r).
Qed.
