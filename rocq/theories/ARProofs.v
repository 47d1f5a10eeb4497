(** Proofs of C49. *)
Require Import List Arith Bool ZArith Lia Permutation.
Require Import Verif.Base Verif.Outcome Verif.CNFModel Verif.SolverModel Verif.SolverSpec Verif.PropSpec Verif.ApproxModel Verif.ApproxSpec Verif.ApproxLemmas Verif.ApproxProofs Verif.ApproxMore Verif.ApproxRefine Verif.ApproxTags Verif.ApproxRun Verif.ARModel Verif.ARSpec Verif.SolverProps.
Import ListNotations.

(** ** The marks contain those of the garbage collector *)
Lemma join_bb_l a b v : In v (mk_bb a) -> In v (mk_bb (join_marks a b)).
Proof. intros H. cbn. apply in_or_app. auto. Qed.
Lemma join_bb_r a b v : In v (mk_bb b) -> In v (mk_bb (join_marks a b)).
Proof. intros H. cbn. apply in_or_app. auto. Qed.
Lemma join_eq_l : forall a b k v, In v (nth k a []) -> In v (nth k (join_classes a b) []).
Proof.
  induction a as [|x a IH]; intros [|y b] [|k] v H; simpl in *; try tauto; [apply in_or_app; auto|apply IH; exact H].
Qed.
Lemma join_eq_r : forall a b k v, In v (nth k b []) -> In v (nth k (join_classes a b) []).
Proof.
  induction a as [|x a IH]; intros [|y b] [|k] v H; simpl in *; try tauto; [apply in_or_app; auto|apply IH; exact H].
Qed.
Lemma fold_join round s hs : forall m, (forall v, In v (mk_bb m) -> In v (mk_bb (fold_left (fun m (h : heuristic) => join_marks m (h round s)) hs m))) /\
  (forall k v, In v (nth k (mk_eq m) []) -> In v (nth k (mk_eq (fold_left (fun m (h : heuristic) => join_marks m (h round s)) hs m)) [])).
Proof.
  induction hs as [|h hs IH]; intros m; cbn [fold_left]; [auto|]. destruct (IH (join_marks m (h round s))) as (A & B). split.
  - intros v H. apply A. apply join_bb_l. exact H.
  - intros k v H. apply B. apply join_eq_l. exact H.
Qed.
Lemma all_marks_gc a s : (forall l, In l (bb_list (as_bbs s)) -> In (lvar l) (mk_bb (all_marks a 1 s))) /\
  (forall k e i, nth_error (as_eqs s) k = Some e -> In i (ei_list e) -> In (lvar (fst i)) (nth k (mk_eq (all_marks a 1 s)) [])).
Proof.
  unfold all_marks. rewrite fold_left_app. cbn [fold_left]. set (m0 := fold_left _ _ _). split.
  - intros l H. apply join_bb_l, join_bb_r. cbn. apply in_map. exact H.
  - intros k e i He Hi. apply join_eq_l, join_eq_r. cbn. 
    assert (E : nth_error (map (fun e => map (fun i : impl => lvar (fst i)) (ei_list e)) (as_eqs s)) k = Some (map (fun i : impl => lvar (fst i)) (ei_list e))) by (rewrite nth_error_map, He; reflexivity).
    unfold gc_heuristic. cbn [Nat.ltb Nat.leb mk_eq]. pose proof (nth_error_nth _ _ ([] : list var) E) as E2.
    match goal with |- In ?x ?y => change (In x y) with ((fun z : list var => In x z) y) end. refine (eq_ind _ (fun z : list var => In _ z) _ _ (eq_sym E2)). apply in_map_iff. exists i. auto.
Qed.

(** ** The first approximation is empty *)
Lemma ring_all_fst c l i0 : In i0 (ring c) -> In l c -> exists i, In i (ring c) /\ fst i = l.
Proof.
  intros H0 H. destruct (le_lt_dec 2 (length c)) as [L|L]; [|rewrite (ring_small c L) in H0; destruct H0].
  destruct (ring_has_fst c l L H) as (x & Hx). exists (l, x). auto.
Qed.
Lemma gc_class e c : EI e c -> (forall i, In i (ei_list e) -> In (lvar (fst i)) (ei_queue e)) ->
  exists e' n r, ei_commit e = Ok (e', n, r) /\ ei_list e' = [].
Proof.
  intros H HQ. destruct (commit_facts e c H) as (e' & n & r & E & _ & H' & _). exists e', n, r. split; [exact E|].
  destruct (ei_list e') as [|i0 is] eqn:El; [reflexivity|]. exfalso.
  assert (K : In i0 (ei_list e')) by (rewrite El; left; reflexivity). apply (ei_in _ _ _ H') in K. destruct K as (K & _).
  apply filter_In in K. destruct K as (K1 & K2). apply negb_true_iff, smem_nin in K2. apply K2.
  pose proof (ei_list_ring _ _ H) as P.
  assert (N : exists i, In i (ring c)).
  { pose proof (ei_list_ring _ _ H') as P'. rewrite El in P'. assert (L : In i0 (ring (out_of (ei_queue e) c))) by (apply (Permutation_in _ P'); left; reflexivity).
    destruct (le_lt_dec 2 (length c)) as [L2|L2].
    - destruct (ring_has_fst c _ L2 K1) as (x & Hx). eexists. exact Hx.
    - exfalso. rewrite ring_small in L; [destruct L|]. eapply Nat.le_lt_trans; [|exact L2]. unfold out_of. clear. induction c; simpl; [lia|]. destruct (negb _); simpl; lia. }
  destruct N as (j & Hj). destruct (ring_all_fst c (fst i0) j Hj K1) as (i & Hi & Ei). rewrite <- Ei. apply HQ. apply (Permutation_in _ (Permutation_sym P)). exact Hi.
Qed.
Lemma gc_classes es : forall cs, Forall2 EI es cs -> (forall e i, In e es -> In i (ei_list e) -> In (lvar (fst i)) (ei_queue e)) ->
  exists es' n r, commit_all es = Ok (es', n, r) /\ flat_map ei_list es' = [].
Proof.
  intros cs H. induction H as [|e c es cs H1 H2 IH]; intros HQ; [exists [], [], []; split; reflexivity|].
  destruct (gc_class e c H1) as (e' & n & r & E & El); [intros i; apply HQ; left; reflexivity|].
  destruct IH as (es' & n' & r' & E' & El'); [intros f i Hf; apply HQ; right; exact Hf|].
  exists (e' :: es'), (n ++ n'), (r ++ r'). cbn [commit_all flat_map]. rewrite E. cbn [bind]. rewrite E'. cbn [bind]. rewrite El, El'. split; reflexivity.
Qed.
Lemma mark_nth : forall es cs m, Forall2 EI es cs -> Forall2 EI (mark_all es m) cs /\
  (forall e', In e' (mark_all es m) -> exists k e, nth_error es k = Some e /\ ei_list e' = ei_list e /\ forall v, In v (nth k m []) -> In v (ei_queue e')).
Proof.
  intros es cs m H. revert m. induction H as [|e c es cs H1 H2 IH]; intros m; simpl; [split; [constructor|intros e' []]|].
  destruct (marks_ei (hd [] m) e c H1) as (A1 & B1 & C1). destruct (IH (tl m)) as (A & B). split; [constructor; assumption|].
  intros e' [<-|He'].
  - exists 0, e. split; [reflexivity|]. split; [exact C1|]. intros v Hv. apply B1. right. destruct m; [destruct Hv|exact Hv].
  - destruct (B e' He') as (k & f & Hk & El & Hq). exists (S k), f. split; [exact Hk|]. split; [exact El|]. intros v Hv. apply Hq. destruct m; [destruct Hv|exact Hv].
Qed.
Lemma gc_init a : (forall c, In c (ar_eqs a) -> distinct_vars c) -> distinct_vars (ar_bs a) ->
  let s0 := rs_new (ar_eqs a) (ar_bs a) (ar_vars a) in
  exists r, rs_init (all_marks a 1 (rs_app s0)) s0 = Ok (r, mkEnc [] [] 0) /\ rs_next r = ar_vars a.
Proof.
  intros D1 D2 s0. set (m := all_marks a 1 (rs_app s0)). destruct (all_marks_gc a (rs_app s0)) as (G1 & G2). fold m in G1, G2.
  assert (F : Forall2 EI (map ei_new (ar_eqs a)) (ar_eqs a)).
  { revert D1. generalize (ar_eqs a). clear. induction l as [|c r IH]; intros D; simpl; [constructor|]. constructor; [apply (proj1 (new_ok c (D c (or_introl eq_refl))))|].
    apply IH. intros c' Hc'. apply D. right. exact Hc'. }
  destruct (mark_nth _ _ (mk_eq m) F) as (F1 & F2).
  destruct (gc_classes _ _ F1) as (es' & n & r & E & El).
  { intros e' i He' Hi. destruct (F2 e' He') as (k & e & Hk & E1 & E2). apply E2. rewrite E1 in Hi. apply (G2 k e i Hk Hi). }
  unfold rs_init, createInitializationDelta, updateApproximationState. cbn [rs_new rs_app as_new as_eqs]. unfold s0 at 1. cbn [rs_new rs_app as_new as_eqs]. rewrite E. cbn [bind as_bbs].
  set (b0 := match bb_list (bb_new (ar_bs a)) with [] => bb_new (ar_bs a) | _ => fold_left bb_mark (mk_bb m) (bb_new (ar_bs a)) end).
  assert (HB : exists b rb, bb_commit b0 = (b, rb) /\ bb_list b = []).
  { pose proof (bb_new_ok (ar_bs a) D2) as B0. assert (B : BI b0 (ar_bs a) /\ out_of (bb_queue b0) (ar_bs a) = []).
    { unfold b0. change (bb_list (bb_new (ar_bs a))) with (ar_bs a). destruct (ar_bs a) as [|l0 ls] eqn:Eb; [split; [exact B0|reflexivity]|]. rewrite <- Eb in *.
      destruct (marks_bb (mk_bb m) _ _ B0) as (M1 & M2 & _). split; [exact M1|]. apply out_of_all. intros w Hw. apply smem_in. apply M2. right. apply G1. cbn. rewrite Eb in Hw. exact Hw. }
    destruct B as (B1 & B2). pose proof (bi_commit b0 _ B1) as K. destruct (bb_commit b0) as (b & rb). exists b, rb. split; [reflexivity|].
    destruct K as ((_ & _ & _ & K) & _). rewrite B2 in K. apply Permutation_nil, Permutation_sym in K || (apply Permutation_sym, Permutation_nil in K). exact K. }
  destruct HB as (b & rb & Eb & Elb). unfold s0. cbn [rs_new rs_app as_new as_bbs]. fold b0. rewrite Eb. cbn [bind]. rewrite El. unfold encodeInitial. cbn [d_added fold_left set_app rs_app as_bbs]. rewrite Elb. cbn [fold_left fst].
  eexists. split; [reflexivity|reflexivity].
Qed.

(** ** solve *)
Definition plain (C : cfg) (O : oracle) (fuel : nat) (a : arsolver) : out (sresult * solver) :=
  s <- solver_init 0 [] true (ar_in a) ;; solve C O fuel (solver_assume [] s).
Lemma solve_plain C Os fuel k a : (forall c, In c (ar_eqs a) -> distinct_vars c) -> distinct_vars (ar_bs a) -> ar_max a <> 0%Z -> 0 < k ->
  ar_solve C Os fuel k a = (' (x, s) <- plain C (Os 0) fuel a ;; Ok (r_status x, mkAr s x (ar_vars a) (ar_eqs a) (ar_bs a) (ar_max a) [] (ar_lits a))).
Proof.
  intros D1 D2 HM HK. unfold ar_solve. destruct (Z.eqb_spec (ar_max a) 0); [contradiction|].
  destruct (gc_init a D1 D2) as (r & E & Er). rewrite E. cbn [bind]. unfold addApproximationClauses. cbn [n_clauses readClauses fold_left variables problem]. unfold plain.
  destruct (solver_init 0 [] true (ar_in a)) as [s|er]; [|reflexivity]. cbn [bind]. rewrite Er.
  destruct k as [|k]; [lia|]. cbn [ar_loop next_delta andb Nat.ltb Nat.leb bind]. cbn [ar_max].
  destruct ((ar_max a <? 0)%Z || (Z.of_nat 0 <? ar_max a)%Z) eqn:EM.
  2:{ exfalso. apply orb_false_iff in EM. destruct EM as (M1 & M2). apply Z.ltb_ge in M1, M2. simpl in M2. lia. }
  cbn [n_assume n_enabled]. unfold inner_solve. cbn [ar_assume ar_with ar_in]. destruct (solve C (Os 0) fuel (solver_assume [] s)) as [(x, s')|er]; [|reflexivity].
  cbn [bind Nat.eqb]. rewrite orb_true_r. cbn [negb andb bind]. reflexivity.
Qed.
Lemma solve_zero C Os fuel k a : ar_max a = 0%Z -> ar_solve C Os fuel k a = (' (x, s) <- solve C (Os 0) fuel (ar_in a) ;; Ok (r_status x, ar_with s x a)).
Proof. intros H. unfold ar_solve. rewrite H. reflexivity. Qed.

(** ** Histories *)
Lemma fuel_zero C Os fuel a : (forall c, In c (ar_eqs a) -> distinct_vars c) -> distinct_vars (ar_bs a) -> ar_max a <> 0%Z -> forall y, ar_solve C Os fuel 0 a <> Ok y.
Proof.
  intros D1 D2 HM y. unfold ar_solve. destruct (Z.eqb_spec (ar_max a) 0); [contradiction|]. destruct (gc_init a D1 D2) as (r & E & Er). rewrite E. cbn [bind].
  destruct (addApproximationClauses _ _ _) as [a1|er]; cbn [bind ar_loop]; discriminate.
Qed.
Definition lift_ok (ok : aop -> Prop) (o : sop) : Prop := match o with
  | SInit n cs lemma => ok (AInit n cs lemma) | SAssume ls => ok (AAssume ls) | SCallback cb => ok (ACallback cb) | SSolve _ _ => exists Os fuel k, ok (ASolve Os fuel k) end.
Lemma areach_inv C (ok : aop -> Prop) F a : ok (AInit 0 [] true) -> ok (AAssume []) -> areach C ok F a ->
  (forall c, In c (ar_eqs a) -> distinct_vars c) /\ distinct_vars (ar_bs a) /\ sreach C (lift_ok ok) F (ar_in a).
Proof.
  intros O1 O2 H. induction H as [eqs bs max hs D1 D2|F a n cs lemma a' H (D1 & D2 & IH) Hok HC E|F a ls H (D1 & D2 & IH) Hok HL|F a cb H (D1 & D2 & IH) Hok|F a Os fuel k x a' H (D1 & D2 & IH) Hok E].
  - split; [exact D1|]. split; [exact D2|]. apply sr_new.
  - unfold ar_init in E. destruct (solver_init n cs lemma (ar_in a)) as [s|er] eqn:Es; cbn [bind] in E; [|discriminate]. injection E as <-. cbn [ar_eqs ar_bs ar_in].
    split; [exact D1|]. split; [exact D2|]. apply (sr_init C (lift_ok ok) F (ar_in a) n cs lemma s IH Hok HC Es).
  - split; [exact D1|]. split; [exact D2|]. apply (sr_assume C (lift_ok ok) F (ar_in a) ls IH Hok HL).
  - split; [exact D1|]. split; [exact D2|]. apply (sr_callback C (lift_ok ok) F (ar_in a) cb IH Hok).
  - destruct (Z.eq_dec (ar_max a) 0) as [Hz|Hz].
    + rewrite (solve_zero C Os fuel k a Hz) in E. destruct (solve C (Os 0) fuel (ar_in a)) as [(y, s)|er] eqn:Es; cbn [bind] in E; [|discriminate]. injection E as <- <-.
      split; [exact D1|]. split; [exact D2|]. cbn [ar_with ar_in]. apply (sr_solve C (lift_ok ok) F (ar_in a) (Os 0) fuel y s IH); [red; eauto|exact Es].
    + destruct k as [|k]; [exfalso; apply (fuel_zero C Os fuel a D1 D2 Hz _ E)|]. rewrite (solve_plain C Os fuel (S k) a D1 D2 Hz (Nat.lt_0_succ k)) in E. unfold plain in E.
      destruct (solver_init 0 [] true (ar_in a)) as [s1|er] eqn:E1; cbn [bind] in E; [|discriminate].
      destruct (solve C (Os 0) fuel (solver_assume [] s1)) as [(y, s)|er] eqn:Es; cbn [bind] in E; [|discriminate]. injection E as <- <-. cbn [ar_eqs ar_bs ar_in].
      split; [exact D1|]. split; [exact D2|]. apply (sr_solve C (lift_ok ok) F (solver_assume [] s1) (Os 0) fuel y s); [|red; eauto|exact Es].
      apply (sr_assume C (lift_ok ok) F s1 []); [|exact O2|intros l []]. replace F with (F ++ []) by apply app_nil_r.
      apply (sr_init C (lift_ok ok) F (ar_in a) 0 [] true s1 IH O1); [constructor|exact E1].
Qed.
Lemma sreach_mono C (ok ok' : sop -> Prop) F s : (forall o, ok o -> ok' o) -> sreach C ok F s -> sreach C ok' F s.
Proof.
  intros HO H. induction H as [|F s n cs lemma s' H IH Hok HC E|F s ls H IH Hok HL|F s cb H IH Hok|F s O fuel x s' H IH Hok E].
  - apply sr_new.
  - apply (sr_init C ok' F s n cs lemma s' IH); auto.
  - apply sr_assume; auto.
  - apply sr_callback; auto.
  - apply (sr_solve C ok' F s O fuel x s' IH); auto.
Qed.
(** what a solve does: one solve of the inner solver in a reachable state, with the assumptions of the
    caller if refinement is off and with none otherwise *)
Lemma ar_solve_inner C (ok : aop -> Prop) F a Os fuel k x a' : ok (AInit 0 [] true) -> ok (AAssume []) -> areach C ok F a -> ar_solve C Os fuel k a = Ok (x, a') ->
  exists s y s', sreach C (lift_ok ok) F s /\ solve C (Os 0) fuel s = Ok (y, s') /\ r_status y = x /\ ar_res a' = y /\ ar_in a' = s' /\
    assumptions s = (if (ar_max a =? 0)%Z then assumptions (ar_in a) else []).
Proof.
  intros O1 O2 H E. destruct (areach_inv C ok F a O1 O2 H) as (D1 & D2 & HR). destruct (Z.eqb_spec (ar_max a) 0) as [Hz|Hz].
  - rewrite (solve_zero C Os fuel k a Hz) in E. destruct (solve C (Os 0) fuel (ar_in a)) as [(y, s)|er] eqn:Es; cbn [bind] in E; [|discriminate]. injection E as <- <-.
    exists (ar_in a), y, s. split; [exact HR|]. split; [exact Es|]. split; [reflexivity|]. split; [reflexivity|]. split; reflexivity.
  - destruct k as [|k]; [exfalso; apply (fuel_zero C Os fuel a D1 D2 Hz _ E)|]. rewrite (solve_plain C Os fuel (S k) a D1 D2 Hz (Nat.lt_0_succ k)) in E. unfold plain in E.
    destruct (solver_init 0 [] true (ar_in a)) as [s1|er] eqn:E1; cbn [bind] in E; [|discriminate].
    destruct (solve C (Os 0) fuel (solver_assume [] s1)) as [(y, s)|er] eqn:Es; cbn [bind] in E; [|discriminate]. injection E as <- <-.
    exists (solver_assume [] s1), y, s. split; [|split; [exact Es|]; split; [reflexivity|]; split; [reflexivity|]; split; reflexivity].
    apply (sr_assume C (lift_ok ok) F s1 []); [|exact O2|intros l []]. replace F with (F ++ []) by apply app_nil_r.
    apply (sr_init C (lift_ok ok) F (ar_in a) 0 [] true s1 HR O1); [constructor|exact E1].
Qed.
Lemma ar_unsat C F a Os fuel k a' : areach C any_aop F a -> ar_solve C Os fuel k a = Ok (Some false, a') ->
  unsat (F ++ units (if (ar_max a =? 0)%Z then assumptions (ar_in a) else [])).
Proof.
  intros H E. destruct (ar_solve_inner C any_aop F a Os fuel k _ a' I I H E) as (s & y & s' & HR & Es & Ey & _ & _ & EA). rewrite <- EA.
  apply (C21_unsat_correct C F s (Os 0) fuel y s'); [|exact Es|exact Ey]. apply (sreach_mono C (lift_ok any_aop)); [intros o _; exact I|exact HR].
Qed.
Lemma ar_model_history C F a Os fuel k a' : c_inproc C = 0%N -> c_pre C = false -> areach C problem_aop F a -> ar_solve C Os fuel k a = Ok (Some true, a') ->
  model_sat (r_model (ar_res a')) F.
Proof.
  intros H1 H2 H E. destruct (ar_solve_inner C problem_aop F a Os fuel k _ a' eq_refl I H E) as (s & y & s' & HR & Es & Ey & Er & _ & EA). rewrite Er.
  apply (C20_model_history_partial C F s (Os 0) fuel y s' H1 H2); [|exact Es|exact Ey]. apply (sreach_mono C (lift_ok problem_aop)); [|exact HR]. intros [] Ho; exact Ho || exact I.
Qed.
Lemma ar_model_first C F a Os fuel k a' : c_inproc C = 0%N -> areach C loading_aop F a -> ar_solve C Os fuel k a = Ok (Some true, a') ->
  model_sat (r_model (ar_res a')) F.
Proof.
  intros H1 H E. destruct (ar_solve_inner C loading_aop F a Os fuel k _ a' eq_refl I H E) as (s & y & s' & HR & Es & Ey & Er & _ & EA). rewrite Er.
  apply (C20_model_first_partial C F s (Os 0) fuel y s' H1); [|exact Es|exact Ey]. apply (sreach_mono C (lift_ok loading_aop)); [|exact HR].
  intros [] Ho; try exact Ho; try exact I. destruct Ho as (? & ? & ? & []).
Qed.
Lemma ar_unsat_plain C F a Os fuel k a' : areach C any_aop F a -> ar_max a <> 0%Z -> ar_solve C Os fuel k a = Ok (Some false, a') -> unsat F.
Proof.
  intros H HM E. pose proof (ar_unsat C F a Os fuel k a' H E) as K. destruct (Z.eqb_spec (ar_max a) 0); [contradiction|]. simpl in K. rewrite app_nil_r in K. exact K.
Qed.
Lemma ar_unsat_assuming C F a Os fuel k a' : areach C any_aop F a -> ar_solve C Os fuel k a = Ok (Some false, a') -> unsat (F ++ units (assumptions (ar_in a))).
Proof.
  intros H E. pose proof (ar_unsat C F a Os fuel k a' H E) as K. destruct (Z.eqb_spec (ar_max a) 0); [exact K|]. simpl in K. rewrite app_nil_r in K.
  intros m Hm. apply (K m). apply sat_app in Hm. tauto.
Qed.
Lemma areach_distinct C (ok : aop -> Prop) F a : areach C ok F a -> (forall c, In c (ar_eqs a) -> distinct_vars c) /\ distinct_vars (ar_bs a).
Proof.
  intros H. assert (H' : areach C any_aop F a).
  { induction H as [eqs bs max hs D1 D2|F a n cs lemma a' H IH Hok HC E|F a ls H IH Hok HL|F a cb H IH Hok|F a Os fuel k x a' H IH Hok E].
    - apply ar_new_r; assumption. - apply (ar_init_r C any_aop F a n cs lemma a' IH I HC E). - apply (ar_assume_r C any_aop F a ls IH I HL).
    - apply (ar_callback_r C any_aop F a cb IH I). - apply (ar_solve_r C any_aop F a Os fuel k x a' IH I E). }
  destruct (areach_inv C any_aop F a I I H') as (D1 & D2 & _). auto.
Qed.
Lemma one_solve C (ok : aop -> Prop) F a Os fuel k : areach C ok F a -> ar_max a <> 0%Z -> 0 < k ->
  ar_solve C Os fuel k a =
    (s <- solver_init 0 [] true (ar_in a) ;; ' (x, s') <- solve C (Os 0) fuel (solver_assume [] s) ;;
     Ok (r_status x, mkAr s' x (ar_vars a) (ar_eqs a) (ar_bs a) (ar_max a) [] (ar_lits a))).
Proof.
  intros H HM HK. destruct (areach_distinct C ok F a H) as (D1 & D2). rewrite (solve_plain C Os fuel k a D1 D2 HM HK). unfold plain.
  destruct (solver_init 0 [] true (ar_in a)); reflexivity.
Qed.
Lemma main_unsat C Os fuel k p min_gates max limits heur gates eqs bs a' :
  (forall c, In c eqs -> distinct_vars c) -> distinct_vars bs -> Forall (clause_ok (variables p)) (problem p) -> max <> 0%Z ->
  rsar_main C Os fuel k p (createRSARSolver C min_gates max limits heur gates (Some (eqs, bs))) = Some (Ok (Some false, a')) -> unsat (problem p).
Proof.
  intros D1 D2 HP HM E. unfold createRSARSolver in E. destruct gates as [g|]; [|discriminate]. destruct (g <? min_gates); [discriminate|].
  assert (K : rsar_main C Os fuel k p (Created (ar_new C eqs bs max [heur limits])) = Some (Ok (Some false, a'))).
  { destruct eqs, bs, limits; first [discriminate|exact E]. }
  cbn [rsar_main] in K. injection K as K. destruct (ar_init (variables p) (problem p) true (ar_new C eqs bs max [heur limits])) as [a1|] eqn:E1; cbn [bind] in K; [|discriminate].
  assert (R : areach C any_aop ([] ++ problem p) a1).
  { apply (ar_init_r C any_aop [] _ (variables p) (problem p) true a1 (ar_new_r C any_aop eqs bs max [heur limits] D1 D2) I); [|exact E1].
    change (nvars (ar_in (ar_new C eqs bs max [heur limits]))) with 0. rewrite Nat.max_0_r. exact HP. }
  simpl in R. apply (ar_unsat_plain C (problem p) a1 Os fuel k a' R); [|exact K].
  unfold ar_init in E1. destruct (solver_init _ _ _ _); cbn [bind] in E1; [|discriminate]. injection E1 as <-. exact HM.
Qed.
Lemma main_model C Os fuel k p min_gates max limits heur gates eqs bs a' : c_inproc C = 0%N ->
  (forall c, In c eqs -> distinct_vars c) -> distinct_vars bs -> Forall (clause_ok (variables p)) (problem p) ->
  rsar_main C Os fuel k p (createRSARSolver C min_gates max limits heur gates (Some (eqs, bs))) = Some (Ok (Some true, a')) -> model_sat (r_model (ar_res a')) (problem p).
Proof.
  intros HI D1 D2 HP E. unfold createRSARSolver in E. destruct gates as [g|]; [|discriminate]. destruct (g <? min_gates); [discriminate|].
  assert (K : rsar_main C Os fuel k p (Created (ar_new C eqs bs max [heur limits])) = Some (Ok (Some true, a'))).
  { destruct eqs, bs, limits; first [discriminate|exact E]. }
  cbn [rsar_main] in K. injection K as K. destruct (ar_init (variables p) (problem p) true (ar_new C eqs bs max [heur limits])) as [a1|] eqn:E1; cbn [bind] in K; [|discriminate].
  assert (R : areach C loading_aop ([] ++ problem p) a1).
  { apply (ar_init_r C loading_aop [] _ (variables p) (problem p) true a1 (ar_new_r C loading_aop eqs bs max [heur limits] D1 D2) eq_refl); [|exact E1].
    change (nvars (ar_in (ar_new C eqs bs max [heur limits]))) with 0. rewrite Nat.max_0_r. exact HP. }
  simpl in R. apply (ar_model_first C (problem p) a1 Os fuel k a' HI R K).
Qed.
Lemma main_default C Os fuel k p min_gates max heur gates conj :
  let r := rsar_main C Os fuel k p (createRSARSolver C min_gates max [] heur gates conj) in r = None \/ r = Some (Err UB).
Proof.
  intros r. subst r. unfold createRSARSolver. destruct gates as [g|], conj as [(eqs, bs)|]; cbn [rsar_main]; auto. destruct (g <? min_gates); cbn [rsar_main]; auto. destruct eqs, bs; cbn [rsar_main]; auto.
Qed.
Lemma main_too_few C Os fuel k p min_gates max limits heur g conj : g < min_gates ->
  rsar_main C Os fuel k p (createRSARSolver C min_gates max limits heur (Some g) conj) = Some (Err UB).
Proof. intros H. unfold createRSARSolver. destruct conj as [(eqs, bs)|]; [|reflexivity]. apply Nat.ltb_lt in H. rewrite H. reflexivity. Qed.

Lemma main_runs C Os fuel k p min_gates max limits heur g eqs bs : min_gates <= g -> (eqs <> [] \/ bs <> []) -> limits <> [] ->
  rsar_main C Os fuel k p (createRSARSolver C min_gates max limits heur (Some g) (Some (eqs, bs))) =
  Some (a <- ar_init (variables p) (problem p) true (ar_new C eqs bs max [heur limits]) ;; ar_solve C Os fuel k a).
Proof.
  intros Hg Hc Hl. unfold createRSARSolver. replace (g <? min_gates) with false by (symmetry; apply Nat.ltb_ge; exact Hg).
  destruct eqs, bs, limits; try reflexivity; try contradiction; destruct Hc; contradiction.
Qed.
