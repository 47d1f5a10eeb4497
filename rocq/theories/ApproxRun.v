(** Proofs of C48: runs of a refinement strategy. *)
Require Import List Arith Bool Lia Permutation Sorted.
Require Import Verif.Base Verif.Outcome Verif.ApproxModel Verif.ApproxSpec Verif.ApproxLemmas Verif.ApproxProofs Verif.ApproxMore Verif.ApproxRefine Verif.ApproxTags.
Import ListNotations.

Fixpoint stepcls (m : list (list var)) (cs : list (list lit)) : list (list lit) :=
  match cs with [] => [] | c :: r => out_of (hd [] m) c :: stepcls (tl m) r end.
Lemma marks_ei : forall q e c, EI e c -> EI (fold_left ei_mark q e) c /\ (forall v, In v (ei_queue (fold_left ei_mark q e)) <-> In v (ei_queue e) \/ In v q) /\
  ei_list (fold_left ei_mark q e) = ei_list e.
Proof.
  induction q as [|v q IH]; intros e c H; simpl; [split; [exact H|]; split; [intros v; tauto|reflexivity]|].
  destruct H as (H1 & H2 & H3). destruct (IH (ei_mark e v) c) as (A & B & C).
  { split; [exact H1|]. split; [|exact H3]. cbn [ei_mark ei_queue]. apply sput_sorted. exact H2. }
  split; [exact A|]. split; [|exact C]. intros w. rewrite B. cbn [ei_mark ei_queue]. rewrite sput_in. intuition.
Qed.
Lemma mark_all_ok : forall es cs m, Forall2 EI es cs -> Forall idle es ->
  Forall2 EI (mark_all es m) cs /\ keep_all (mark_all es m) cs = stepcls m cs /\ impls (mark_all es m) = impls es.
Proof.
  intros es cs m H. revert m. induction H as [|e c es cs H1 H2 IH]; intros m HI; simpl; [split; [constructor|split; reflexivity]|].
  inversion HI as [|? ? I1 I2]; subst. destruct (IH (tl m) I2) as (A & B & C). destruct (marks_ei (hd [] m) e c H1) as (A1 & B1 & C1).
  split; [constructor; assumption|]. split; [|unfold impls in *; rewrite C1, C; reflexivity]. rewrite B. f_equal. apply out_of_ext. intros w _.
  red in I1. rewrite I1 in B1. simpl in B1.
  destruct (smem (lvar w) (ei_queue (fold_left ei_mark (hd [] m) e))) eqn:E1, (smem (lvar w) (hd [] m)) eqn:E2; try reflexivity.
  - apply smem_in in E1. apply smem_nin in E2. apply B1 in E1. tauto.
  - apply smem_nin in E1. apply smem_in in E2. exfalso. apply E1, B1. auto.
Qed.
Lemma marks_bb : forall q b ls, BI b ls -> BI (fold_left bb_mark q b) ls /\ (forall v, In v (bb_queue (fold_left bb_mark q b)) <-> In v (bb_queue b) \/ In v q) /\
  bb_list (fold_left bb_mark q b) = bb_list b.
Proof.
  induction q as [|v q IH]; intros b ls H; simpl; [split; [exact H|]; split; [intros v; tauto|reflexivity]|].
  destruct (IH (bb_mark b v) ls H) as (A & B & C). split; [exact A|]. split; [|exact C]. intros w. rewrite B. cbn [bb_mark bb_queue]. rewrite sput_in. intuition.
Qed.

Record INV (start : var) (s : strategy) (T : tags) (cls : list (list lit)) (bl : list lit) : Prop := mkINV {
  v_sb : SB start s T;
  v_ei : Forall2 EI (as_eqs (rs_app s)) cls;
  v_id : Forall idle (as_eqs (rs_app s));
  v_dv : distinct_vars (concat cls);
  v_bi : BI (as_bbs (rs_app s)) bl;
  v_bq : bb_queue (as_bbs (rs_app s)) = [];
  v_ti : forall i, In (TI i, true) T <-> In i (impls (as_eqs (rs_app s)));
  v_di : forall i, In (TI i, false) T -> ~ (In (fst i) (concat cls) /\ In (snd i) (concat cls));
  v_tb : forall l, In (TB l, true) T <-> In l bl;
  v_db : forall l, In (TB l, false) T -> ~ In l bl }.

(** marking and committing of the approximation state *)
Lemma app_step A cls bl m : Forall2 EI (as_eqs A) cls -> Forall idle (as_eqs A) -> distinct_vars (concat cls) -> BI (as_bbs A) bl -> bb_queue (as_bbs A) = [] ->
  let A1 := updateApproximationState m A in
  exists es n r, commit_all (as_eqs A1) = Ok (es, n, r) /\
    Forall2 EI es (stepcls (mk_eq m) cls) /\ Forall idle es /\ distinct_vars (concat (stepcls (mk_eq m) cls)) /\
    (forall i, In i (impls es) <-> (In i (impls (as_eqs A)) /\ ~ In i r) \/ In i n) /\ (forall i, In i r -> In i (impls (as_eqs A))) /\
    (forall i, In i r -> ~ (In (fst i) (concat (stepcls (mk_eq m) cls)) /\ In (snd i) (concat (stepcls (mk_eq m) cls)))) /\
    NoDup (impls (as_eqs A) ++ n) /\ (forall l, In l (concat (stepcls (mk_eq m) cls)) -> In l (concat cls)) /\
    BI (fst (bb_commit (as_bbs A1))) (out_of (mk_bb m) bl) /\ bb_queue (fst (bb_commit (as_bbs A1))) = [] /\
    Permutation (bb_list (as_bbs A)) (bb_list (fst (bb_commit (as_bbs A1))) ++ snd (bb_commit (as_bbs A1))).
Proof.
  intros H1 H2 H3 H4 H5 A1. destruct (mark_all_ok (as_eqs A) cls (mk_eq m) H1 H2) as (M1 & M2 & M3).
  destruct (commit_all_ok _ _ M1 H3) as (es & n & r & E & I1 & I2 & I3 & I4 & I5 & I6 & I7 & _). rewrite M2 in *. rewrite M3 in *.
  exists es, n, r. split; [exact E|]. split; [exact I1|]. split; [exact I2|]. split; [exact I3|]. split; [exact I4|]. split; [exact I5|]. split; [exact I6|]. split; [exact I7|].
  split; [intros l Hl; rewrite <- M2 in Hl; apply keep_all_sub in Hl; exact Hl|].
  assert (K : exists Q, BI (as_bbs A1) bl /\ bb_list (as_bbs A1) = bb_list (as_bbs A) /\ bb_queue (as_bbs A1) = Q /\ out_of Q bl = out_of (mk_bb m) bl).
  { exists (bb_queue (as_bbs A1)). unfold A1, updateApproximationState. cbn [as_bbs]. destruct (bb_list (as_bbs A)) as [|x xs] eqn:El.
    - split; [exact H4|]. split; [exact El|]. split; [reflexivity|]. destruct H4 as (_ & _ & _ & P). rewrite El in P. apply Permutation_nil in P. rewrite P. reflexivity.
    - destruct (marks_bb (mk_bb m) (as_bbs A) bl H4) as (B1 & B2 & B3). split; [exact B1|]. split; [congruence|]. split; [reflexivity|]. apply out_of_ext. intros w _.
      rewrite H5 in B2. destruct (smem (lvar w) (bb_queue (fold_left bb_mark (mk_bb m) (as_bbs A)))) eqn:F1, (smem (lvar w) (mk_bb m)) eqn:F2; try reflexivity.
      + apply smem_in in F1. apply smem_nin in F2. apply B2 in F1. destruct F1 as [[]|F1]. tauto.
      + apply smem_nin in F1. apply smem_in in F2. exfalso. apply F1, B2. auto. }
  destruct K as (Q & K1 & K2 & K3 & K4). pose proof (bi_commit (as_bbs A1) bl K1) as K. destruct (bb_commit (as_bbs A1)) as (b' & d). destruct K as (K5 & K6 & K7).
  cbn [fst snd]. rewrite K3, K4 in K5. rewrite K2 in K7. auto.
Qed.
Lemma bi_nodup b ls : BI b ls -> NoDup (bb_list b).
Proof. intros (H & _ & _ & P). eapply Permutation_NoDup; [apply Permutation_sym; exact P|]. apply (NoDup_map_inv lvar). exact H. Qed.
Lemma bi_in b ls l : BI b ls -> In l (bb_list b) <-> In l ls.
Proof. intros (_ & _ & _ & P). split; apply Permutation_in; [exact P|apply Permutation_sym; exact P]. Qed.
Lemma in_fresh ts t b : In (t, b) (fresh_tags ts) <-> b = true /\ In t ts.
Proof.
  unfold fresh_tags. rewrite in_map_iff. split; [intros (x & E & H); injection E as <- <-; auto|intros (-> & H); exists t; auto].
Qed.
Lemma in_ti i n : In (TI i) (map TI n) <-> In i n.
Proof. rewrite in_map_iff. split; [intros (x & E & H); injection E as <-; exact H|intros H; exists i; auto]. Qed.
Lemma in_tb i n : In (TB i) (map TB n) <-> In i n.
Proof. rewrite in_map_iff. split; [intros (x & E & H); injection E as <-; exact H|intros H; exists i; auto]. Qed.
Lemma nin_ti_tb i n : ~ In (TI i) (map TB n).
Proof. rewrite in_map_iff. intros (x & E & _). discriminate. Qed.
Lemma nin_tb_ti l n : ~ In (TB l) (map TI n).
Proof. rewrite in_map_iff. intros (x & E & _). discriminate. Qed.
Lemma nodup_map_ti n : NoDup n -> NoDup (map TI n).
Proof. intros H. induction H as [|x n H1 H2 IH]; simpl; constructor; [rewrite in_ti; exact H1|exact IH]. Qed.
Lemma nodup_map_tb n : NoDup n -> NoDup (map TB n).
Proof. intros H. induction H as [|x n H1 H2 IH]; simpl; constructor; [rewrite in_tb; exact H1|exact IH]. Qed.
Lemma set_app_sb start s T A : SB start s T -> SB start (set_app s A) T.
Proof. intros H. exact H. Qed.
Lemma mk_enc_ok start s T cs : SB start s T -> n_clauses (mk_enc (s, cs)) = cs /\ n_assume (mk_enc (s, cs)) = lits_of start T /\ n_enabled (mk_enc (s, cs)) = length (filter snd T).
Proof.
  intros (_ & H & _). unfold mk_enc. cbn [n_clauses n_assume n_enabled fst snd]. rewrite H. split; [reflexivity|]. split; [reflexivity|]. apply enabled_count.
Qed.

Lemma init_ok start eqs bs m : distinct_vars (concat eqs) -> distinct_vars bs ->
  exists s n T, rs_init m (rs_new eqs bs start) = Ok (s, n) /\ INV start s T (stepcls (mk_eq m) eqs) (out_of (mk_bb m) bs) /\
    n_clauses n = clauses_of start T /\ n_assume n = lits_of start T /\ n_enabled n = length (filter snd T).
Proof.
  intros D1 D2. assert (F : Forall2 EI (map ei_new eqs) eqs /\ Forall idle (map ei_new eqs)).
  { clear D2. induction eqs as [|c r IH]; simpl; [split; constructor|]. simpl in D1. apply distinct_app in D1. destruct D1 as (N1 & N2 & _).
    destruct (IH N2). destruct (new_ok c N1). split; constructor; assumption. }
  destruct F as (F1 & F2). destruct (app_step (as_new eqs bs) eqs bs m F1 F2 D1 (bb_new_ok bs D2) eq_refl) as (es & n & r & E & I1 & I2 & I3 & I4 & I5 & I6 & I7 & I8 & B1 & B2 & B3).
  unfold rs_init. cbn [rs_new rs_app]. unfold createInitializationDelta. rewrite E. cbn [bind]. set (bc := bb_commit _) in *. destruct bc as (b & rb). cbn [bind fst snd] in *.
  unfold encodeInitial. cbn [d_added set_app rs_app as_bbs].
  set (s0 := set_app (rs_new eqs bs start) (mkApprox es b)).
  assert (S0 : SB start s0 []). { split; [cbn; lia|]. split; [reflexivity|]. split; [constructor|]. intros [|k] t x Hk; discriminate. }
  assert (NI : NoDup (flat_map ei_list es)) by (apply (impls_nodup es _ I1 I3)).
  destruct (encode_impls_ok start (flat_map ei_list es) s0 [] [] S0 NI) as (s1 & E1 & S1 & A1); [intros i _ []|].
  destruct (encode_bbs_ok start (bb_list b) s1 _ ([] ++ clauses_of (start + 0) (fresh_tags (map TI (flat_map ei_list es)))) S1 (bi_nodup _ _ B1)) as (s2 & E2 & S2 & A2).
  { intros l _ F. simpl in F. rewrite fresh_fst in F. apply nin_tb_ti in F. exact F. }
  cbn [length] in E1. change (fold_left encode_one (flat_map ei_list es) (_, _)) with (fold_left encode_one (flat_map ei_list es) (s0, [])). rewrite E1. rewrite E2. cbn [fst].
  set (T := ([] ++ fresh_tags (map TI (flat_map ei_list es))) ++ fresh_tags (map TB (bb_list b))) in *.
  exists s2. eexists. exists T. split; [reflexivity|].
  assert (EA : rs_app s2 = mkApprox es b) by (rewrite A2, A1; reflexivity). split; [|].
  - constructor; try rewrite EA; cbn [as_eqs as_bbs]; auto.
    + intros i. unfold T. simpl. rewrite in_app_iff, !in_fresh, in_ti. pose proof (nin_ti_tb i (bb_list b)). unfold impls. tauto.
    + intros i Hi. unfold T in Hi. simpl in Hi. rewrite in_app_iff, !in_fresh in Hi. destruct Hi as [(Hi & _)|(Hi & _)]; discriminate.
    + intros i. unfold T. simpl. rewrite in_app_iff, !in_fresh, in_tb, (bi_in _ _ i B1). pose proof (nin_tb_ti i (flat_map ei_list es)). tauto.
    + intros i Hi. unfold T in Hi. simpl in Hi. rewrite in_app_iff, !in_fresh in Hi. destruct Hi as [(Hi & _)|(Hi & _)]; discriminate.
  - match goal with |- context [mk_enc (s2, ?X)] => destruct (mk_enc_ok start s2 T X S2) as (K1 & K2 & K3) end. rewrite K1, K2, K3. split; [|auto]. unfold T. rewrite clauses_app. simpl. rewrite Nat.add_0_r. reflexivity.
Qed.

Lemma refine_ok start s T cls bl m : INV start s T cls bl ->
  exists s' n T', rs_refine m s = Ok (s', n) /\ INV start s' T' (stepcls (mk_eq m) cls) (out_of (mk_bb m) bl) /\
    clauses_of start T ++ n_clauses n = clauses_of start T' /\ n_assume n = lits_of start T' /\ n_enabled n = length (filter snd T').
Proof.
  intros [V1 V2 V3 V4 V5 V6 V7 V8 V9 V10].
  destruct (app_step (rs_app s) cls bl m V2 V3 V4 V5 V6) as (es & n & r & E & I1 & I2 & I3 & I4 & I5 & I6 & I7 & I8 & B1 & B2 & B3).
  unfold rs_refine, createDelta. rewrite E. cbn [bind]. set (bc := bb_commit _) in *. destruct bc as (b & rb). cbn [bind fst snd] in *.
  unfold updateAssumptionLiterals. cbn [d_bbs d_removed]. set (s0 := set_app s (mkApprox es b)).
  assert (S0 : SB start s0 T) by exact V1.
  assert (RB : forall l, In l rb -> In l bl /\ ~ In l (bb_list b)).
  { intros l Hl. pose proof (bi_nodup _ _ V5) as N. split.
    - apply (bi_in _ _ l V5). apply (Permutation_in _ (Permutation_sym B3)). apply in_or_app. auto.
    - intros F. apply (Permutation_NoDup B3) in N. apply (nodup_app_disj _ _ l N); assumption. }
  destruct (kill_all s0 start (map TB rb ++ map TI r) T (proj1 (proj2 (proj2 S0))) (proj2 (proj2 (proj2 S0)))) as (T1 & E1 & F1 & K1 & K2).
  { intros t Ht. apply in_app_or in Ht. destruct Ht as [Ht|Ht]; apply in_map_iff in Ht; destruct Ht as (x & <- & Hx).
    - apply in_map_iff. exists (TB x, true). split; [reflexivity|]. apply V9. apply RB. exact Hx.
    - apply in_map_iff. exists (TI x, true). split; [reflexivity|]. apply V7. apply I5. exact Hx. }
  rewrite map_app, !map_map in E1. cbn [tag_pos] in E1. change (rs_lits s0) with (rs_lits s).
  rewrite (proj1 (proj2 V1)). rewrite E1. cbn [bind].
  set (s1 := mkRs _ _ _ _ _).
  assert (S1 : SB start s1 T1).
  { destruct V1 as (W1 & W2 & W3 & W4). assert (EL : length T1 = length T) by (rewrite <- (map_length fst T1), F1; apply map_length).
    split; [cbn; rewrite EL; exact W1|]. split; [reflexivity|]. split; [rewrite F1; exact W3|]. apply (pos_tags s1 T); [symmetry; exact F1|exact W4]. }
  unfold encode. cbn [d_added].
  assert (NN : NoDup n) by (apply (nodup_app_r _ _ I7)).
  assert (Hn : forall i, In i n -> ~ In (TI i) (map fst T1)).
  { intros i Hi F. rewrite F1 in F. apply in_map_iff in F. destruct F as ((t, x) & Et & F). simpl in Et. subst t. destruct x.
    - apply V7 in F. apply (nodup_app_disj _ _ i I7 F Hi).
    - apply V8 in F. apply F. assert (G : In i (impls es)) by (apply I4; auto). apply (impls_in _ _ i I1) in G. split; apply I8; tauto. }
  destruct (encode_impls_ok start n s1 T1 [] S1 NN Hn) as (s2 & E2 & S2 & A2). rewrite E2. cbn [fst app].
  set (T2 := T1 ++ fresh_tags (map TI n)) in *. exists s2. eexists. exists T2. split; [reflexivity|].
  assert (EA : rs_app s2 = mkApprox es b) by (rewrite A2; reflexivity).
  assert (KT : forall i, In (TI i) (map TB rb ++ map TI r) <-> In i r).
  { intros i. rewrite in_app_iff, in_ti. pose proof (nin_ti_tb i rb). tauto. }
  assert (KB : forall i, In (TB i) (map TB rb ++ map TI r) <-> In i rb).
  { intros i. rewrite in_app_iff, in_tb. pose proof (nin_tb_ti i r). tauto. }
  assert (BL : forall l, In l (out_of (mk_bb m) bl) <-> In l bl /\ ~ In l rb).
  { intros l. rewrite <- (bi_in _ _ l B1), <- (bi_in _ _ l V5). split.
    - intros Hl. split; [apply (Permutation_in _ (Permutation_sym B3)); apply in_or_app; auto|]. intros F. apply RB in F. tauto.
    - intros (H1 & H2). apply (Permutation_in _ B3) in H1. apply in_app_or in H1. tauto. }
  split; [|].
  - constructor; try rewrite EA; cbn [as_eqs as_bbs]; auto.
    + intros i. unfold T2. rewrite in_app_iff, in_fresh, in_ti, K1, KT, V7, I4. tauto.
    + intros i Hi. unfold T2 in Hi. rewrite in_app_iff, in_fresh, K2, KT in Hi. destruct Hi as [[Hi|Hi]|(Hi & _)]; [|apply I6; exact Hi|discriminate].
      apply V8 in Hi. intros (G1 & G2). apply Hi. auto.
    + intros l. unfold T2. rewrite in_app_iff, in_fresh, K1, KB, V9, BL. pose proof (nin_tb_ti l n). tauto.
    + intros l Hl. unfold T2 in Hl. rewrite in_app_iff, in_fresh, K2, KB in Hl. rewrite BL. destruct Hl as [[Hl|Hl]|(Hl & _)]; [|tauto|discriminate].
      apply V10 in Hl. tauto.
  - destruct (mk_enc_ok start s2 T2 (clauses_of (start + length T1) (fresh_tags (map TI n))) S2) as (W1 & W2 & W3). rewrite W1, W2, W3. split; [|auto].
    unfold T2. rewrite clauses_app, (clauses_tags T1 T start F1). reflexivity.
Qed.

Fixpoint runcls (ms : list marks) (cls : list (list lit)) : list (list lit) := match ms with [] => cls | m :: r => runcls r (stepcls (mk_eq m) cls) end.
Fixpoint runbb (ms : list marks) (bl : list lit) : list lit := match ms with [] => bl | m :: r => runbb r (out_of (mk_bb m) bl) end.
Lemma refine_all_ok start : forall ms s T cls bl n, INV start s T cls bl -> n_assume n = lits_of start T -> n_enabled n = length (filter snd T) ->
  exists s' T' n', refine_all ms s (clauses_of start T) n = Ok (s', clauses_of start T', n') /\ INV start s' T' (runcls ms cls) (runbb ms bl) /\
    n_assume n' = lits_of start T' /\ n_enabled n' = length (filter snd T').
Proof.
  induction ms as [|m ms IH]; intros s T cls bl n HV H1 H2.
  - exists s, T, n. simpl. auto.
  - destruct (refine_ok start s T cls bl m HV) as (s1 & n1 & T1 & E1 & V1 & C1 & A1 & N1). cbn [refine_all]. rewrite E1. cbn [bind]. rewrite C1.
    apply (IH s1 T1 _ _ n1 V1 A1 N1).
Qed.
Lemma run_all_ok start eqs bs m0 ms : distinct_vars (concat eqs) -> distinct_vars bs ->
  exists s T n, rs_run m0 ms (rs_new eqs bs start) = Ok (s, clauses_of start T, n) /\ INV start s T (runcls (m0 :: ms) eqs) (runbb (m0 :: ms) bs) /\
    n_assume n = lits_of start T /\ n_enabled n = length (filter snd T).
Proof.
  intros D1 D2. destruct (init_ok start eqs bs m0 D1 D2) as (s & n & T & E & V & C & A & N). unfold rs_run. rewrite E. cbn [bind]. rewrite C.
  apply (refine_all_ok start ms s T _ _ n V A N).
Qed.
Lemma runbb_keep ms : forall bs, runbb ms bs = keep (gone_bb ms) bs.
Proof.
  induction ms as [|m ms IH]; intros bs; simpl.
  - unfold keep. simpl. induction bs; simpl; congruence.
  - rewrite IH. change (keep (gone_bb ms)) with (out_of (gone_bb ms)). rewrite out_of_out_of. reflexivity.
Qed.
Lemma stepcls_nth : forall cs m k, nth k (stepcls m cs) [] = out_of (nth k m []) (nth k cs []).
Proof.
  induction cs as [|c r IH]; intros m [|k]; simpl; try (unfold out_of; reflexivity).
  - destruct m; reflexivity.
  - rewrite IH. destruct m as [|x m]; simpl; [destruct k; reflexivity|reflexivity].
Qed.
Lemma stepcls_length : forall cs m, length (stepcls m cs) = length cs.
Proof. induction cs as [|c r IH]; intros m; simpl; [reflexivity|]. rewrite IH. reflexivity. Qed.
Lemma runcls_length ms : forall cs, length (runcls ms cs) = length cs.
Proof. induction ms as [|m ms IH]; intros cs; simpl; [reflexivity|]. rewrite IH. apply stepcls_length. Qed.
Lemma runcls_nth ms : forall cs k, nth k (runcls ms cs) [] = keep (gone_eq k ms) (nth k cs []).
Proof.
  induction ms as [|m ms IH]; intros cs k; simpl.
  - unfold keep. simpl. induction (nth k cs []); simpl; congruence.
  - rewrite IH, stepcls_nth. change (keep (gone_eq k ms)) with (out_of (gone_eq k ms)). rewrite out_of_out_of. reflexivity.
Qed.
Lemma list_nth_seq (ls : list (list lit)) : map (fun k => nth k ls []) (seq 0 (length ls)) = ls.
Proof.
  induction ls as [|a r IH]; simpl; [reflexivity|]. f_equal. rewrite <- seq_shift, map_map. exact IH.
Qed.
Lemma runcls_current ms eqs : runcls ms eqs = current eqs ms.
Proof.
  rewrite <- (list_nth_seq (runcls ms eqs)), runcls_length. unfold current. apply map_ext. intros k. apply runcls_nth.
Qed.

(** ** Theorems *)
Lemma impls_ring es : forall cs, Forall2 EI es cs -> Permutation (impls es) (flat_map ring cs).
Proof. intros cs H. induction H as [|e c es cs H1 H2 IH]; simpl; [constructor|]. apply Permutation_app; [apply ei_list_ring; exact H1|exact IH]. Qed.
Lemma tags_meaning start s T cls bl a : INV start s T cls bl ->
  (forall t, In (t, true) T -> tag_holds a t) <-> (forall c, In c cls -> all_equal a c) /\ (forall l, In l bl -> lit_holds a l).
Proof.
  intros V. pose proof (impls_ring _ _ (v_ei _ _ _ _ _ V)) as P. split.
  - intros H. split.
    + intros c Hc. apply ring_meaning. intros i Hi. apply (H (TI i)). apply (v_ti _ _ _ _ _ V). apply (Permutation_in _ (Permutation_sym P)). apply in_flat_map. exists c. auto.
    + intros l Hl. apply (H (TB l)). apply (v_tb _ _ _ _ _ V). exact Hl.
  - intros (H1 & H2) [i|l] Ht; cbn [tag_holds].
    + apply (v_ti _ _ _ _ _ V) in Ht. apply (Permutation_in _ P) in Ht. apply in_flat_map in Ht. destruct Ht as (c & Hc & Hi). apply (proj2 (ring_meaning a c) (H1 c Hc) i Hi).
    + apply H2. apply (v_tb _ _ _ _ _ V). exact Ht.
Qed.
Lemma approx_meaning eqs bs ms a : approximation eqs bs ms a <-> (forall c, In c (runcls ms eqs) -> all_equal a c) /\ (forall l, In l (runbb ms bs) -> lit_holds a l).
Proof.
  unfold approximation. rewrite runbb_keep. split; intros (H1 & H2); (split; [|exact H2]).
  - intros c Hc. apply In_nth_error in Hc. destruct Hc as (k & Hk). assert (L : k < length eqs) by (rewrite <- (runcls_length ms eqs); apply nth_error_Some; congruence).
    destruct (nth_error eqs k) as [ls|] eqn:E; [|apply nth_error_None in E; lia]. pose proof (H1 k ls E) as K.
    apply (nth_error_nth _ _ ([] : list lit)) in Hk. rewrite runcls_nth in Hk. rewrite (nth_error_nth _ _ ([] : list lit) E) in Hk. rewrite <- Hk. exact K.
  - intros k ls E. assert (L : k < length (runcls ms eqs)) by (rewrite runcls_length; apply nth_error_Some; congruence).
    pose proof (H1 _ (nth_In _ ([] : list lit) L)) as K. rewrite runcls_nth in K. rewrite (nth_error_nth _ _ ([] : list lit) E) in K. exact K.
Qed.
Lemma nth_true_in (T : tags) t : In (t, true) T <-> exists k, nth_error T k = Some (t, true).
Proof. split; [apply In_nth_error|intros (k & H); apply nth_error_In in H; exact H]. Qed.

Lemma strategy_sound eqs bs next m0 ms s cs n a : conj_ok eqs bs next -> rs_run m0 ms (rs_new eqs bs next) = Ok (s, cs, n) ->
  sat a cs -> (forall l, In l (n_assume n) -> lit_holds a l) -> approximation eqs bs (m0 :: ms) a.
Proof.
  intros (D1 & D2 & _) E. destruct (run_all_ok next eqs bs m0 ms D1 D2) as (s' & T & n' & E' & V & A & _). rewrite E' in E. injection E as <- <- <-.
  intros HS HL. apply approx_meaning. apply (tags_meaning next s' T _ _ a V). intros t Ht. apply nth_true_in in Ht. destruct Ht as (k & Hk).
  rewrite A in HL. apply (proj1 (clauses_sat a T next) HS k t true Hk). apply (proj1 (lits_hold a T next) HL k t true Hk).
Qed.
Definition extend (a : assignment) (n : var) (T : tags) : assignment := fun v => if v <? n then a v else match nth_error T (v - n) with Some (_, x) => x | None => false end.
Lemma extend_below a n T : agree_below n (extend a n T) a.
Proof. intros v H. unfold extend. apply Nat.ltb_lt in H. rewrite H. reflexivity. Qed.
Lemma extend_at a n T k t x : nth_error T k = Some (t, x) -> extend a n T (n + k) = x.
Proof.
  intros H. unfold extend. destruct (Nat.ltb_spec (n + k) n); [lia|]. replace (n + k - n) with k by lia. rewrite H. reflexivity.
Qed.
Lemma agree_lit n a b l : agree_below n a b -> lvar l < n -> lit_val a l = lit_val b l.
Proof. intros H L. unfold lit_val. rewrite (H _ L). reflexivity. Qed.
Lemma approx_agree eqs bs next ms a b : conj_ok eqs bs next -> agree_below next a b -> approximation eqs bs ms a -> approximation eqs bs ms b.
Proof.
  intros (_ & _ & H) HA (H1 & H2). split.
  - intros k ls E x y Hx Hy. assert (K : forall z, In z (keep (gone_eq k ms) ls) -> lvar z < next).
    { intros z Hz. apply filter_In in Hz. apply H. apply in_or_app. left. apply in_concat. exists ls. split; [apply nth_error_In in E; exact E|tauto]. }
    rewrite <- (agree_lit next a b x HA (K x Hx)), <- (agree_lit next a b y HA (K y Hy)). apply (H1 k ls E); assumption.
  - intros l Hl. assert (L : lvar l < next). { apply H. apply in_or_app. right. apply filter_In in Hl. tauto. }
    specialize (H2 l Hl). unfold lit_holds in *. rewrite <- (agree_lit next a b l HA L). exact H2.
Qed.
Lemma strategy_complete eqs bs next m0 ms s cs n a : conj_ok eqs bs next -> rs_run m0 ms (rs_new eqs bs next) = Ok (s, cs, n) ->
  approximation eqs bs (m0 :: ms) a -> exists b, agree_below next b a /\ sat b cs /\ (forall l, In l (n_assume n) -> lit_holds b l).
Proof.
  intros HC E. pose proof HC as (D1 & D2 & _). destruct (run_all_ok next eqs bs m0 ms D1 D2) as (s' & T & n' & E' & V & A & _). rewrite E' in E. injection E as <- <- <-.
  intros HA. exists (extend a next T). split; [apply extend_below|]. rewrite A.
  assert (HA' : approximation eqs bs (m0 :: ms) (extend a next T)).
  { apply (approx_agree eqs bs next (m0 :: ms) a); [exact HC|intros v Hv; symmetry; apply (extend_below a next T v Hv)|exact HA]. }
  apply approx_meaning in HA'. pose proof (proj2 (tags_meaning next s' T _ _ (extend a next T) V) HA') as HT. split.
  - apply clauses_sat. intros k t x Hk Hx. rewrite (extend_at a next T k t x Hk) in Hx. subst x. apply HT. apply nth_error_In in Hk. exact Hk.
  - apply lits_hold. intros k t x Hk. apply (extend_at a next T k t x Hk).
Qed.
Lemma strategy_defined eqs bs next m0 ms : conj_ok eqs bs next -> exists s cs n, rs_run m0 ms (rs_new eqs bs next) = Ok (s, cs, n).
Proof. intros (D1 & D2 & _). destruct (run_all_ok next eqs bs m0 ms D1 D2) as (s & T & n & E & _). eauto. Qed.
Lemma lits_vars T : forall v, map lvar (lits_of v T) = seq v (length T).
Proof. induction T as [|(t, x) T IH]; intros v; simpl; [reflexivity|]. rewrite lvar_mk, IH. reflexivity. Qed.
Lemma strategy_vars eqs bs next m0 ms s cs n : conj_ok eqs bs next -> rs_run m0 ms (rs_new eqs bs next) = Ok (s, cs, n) ->
  map lvar (n_assume n) = seq next (length cs) /\ rs_next s = next + length cs.
Proof.
  intros (D1 & D2 & _) E. destruct (run_all_ok next eqs bs m0 ms D1 D2) as (s' & T & n' & E' & V & A & _). rewrite E' in E. injection E as <- <- <-.
  rewrite A, clauses_length, lits_vars. split; [reflexivity|]. apply (proj1 (v_sb _ _ _ _ _ V)).
Qed.
Lemma strategy_guard eqs bs next m0 ms s cs n : conj_ok eqs bs next -> rs_run m0 ms (rs_new eqs bs next) = Ok (s, cs, n) ->
  forall k c, nth_error cs k = Some c -> exists c', c = c' ++ [mkLit (next + k) true].
Proof.
  intros (D1 & D2 & _) E. destruct (run_all_ok next eqs bs m0 ms D1 D2) as (s' & T & n' & E' & V & A & _). rewrite E' in E. injection E as <- <- <-.
  clear. revert next. induction T as [|(t, x) T IH]; intros next [|k] c H; simpl in H; try discriminate.
  - injection H as <-. rewrite Nat.add_0_r. destruct t as [i|l]; [exists [lneg (fst i); snd i]|exists [l]]; reflexivity.
  - destruct (IH (S next) k c H) as (c' & ->). exists c'. replace (next + S k) with (S next + k) by lia. reflexivity.
Qed.
Lemma strategy_enabled eqs bs next m0 ms s cs n : conj_ok eqs bs next -> rs_run m0 ms (rs_new eqs bs next) = Ok (s, cs, n) ->
  n_enabled n = length (flat_map ring (current eqs (m0 :: ms))) + length (keep (gone_bb (m0 :: ms)) bs).
Proof.
  intros (D1 & D2 & _) E. destruct (run_all_ok next eqs bs m0 ms D1 D2) as (s' & T & n' & E' & V & A & N). rewrite E' in E. injection E as <- <- <-.
  rewrite N, <- runcls_current, <- runbb_keep. rewrite <- (Permutation_length (impls_ring _ _ (v_ei _ _ _ _ _ V))).
  rewrite <- (map_length fst (filter snd T)). rewrite <- (map_length TI (impls _)), <- (map_length TB (runbb _ _)), <- app_length.
  apply Permutation_length. apply NoDup_Permutation.
  - pose proof (proj1 (proj2 (proj2 (v_sb _ _ _ _ _ V)))) as HN. clear -HN. induction T as [|(t, x) T IH]; simpl in *; [constructor|]. inversion HN as [|? ? N1 N2]; subst.
    destruct x; simpl; [|apply IH; exact N2]. constructor; [|apply IH; exact N2]. intros F. apply N1. apply in_map_iff in F. destruct F as ((u, y) & E & F). simpl in E. subst u.
    apply filter_In in F. apply in_map_iff. exists (t, y). tauto.
  - apply nodup_app.
    + apply nodup_map_ti. apply (impls_nodup _ _ (v_ei _ _ _ _ _ V) (v_dv _ _ _ _ _ V)).
    + apply nodup_map_tb. destruct (v_bi _ _ _ _ _ V) as (F & _). apply (NoDup_map_inv lvar). exact F.
    + intros t H1 H2. apply in_map_iff in H1, H2. destruct H1 as (x & <- & _), H2 as (y & F & _). discriminate.
  - intros t. rewrite in_map_iff, in_app_iff. split.
    + intros ((u, x) & Eu & H). simpl in Eu. subst u. apply filter_In in H. destruct H as (H & Hx). simpl in Hx. subst x. destruct t as [i|l].
      * left. apply in_ti. apply (v_ti _ _ _ _ _ V). exact H.
      * right. apply in_tb. apply (v_tb _ _ _ _ _ V). exact H.
    + intros H. exists (t, true). split; [reflexivity|]. apply filter_In. split; [|reflexivity]. destruct t as [i|l].
      * destruct H as [H|H]; [apply in_ti in H; apply (v_ti _ _ _ _ _ V); exact H|apply nin_ti_tb in H; tauto].
      * destruct H as [H|H]; [apply nin_tb_ti in H; tauto|apply in_tb in H; apply (v_tb _ _ _ _ _ V); exact H].
Qed.
(** the clauses alone exclude nothing: without the assumptions every assignment extends to a model of them *)
Lemma strategy_harmless eqs bs next m0 ms s cs n a : conj_ok eqs bs next -> rs_run m0 ms (rs_new eqs bs next) = Ok (s, cs, n) ->
  exists b, agree_below next b a /\ sat b cs.
Proof.
  intros (D1 & D2 & _) E. destruct (run_all_ok next eqs bs m0 ms D1 D2) as (s' & T & n' & E' & V & A & N). rewrite E' in E. injection E as <- <- <-.
  exists (extend a next []). split; [apply extend_below|]. apply clauses_sat. intros k t x _ H. unfold extend in H. destruct (Nat.ltb_spec (next + k) next); [lia|].
  destruct (next + k - next); discriminate.
Qed.
