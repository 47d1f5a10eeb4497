(** Histories of a solver object: the statements of SolverProps. *)
Require Import List Arith Bool NArith ZArith Permutation Lia.
From Coq Require Import ZifyBool ZifyNat ZifyN.
Require Import Verif.Base Verif.CNFModel Verif.CNFProofs Verif.Outcome Verif.TrailModel Verif.TrailSpec Verif.TrailProofs Verif.TrailLemmas Verif.DbModel Verif.PropModel Verif.PropProofs Verif.DbProofs
  Verif.PropSpec Verif.PropLemmas Verif.AnalyzeModel Verif.AnalyzeProofs Verif.AnalyzeLemmas Verif.SimpModel Verif.SubsProofs Verif.SimpProofs Verif.SimpSpec Verif.SimpLemmas
  Verif.VEProofs Verif.AsymmProofs Verif.AsymmLemmas Verif.ReduceModel Verif.SolverModel Verif.SolverBase Verif.SolverUnits Verif.SolverSimp Verif.SolverSearch Verif.SolverProofs Verif.SolverSpec.
Import ListNotations.

(** Loading, solving and finishing: the solver as a whole. *)

(** ** Loading clauses *)
Lemma create_all_CI P cs lem : forall d d', CI P d -> Forall (wfc (nv d)) cs -> (forall c a, In c cs -> P a -> sat_clause a c) ->
  create_all cs lem d = Ok d' -> CI P d' /\ nv d' = nv d /\ K0 d d' /\
  (lem = true -> (forall c, In c cs -> exists x, In x (cls d') /\ cwt d' x = 0%N /\ incl (clits d' x) c) /\ (nodel d -> nodel d')).
Proof.
  induction cs as [|c cs IH]; intros d d' HC HF HS E; cbn [create_all] in E.
  { injection E as <-. split; auto. split; auto. split; [apply K0_refl|]. intros _. split; [intros c []|auto]. }
  apply bind_ok in E. destruct E as ((x & d1) & E1 & E2). inversion HF as [|? ? Hc HF']; subst.
  destruct (CI_create P d _ _ _ _ _ HC Hc (fun a Ha => HS c a (or_introl eq_refl) Ha) E1) as (C1 & HK). assert (N1 : nv d1 = nv d) by apply HK.
  destruct (IH d1 d' C1) as (X1 & X2 & X3 & X4); auto; [rewrite N1; auto|intros; apply HS; cbn; auto|].
  split; auto. split; [congruence|]. split; [exact (K0_trans _ _ _ (K0_create _ _ _ _ _ _ _ (ci_D _ _ HC) E1) X3)|].
  intros Hl. destruct (X4 Hl) as (Y1 & Y2). subst lem.
  assert (Hw := createClause_wt _ _ _ _ _ _ E1). assert (Hx : x = length (arena d)) by apply HK.
  assert (Hwx : cwt d1 x = 0%N).
  { unfold cwt, cobj_at. rewrite Hw, Hx, app_nth2, Nat.sub_diag by auto. cbn [nth wt]. destruct (length c <? 3); reflexivity. }
  split.
  - intros f [<-|Hf]; auto. destruct (X3 x) as (c' & D1 & D2 & D3); auto.
    + destruct HK as (_ & _ & -> & _). apply in_or_app. cbn. auto.
    + exists c'. split; auto. split; auto. rewrite (clits_new _ _ _ _ HK) in D3. exact D3.
  - intros HN. apply Y2. intros f Hf. destruct HK as (Hk1 & Hk2 & Hk3 & Hk4). rewrite Hk3 in Hf. apply in_app_or in Hf.
    assert (HK2 : created d c x d1) by (unfold created; auto).
    destruct Hf as [Hf|[<-|[]]].
    + unfold isDeleted. rewrite (cwt_old _ _ _ _ f HK2 (cls_lt _ _ _ (ci_D _ _ HC) Hf)). apply (HN f Hf).
    + unfold isDeleted. rewrite Hwx. reflexivity.
Qed.
Lemma K0_grow n d : K0 d (db_grow n d).
Proof.
  intros c H1 H2. destruct (db_grow_cls n d) as (A & B & E). exists c. rewrite A. split; auto. unfold cwt, clits, cobj_at in *. rewrite B. split; auto. apply incl_refl.
Qed.
Lemma sat_app_l a F G : sat a (F ++ G) -> sat a F.
Proof. intros H. apply sat_app in H. apply H. Qed.
Lemma db_init_CI F n cs lem d d' : CI (fun a => sat a F) d -> Forall (wfc (max n (nv d))) cs -> db_init n cs lem d = Ok d' ->
  CI (fun a => sat a (F ++ cs)) d' /\ nv d' = max n (nv d) /\ K0 d d' /\
  (lem = true -> (forall c, In c cs -> exists x, In x (cls d') /\ cwt d' x = 0%N /\ incl (clits d' x) c) /\ (nodel d -> nodel d')).
Proof.
  intros HC HF E. unfold db_init in E.
  assert (HC1 : CI (fun a => sat a (F ++ cs)) (db_grow n d)) by (apply CI_grow; apply (CI_mono (fun a => sat a F)); auto; intros a; apply sat_app_l).
  assert (HN := grow_nv n d). rewrite <- HN in *.
  destruct (create_all_CI (fun a => sat a (F ++ cs)) cs lem _ d' HC1 HF) as (X1 & X2 & X3 & X4); auto.
  { intros c a Hc Ha. apply sat_app in Ha. apply Ha. auto. }
  split; auto. split; auto. split; [exact (K0_trans _ _ _ (K0_grow n d) X3)|]. intros Hl. destruct (X4 Hl) as (Y1 & Y2). split; auto.
  intros HD. apply Y2. intros c Hc. destruct (db_grow_cls n d) as (A & B & _). rewrite A in Hc. unfold isDeleted, cwt, cobj_at. rewrite B. exact (HD c Hc).
Qed.

Definition fold_create := fold_left (fun (x : out db) (c : clause) => y <- x ;; '(_, z) <- createClause c 0 false y ;; Ok z).
Lemma fold_create_err cs e : fold_create cs (Err e) = Err e.
Proof. induction cs as [|c cs IH]; auto. Qed.
Lemma fold_create_CI P cs : forall d d', CI P d -> (forall c, In c cs -> wfc (nv d) c /\ forall a, P a -> sat_clause a c) ->
  fold_create cs (Ok d) = Ok d' -> CI P d' /\ nv d' = nv d.
Proof.
  induction cs as [|c cs IH]; intros d d' HC HS E; [injection E as <-; auto|]. unfold fold_create in E. cbn [fold_left bind] in E. fold fold_create in E.
  destruct (createClause c 0 false d) as [[x d1]|er] eqn:E1; cbn [bind] in E; [|change (fold_create cs (Err er) = Ok d') in E; rewrite fold_create_err in E; discriminate].
  change (fold_create cs (Ok d1) = Ok d') in E. destruct (HS c) as (H1 & H2); [cbn; auto|].
  destruct (CI_create P d _ _ _ _ _ HC H1 H2 E1) as (C1 & HK). assert (N1 : nv d1 = nv d) by apply HK.
  destruct (IH d1 d' C1) as (X1 & X2); auto; [|split; auto; congruence]. intros f Hf. rewrite N1. apply HS. cbn. auto.
Qed.
Lemma init_undo_lits_spec P ls : forall d e t d' e' t', CI P d -> VEok P (nv d) e -> init_undo_lits ls d e t = Ok (d', e', t') ->
  CI P d' /\ nv d' = nv d /\ VEok P (nv d) e' /\ tsame t t'.
Proof.
  induction ls as [|l ls IH]; intros d e t d' e' t' HC HV E; cbn [init_undo_lits] in E.
  { injection E as <- <- <-. split; auto. split; auto. split; auto. apply tsame_refl. }
  destruct (lvar l <? length (ec e)); [|discriminate]. destruct (is_eliminated e (lvar l)); [|apply (IH _ _ _ _ _ _ HC HV E)].
  cbn [undo_elimination] in E. apply bind_ok in E. destruct E as (d1 & E1 & E2).
  destruct (fold_create_CI P (nth (lvar l) (ec e) []) d d1 HC (vo_c _ _ _ HV (lvar l)) E1) as (C1 & N1).
  apply IH in E2; auto; [|rewrite N1; apply undo_VEok; auto]. destruct E2 as (X1 & X2 & X3 & X4).
  split; auto. split; [congruence|]. split; [rewrite <- N1; auto|]. eapply tsame_trans; [|exact X4]. constructor; auto.
Qed.
Lemma init_undo_spec P cs : forall d e t d' e' t', CI P d -> VEok P (nv d) e -> init_undo cs d e t = Ok (d', e', t') ->
  CI P d' /\ nv d' = nv d /\ VEok P (nv d) e' /\ tsame t t'.
Proof.
  induction cs as [|c cs IH]; intros d e t d' e' t' HC HV E; cbn [init_undo] in E.
  { injection E as <- <- <-. split; auto. split; auto. split; auto. apply tsame_refl. }
  destruct (has_eliminated e); [|injection E as <- <- <-; split; auto; split; auto; split; auto; apply tsame_refl].
  apply bind_ok in E. destruct E as (((d1 & e1) & t1) & E1 & E2). destruct (init_undo_lits_spec P _ _ _ _ _ _ _ HC HV E1) as (X1 & X2 & X3 & X4).
  rewrite <- X2 in X3. destruct (IH _ _ _ _ _ _ X1 X3 E2) as (Y1 & Y2 & Y3 & Y4). split; auto. split; [congruence|].
  split; [rewrite <- X2; auto|]. exact (tsame_trans _ _ _ X4 Y4).
Qed.
Lemma init_undo_none e cs d t : ev e = [] -> init_undo cs d e t = Ok (d, e, t).
Proof. intros E. destruct cs; auto. cbn [init_undo]. unfold has_eliminated. rewrite E. reflexivity. Qed.

Lemma trail_init_TL n t : TL t -> TL (trail_init n t) /\ nvt (trail_init n t) = max n (nvt t) /\ assum (trail_init n t) = assum t.
Proof.
  intros (A & B). destruct (init_fields n t) as (_ & _ & _ & D & E). split; [|auto]. unfold TL. rewrite E. unfold trail_init.
  destruct (Nat.ltb_spec (nvt t) n); cbn [asg vd]; rewrite ?resize_length by lia; lia.
Qed.
Lemma trail_init_AD n t : AD t -> AD (trail_init n t).
Proof.
  intros H v. unfold trail_init. destruct (nvt t <? n); auto. unfold isDecisionVar. cbn [dec]. unfold resize.
  destruct (Nat.lt_ge_cases v (length (firstn n (dec t)))) as [Hv|Hv].
  - rewrite app_nth1 by auto. assert (E : nth v (firstn n (dec t)) true = nth v (dec t) true); [|rewrite E; apply H].
    rewrite firstn_length in Hv. rewrite <- (firstn_skipn n (dec t)) at 2. rewrite app_nth1; auto. rewrite firstn_length. lia.
  - rewrite app_nth2 by auto. destruct (Nat.lt_ge_cases (v - length (firstn n (dec t))) (n - length (dec t))).
    + apply nth_repeat.
    + rewrite nth_overflow; auto. rewrite repeat_length. auto.
Qed.

Definition holdsF (F : formula) : assignment -> Prop := fun a => sat a F.
Record KI (F : formula) (s : solver) : Prop := {
  ki_F : forall f, In f F -> exists c, In c (cls (sv_d s)) /\ cwt (sv_d s) c = 0%N /\ incl (clits (sv_d s) c) f;
  ki_ev : ev (sv_e s) = [];
  ki_AD : AD (sv_t s) }.

Lemma init_BI F n cs lem s s' : BI (holdsF F) s -> Forall (clause_ok (max n (nvars s))) cs -> solver_init n cs lem s = Ok s' ->
  BI (holdsF (F ++ cs)) s'.
Proof.
  intros [B1 B2 B3 B4 B5] HF E. unfold solver_init in E. apply bind_ok in E. destruct E as (d1 & E1 & E). apply bind_ok in E. destruct E as (((d2 & e2) & t2) & E2 & E).
  injection E as <-. destruct (db_init_CI F n cs lem _ _ B1 HF E1) as (C1 & N1 & K1 & _).
  assert (V1 : VEok (holdsF (F ++ cs)) (nv d1) (sv_e s)) by (apply (VEok_mono (holdsF F) _ (nv (sv_d s))); auto; [intros a; apply sat_app_l|lia]).
  destruct (init_undo_spec _ _ _ _ _ _ _ _ C1 V1 E2) as (C2 & N2 & V2 & TS).
  assert (TL2 : TL t2) by (destruct TS as [T1 T2 T3 T4 T5 T6 T7]; unfold TL in *; rewrite T1, T2, T3; auto).
  destruct (trail_init_TL (nv d2) t2 TL2) as (X1 & X2 & X3).
  constructor; cbn [with_e core sv_d sv_t sv_e]; auto.
  - rewrite X2, (ts_nvt _ _ TS). lia.
  - rewrite X3, (ts_assum _ _ TS). intros l Hl. specialize (B4 l Hl). lia.
  - rewrite N2. auto.
Qed.
Lemma BI_mono (P P' : assignment -> Prop) s : (forall a, P' a -> P a) -> BI P s -> BI P' s.
Proof. intros H [B1 B2 B3 B4 B5]. constructor; auto; [exact (CI_mono P P' _ H B1)|exact (VEok_mono P P' _ _ _ H (le_n _) B5)]. Qed.

Lemma reach_BI C ok F s : sreach C ok F s -> BI (holdsF F) s.
Proof.
  induction 1 as [|F s n cs lemma s' HR IH Ho Hc E|F s ls HR IH Ho Hl|F s cb HR IH Ho|F s O fuel x s' HR IH Ho E].
  - constructor; cbn; auto; [apply CI_new|split; reflexivity|intros l []|apply VEok_new].
  - exact (init_BI F n cs lemma s s' IH Hc E).
  - destruct IH as [B1 B2 B3 B4 B5]. constructor; auto.
  - destruct IH as [B1 B2 B3 B4 B5]. constructor; auto.
  - exact (sd_B _ _ _ _ _ (solve_spec _ C O fuel s x s' IH E)).
Qed.

Lemma init_KI F n cs s s' : BI (holdsF F) s -> KI F s -> Forall (clause_ok (max n (nvars s))) cs -> solver_init n cs true s = Ok s' ->
  KI (F ++ cs) s' /\ (nodel (sv_d s) -> nodel (sv_d s')).
Proof.
  intros HB [K1 K2 K3] HF E. unfold solver_init in E. apply bind_ok in E. destruct E as (d1 & E1 & E). rewrite (init_undo_none _ _ _ _ K2) in E. cbn [bind] in E.
  injection E as <-. destruct (db_init_CI F n cs true _ _ (b_C _ _ HB) HF E1) as (C1 & N1 & X1 & X2). destruct (X2 eq_refl) as (Y1 & Y2).
  split; [|exact Y2]. constructor; cbn [with_e core sv_d sv_t sv_e]; auto; [|apply trail_init_AD; auto].
  intros f Hf. apply in_app_or in Hf. destruct Hf as [Hf|Hf]; auto. destruct (K1 f Hf) as (c & D1 & D2 & D3).
  destruct (X1 c D1 D2) as (c' & G1 & G2 & G3). exists c'. split; auto. split; auto. exact (incl_tran G3 D3).
Qed.
Lemma init_defined F n cs lem s : ev (sv_e s) = [] -> BI (holdsF F) s -> solver_init n cs lem s <> Err UB.
Proof.
  intros HE HB. unfold solver_init. destruct (db_init n cs lem (sv_d s)) as [d1|er] eqn:E; cbn [bind].
  - rewrite init_undo_none by auto. cbn. discriminate.
  - intros H. injection H as ->. clear HB. unfold db_init in E. revert E. generalize (db_grow n (sv_d s)).
    induction cs as [|c cs IH]; intros d; cbn [create_all]; [discriminate|].
    destruct (createClause c (if lem then 0%N else N.of_nat (length c)) lem d) as [[x d1]|er] eqn:E1; cbn [bind]; [apply IH|].
    intros H. injection H as ->. apply createClause_err in E1. discriminate.
Qed.

Definition quiet (C : cfg) : Prop := c_elim C = false /\ c_inproc C = 0%N.
Lemma krel_KI F s s' : KI F s -> krel s s' -> KI F s'.
Proof.
  intros [K1 K2 K3] [R1 R2 R3]. constructor.
  - intros f Hf. destruct (K1 f Hf) as (c & D1 & D2 & D3). destruct (R3 c D1 D2) as (c' & G1 & G2 & G3). exists c'. split; auto. split; auto. exact (incl_tran G3 D3).
  - congruence.
  - intros v. unfold isDecisionVar. rewrite R1. apply K3.
Qed.
Lemma reach_KI C F s : quiet C -> c_pre C = false -> sreach C problem_op F s -> KI F s.
Proof.
  intros HQ Hp HR. induction HR as [|F s n cs lemma s' HR IH Ho Hc E|F s ls HR IH Ho Hl|F s cb HR IH Ho|F s O fuel x s' HR IH Ho E].
  - constructor; [intros f []|reflexivity|]. intros v. destruct v; reflexivity.
  - cbn in Ho. subst lemma. exact (proj1 (init_KI F n cs s s' (reach_BI _ _ _ _ HR) IH Hc E)).
  - destruct IH as [K1 K2 K3]. constructor; auto.
  - destruct IH as [K1 K2 K3]. constructor; auto.
  - assert (HS := solve_spec _ C O fuel s x s' (reach_BI _ _ _ _ HR) E). apply (krel_KI F s); auto. apply (sd_Q _ _ _ _ _ HS); auto. apply IH.
Qed.
Lemma load_KI C F s : sreach C loading_op F s -> KI F s /\ nodel (sv_d s).
Proof.
  intros HR. induction HR as [|F s n cs lemma s' HR IH Ho Hc E|F s ls HR IH Ho Hl|F s cb HR IH Ho|F s O fuel x s' HR IH Ho E].
  - split; [|intros c []]. constructor; [intros f []|reflexivity|]. intros v. destruct v; reflexivity.
  - cbn in Ho. subst lemma. destruct IH as (IH & HN). destruct (init_KI F n cs s s' (reach_BI _ _ _ _ HR) IH Hc E) as (X & Y). auto.
  - destruct IH as ([K1 K2 K3] & HN). split; [constructor; auto|exact HN].
  - destruct IH as ([K1 K2 K3] & HN). split; [constructor; auto|exact HN].
  - destruct Ho.
Qed.

(** ** The model *)
Lemma set_model_nth ls : forall m, NoDup (map lvar ls) ->
  (forall l, In l ls -> nth (lvar l) (fold_left set_model_value ls m) None = Some (negb (lsign l))) /\
  (forall v, ~ In v (map lvar ls) -> nth v (fold_left set_model_value ls m) None = nth v m None).
Proof.
  assert (HV : forall m l v, nth v (set_model_value m l) None = if v =? lvar l then Some (negb (lsign l)) else nth v m None).
  { intros m l v. unfold set_model_value. destruct (Nat.leb_spec (length m) (lvar l)) as [H|H].
    - rewrite nth_set_nth, resize_length by lia. destruct (Nat.eqb_spec v (lvar l)); cbn [andb]; [|apply resize_nth; lia].
      destruct (Nat.ltb_spec (lvar l) (S (lvar l))); auto; lia.
    - rewrite nth_set_nth. destruct (Nat.eqb_spec v (lvar l)); cbn [andb]; auto. destruct (Nat.ltb_spec (lvar l) (length m)); auto; lia. }
  induction ls as [|x ls IH]; intros m HN; cbn [fold_left map]; [split; [intros l []|auto]|]. cbn [map] in HN. inversion HN as [|? ? Hx HN']; subst.
  destruct (IH (set_model_value m x) HN') as (A & B). split.
  - intros l [->|Hl]; auto. rewrite B, HV, Nat.eqb_refl; auto.
  - intros v Hv. cbn [In] in Hv. rewrite B by tauto. rewrite HV. destruct (Nat.eqb_spec v (lvar x)); auto. subst. tauto.
Qed.
Lemma set_model_lit t l : TI t -> In l (tr t) -> model_lit (set_model (tr t)) l.
Proof. intros HT Hl. apply (set_model_nth (tr t) [] (ti_nodup _ HT)). auto. Qed.

Lemma status_true C ok F s O fuel x s' : quiet C -> (c_pre C = false \/ nodel (sv_d s)) -> sreach C ok F s -> KI F s ->
  solve C O fuel s = Ok (x, s') -> r_status x = Some true ->
  model_sat (r_model x) F /\ (forall l, In l (assumptions s) -> model_lit (r_model x) l) /\ model_total (nvars s) (r_model x).
Proof.
  intros HQ Hp HR HK E Hx. assert (HS := solve_spec _ C O fuel s x s' (reach_BI _ _ _ _ HR) E).
  destruct (sd_Q _ _ _ _ _ HS HQ (ki_ev _ _ HK) Hp) as (_ & HM). destruct (HM Hx (ki_AD _ _ HK)) as (t & d & -> & HT & K & HA & Hall & Hsat).
  split; [|split].
  - intros f Hf. destruct (ki_F _ _ HK f Hf) as (c & D1 & D2 & D3). destruct (K c D1 D2) as (c' & G1 & G2 & G3).
    destruct (Hsat c' G1 G2) as (l & L1 & L2). exists l. split; auto. apply set_model_lit; auto.
  - intros l Hl. apply set_model_lit; auto.
  - intros v Hv. specialize (Hall v Hv).
    assert (Hl : exists l, In l (tr t) /\ lvar l = v).
    { destruct (vvalue t v) as [b|] eqn:Ev; [|congruence]. exists (mkLit v (negb b)). split; [|apply lvar_mk]. apply (ti_val _ HT). unfold value. rewrite lvar_mk, lsign_mk, Ev. cbn. destruct b; reflexivity. }
    destruct Hl as (l & L1 & <-). rewrite (set_model_lit t l HT L1). discriminate.
Qed.

Lemma status_false C ok F s O fuel x s' : sreach C ok F s -> solve C O fuel s = Ok (x, s') -> r_status x = Some false ->
  (forall l, In l (r_conflict x) -> In (lneg l) (assumptions s)) /\ entails F (r_conflict x).
Proof.
  intros HR E Hx. assert (HS := solve_spec _ C O fuel s x s' (reach_BI _ _ _ _ HR) E). destruct (sd_false _ _ _ _ _ HS Hx) as (A & B). split; auto.
Qed.
Lemma conflict_unsat F ls as' : (forall l, In l ls -> In (lneg l) as') -> entails F ls -> unsat (F ++ units as').
Proof.
  intros H1 H2 a Ha. apply sat_app in Ha. destruct Ha as (HF & HU). destruct (H2 a HF) as (l & L1 & L2). specialize (H1 l L1).
  assert (HX := proj1 (sat_units a as') HU). specialize (HX _ H1). apply (lit_holds_neg a l); auto.
Qed.
Lemma unsat_core C ok F s O fuel x s' : sreach C ok F s -> solve C O fuel s = Ok (x, s') -> r_status x = Some false ->
  unsat (F ++ units (assumptions s)).
Proof. intros HR E Hx. destruct (status_false _ _ _ _ _ _ _ _ HR E Hx) as (A & B). exact (conflict_unsat _ _ _ A B). Qed.
Lemma failed_core C ok F s O fuel x s' : sreach C ok F s -> solve C O fuel s = Ok (x, s') -> r_status x = Some false ->
  (forall l, In l (r_conflict x) -> In (lneg l) (assumptions s)) /\ unsat (F ++ units (map lneg (r_conflict x))).
Proof.
  intros HR E Hx. destruct (status_false _ _ _ _ _ _ _ _ HR E Hx) as (A & B). split; auto.
  apply (conflict_unsat F (r_conflict x)); auto. intros l Hl. apply in_map. auto.
Qed.

Lemma to_dimacs_external l : to_dimacs l = external l.
Proof. unfold to_dimacs, external. destruct (lsign l); lia. Qed.
Lemma callback_log C ok F s O fuel x s' : sreach C ok F s -> solve C O fuel s = Ok (x, s') ->
  exists new, sv_log s' = new ++ sv_log s /\ forall e, In e new -> exists m ls, sv_cb s = Some m /\ e = map external ls ++ [0%Z] /\
    (Z.of_nat (length ls) <= m)%Z /\ clause_ok (nvars s) ls /\ entails F ls.
Proof.
  intros HR E. assert (HS := solve_spec _ C O fuel s x s' (reach_BI _ _ _ _ HR) E). destruct (sd_R _ _ _ _ _ HS) as [_ _ [_ (new & A & B)]].
  exists new. split; auto. intros e He. destruct (B e He) as (m & M1 & ls & L1 & L2 & L3 & L4). exists m, ls. split; auto. split.
  - rewrite L1. f_equal. apply map_ext. intros l. apply to_dimacs_external.
  - split; auto.
Qed.
Lemma safe_history C F s O fuel : quiet C -> c_pre C = false -> sreach C problem_op F s -> solve C O fuel s <> Err UB.
Proof. intros HQ Hp HR. assert (HK := reach_KI C F s HQ Hp HR). apply (solve_safe _ C O fuel s (reach_BI _ _ _ _ HR) HQ (ki_ev _ _ HK)). auto. Qed.
Lemma safe_first C F s O fuel : quiet C -> sreach C loading_op F s -> solve C O fuel s <> Err UB.
Proof. intros HQ HR. destruct (load_KI C F s HR) as (HK & HN). apply (solve_safe _ C O fuel s (reach_BI _ _ _ _ HR) HQ (ki_ev _ _ HK)). auto. Qed.

(** ** Without pre- and inprocessing, the option for variable elimination has no effect *)
Definition no_elim (C : cfg) : cfg :=
  mkCfg (c_pre C) (c_inproc C) false (c_asymm C) (c_lim C) (c_recalc C) (c_persist C) (c_median C) (c_first C) (c_inc C).
Lemma no_elim_solve C O fuel s : c_inproc C = 0%N -> c_pre C = false -> solve C O fuel s = solve (no_elim C) O fuel s.
Proof. destruct C as [a b e g h i j k l m]. cbn. intros -> ->. reflexivity. Qed.
Lemma no_elim_reach C ok F s : c_inproc C = 0%N -> c_pre C = false -> sreach C ok F s -> sreach (no_elim C) ok F s.
Proof.
  intros H1 H2 H. induction H.
  - replace (solver_new C) with (solver_new (no_elim C)) by reflexivity. apply sr_new.
  - eapply sr_init; eauto.
  - eapply sr_assume; eauto.
  - eapply sr_callback; eauto.
  - eapply sr_solve; eauto. rewrite <- no_elim_solve; eauto.
Qed.
Lemma no_elim_quiet C : c_inproc C = 0%N -> quiet (no_elim C).
Proof. intros H. split; [reflexivity|exact H]. Qed.
Lemma history_model C F s O fuel x s' : c_inproc C = 0%N -> c_pre C = false ->
  sreach C problem_op F s -> solve C O fuel s = Ok (x, s') -> r_status x = Some true ->
  model_sat (r_model x) F /\ (forall l, In l (assumptions s) -> model_lit (r_model x) l) /\ model_total (nvars s) (r_model x).
Proof.
  intros H1 H2 HR HE. rewrite no_elim_solve in HE by assumption. apply no_elim_reach in HR; try assumption. assert (HQ := no_elim_quiet C H1).
  exact (status_true (no_elim C) problem_op F s O fuel x s' HQ (or_introl H2) HR (reach_KI (no_elim C) F s HQ H2 HR) HE).
Qed.
Lemma history_safe C F s O fuel : c_inproc C = 0%N -> c_pre C = false -> sreach C problem_op F s -> solve C O fuel s <> Err UB.
Proof.
  intros H1 H2 HR. rewrite no_elim_solve by assumption. apply no_elim_reach in HR; try assumption.
  exact (safe_history (no_elim C) F s O fuel (no_elim_quiet C H1) H2 HR).
Qed.
