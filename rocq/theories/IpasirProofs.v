(** IPASIR sessions: proofs. *)
Require Import List Arith Bool NArith ZArith Lia Sorted.
From Coq Require Import ZifyBool ZifyNat ZifyN.
Require Import Verif.Base Verif.CNFModel Verif.CNFSpec Verif.CNFProofs Verif.Outcome Verif.TrailModel Verif.DbModel Verif.DbProofs Verif.PropSpec
  Verif.SolverModel Verif.SolverBase Verif.SolverProofs Verif.SolverSpec Verif.SolverLemmas Verif.SolverElim Verif.IpasirModel Verif.IpasirSpec.
Import ListNotations.

Definition in_asg (a : Z -> bool) : assignment := fun v => a (Z.of_nat v + 1)%Z.
Lemma import_var l : (l <> 0)%Z -> Z.of_nat (lvar (import l)) = (Z.abs l - 1)%Z.
Proof. intros H. unfold import. rewrite lvar_mk. lia. Qed.
Lemma import_sign l : lsign (import l) = (l <? 0)%Z.
Proof. unfold import. apply lsign_mk. Qed.
Lemma import_neg l : (l <> 0)%Z -> import (- l) = lneg (import l).
Proof.
  intros H. rewrite (lit_eta (import (- l))), (lit_eta (lneg (import l))), lvar_neg, lsign_neg, !import_sign. f_equal.
  - apply Nat2Z.inj. rewrite !import_var by lia. lia.
  - lia.
Qed.
Lemma zlit_import a l : (l <> 0)%Z -> zlit a l <-> lit_holds (in_asg a) (import l).
Proof.
  intros H. unfold zlit, lit_holds, lit_val, in_asg. rewrite import_var by auto. rewrite import_sign.
  destruct (Z.ltb_spec 0 l); destruct (Z.ltb_spec l 0); try lia.
  - replace (Z.abs l - 1 + 1)%Z with l by lia. rewrite xorb_false_r. tauto.
  - replace (Z.abs l - 1 + 1)%Z with (- l)%Z by lia. destruct (a (- l)%Z); cbn; split; congruence.
Qed.
Definition nz (c : list Z) : Prop := forall l, In l c -> l <> 0%Z.
Definition imp (F : list (list Z)) : formula := map (map import) F.
Lemma zclause_import a c : nz c -> zclause a c <-> sat_clause (in_asg a) (map import c).
Proof.
  intros H. unfold zclause, sat_clause. split.
  - intros (l & L1 & L2). exists (import l). split; [apply in_map; auto|]. apply zlit_import; auto.
  - intros (x & X1 & X2). apply in_map_iff in X1. destruct X1 as (l & <- & L1). exists l. split; auto. apply zlit_import; auto.
Qed.
Lemma zsat_import a F : (forall c, In c F -> nz c) -> zsat a F <-> sat (in_asg a) (imp F).
Proof.
  intros H. unfold zsat, sat. split.
  - intros HS x Hx. apply in_map_iff in Hx. destruct Hx as (c & <- & Hc). apply zclause_import; auto.
  - intros HS c Hc. apply zclause_import; auto. apply HS. unfold imp. apply in_map_iff. exists c. auto.
Qed.

(** ** Reading one clause *)
Lemma same_sat a c u : same_literals c u -> sat_clause a c <-> sat_clause a u.
Proof. intros H. split; intros (l & L1 & L2); exists l; split; auto; apply H; auto. Qed.
Lemma fold_max_spec (c : list lit) : forall n, n <= fold_left (fun m l => max m (S (lvar l))) c n /\ forall l, In l c -> lvar l < fold_left (fun m l => max m (S (lvar l))) c n.
Proof.
  induction c as [|x c IH]; intros n; cbn [fold_left]; [split; auto; intros l []|]. destruct (IH (max n (S (lvar x)))) as (A & B).
  split; [lia|]. intros l [<-|Hl]; auto. lia.
Qed.
Lemma sorted_nodup u : strictly_sorted u -> ~ tautology u -> NoDup (map lvar u).
Proof.
  intros H HT. induction H as [|x u HS IH HF]; cbn [map]; [constructor|]. rewrite Forall_forall in HF. constructor.
  - intros Hx. apply in_map_iff in Hx. destruct Hx as (y & E & Hy). assert (HF' := HF y Hy). destruct (same_var x y (eq_sym E)) as [-> | ->]; [lia|].
    apply HT. exists y. split; [cbn; auto|]. cbn. auto.
  - apply IH. intros (l & L1 & L2). apply HT. exists l. cbn. auto.
Qed.
Lemma read_step p c : Forall (clause_ok (variables p)) (problem p) ->
  Forall (clause_ok (variables (readClause p c))) (problem (readClause p c)) /\ variables p <= variables (readClause p c) /\
  (forall l, In l c -> lvar l < variables (readClause p c)) /\
  forall a, sat a (problem (readClause p c)) <-> sat a (problem p) /\ sat_clause a c.
Proof.
  intros HF. destruct (readClause_spec p c) as (HP & HV). destruct (fold_max_spec c (variables p)) as (A & B). rewrite <- HV in A, B.
  assert (HF2 : Forall (clause_ok (variables (readClause p c))) (problem p)).
  { eapply Forall_impl; [|exact HF]. intros x (X1 & X2). split; auto. intros l Hl. specialize (X2 l Hl). lia. }
  destruct HP as [(HT & ->)|(HT & u & -> & HL & HS)].
  - split; auto. split; auto. split; auto. intros a. split; [intros H; split; auto; apply taut_sat; auto|tauto].
  - split; [|split; auto; split; auto].
    + apply Forall_app. split; auto. constructor; auto. split.
      * apply sorted_nodup; auto. intros (l & L1 & L2). apply HT. exists l. split; apply HL; auto.
      * intros l Hl. apply B. apply HL. auto.
    + intros a. rewrite sat_app. rewrite (same_sat a c u HL). rewrite sat_cons. split; [tauto|]. intros (H1 & H2). split; auto. split; auto. intros x [].
Qed.

(** ** The invariant *)
Record II (C : cfg) (ok : sop -> Prop) (m : meaning) (s : ips) : Prop := {
  ii_F : exists F, sreach C ok F (ip_sv s) /\ forall a, sat a (F ++ problem (ip_prob s)) <-> sat a (imp (fst (fst m)));
  ii_ok : Forall (clause_ok (variables (ip_prob s))) (problem (ip_prob s));
  ii_var : forall c l, In c (fst (fst m)) -> In l c -> lvar (import l) < variables (ip_prob s);
  ii_nv : nvars (ip_sv s) <= variables (ip_prob s);
  ii_nz : forall c, In c (fst (fst m)) -> nz c;
  ii_cl : ip_cl s = map import (snd (fst m));
  ii_clnz : nz (snd (fst m));
  ii_as : ip_as s = map import (snd m);
  ii_asnz : nz (snd m) }.

Lemma session_snoc cs c : session (cs ++ [c]) = mstep (session cs) c.
Proof. unfold session. rewrite fold_left_app. reflexivity. Qed.
Lemma irun_snoc C s cs c : irun C s (cs ++ [c]) = (s' <- irun C s cs ;; istep C s' c).
Proof.
  revert s. induction cs as [|x cs IH]; intros s; cbn [irun app]; [cbn [bind]; destruct (istep C s c); reflexivity|].
  destruct (istep C s x) as [s'|e]; cbn [bind]; auto.
Qed.
Lemma assum_known F As n : (forall c l, In c F -> In l c -> lvar (import l) < n) -> nz As -> (forall c, In c F -> nz c) ->
  (forall l, In l As -> occurs F (Z.abs l)) -> forall l, In l (map import As) -> lvar l < n.
Proof.
  intros H1 H2 H3 H4 x Hx. apply in_map_iff in Hx. destruct Hx as (l & <- & Hl). destruct (H4 l Hl) as (c & y & C1 & C2 & C3).
  assert (H := H1 c y C1 C2). assert (E : lvar (import l) = lvar (import y)); [|lia]. apply Nat2Z.inj. rewrite !import_var; [lia|apply (H3 c); auto|auto].
Qed.
Lemma init_nvars F n cs lem s s' : BI (holdsF F) s -> Forall (clause_ok (max n (nvars s))) cs -> solver_init n cs lem s = Ok s' ->
  nvars s' = max n (nvars s).
Proof.
  intros [B1 B2 B3 B4 B5] HF E. unfold solver_init in E. apply bind_ok in E. destruct E as (d1 & E1 & E). apply bind_ok in E. destruct E as (((d2 & e2) & t2) & E2 & E).
  injection E as <-. destruct (db_init_CI F n cs lem _ _ B1 HF E1) as (C1 & N1 & K1 & _).
  assert (V1 : VEok (holdsF (F ++ cs)) (nv d1) (sv_e s)) by (apply (VEok_mono (holdsF F) _ (nv (sv_d s))); auto; [intros a; apply sat_app_l|lia]).
  destruct (init_undo_spec _ _ _ _ _ _ _ _ C1 V1 E2) as (C2 & N2 & V2 & TS). unfold nvars. cbn [with_e core sv_d]. rewrite N2. exact N1.
Qed.

Lemma init_assum F n cs lem s s' : BI (holdsF F) s -> Forall (clause_ok (max n (nvars s))) cs -> solver_init n cs lem s = Ok s' ->
  SolverSpec.assumptions s' = SolverSpec.assumptions s.
Proof.
  intros [B1 B2 B3 B4 B5] HF E. unfold solver_init in E. apply bind_ok in E. destruct E as (d1 & E1 & E). apply bind_ok in E. destruct E as (((d2 & e2) & t2) & E2 & E).
  injection E as <-. destruct (db_init_CI F n cs lem _ _ B1 HF E1) as (C1 & N1 & K1 & _).
  assert (V1 : VEok (holdsF (F ++ cs)) (nv d1) (sv_e s)) by (apply (VEok_mono (holdsF F) _ (nv (sv_d s))); auto; [intros a; apply sat_app_l|lia]).
  destruct (init_undo_spec _ _ _ _ _ _ _ _ C1 V1 E2) as (C2 & N2 & V2 & TS).
  assert (TL2 : TL t2) by (destruct TS as [T1 T2 T3 T4 T5 T6 T7]; unfold TL in *; rewrite T1, T2, T3; auto).
  destruct (trail_init_TL (nv d2) t2 TL2) as (X1 & X2 & X3). unfold SolverSpec.assumptions. cbn [with_e core sv_t]. rewrite X3. exact (ts_assum _ _ TS).
Qed.

(** the solver state in which the search of ipasir_solve starts *)
Definition okl (ok : sop -> Prop) : Prop := (forall n cs, ok (SInit n cs true)) /\ (forall ls, ok (SAssume ls)) /\ (forall m, ok (SCallback m)).
Lemma solve_state C ok cs s O fuel r s' : okl ok -> legal cs -> II C ok (session cs) s -> (forall l, In l (assumptions cs) -> occurs (clauses cs) (Z.abs l)) ->
  ipasir_solve C O fuel s = Ok (r, s') ->
  exists F s1 x s2, sreach C ok F (solver_assume (ip_as s) s1) /\ (forall a, sat a F <-> sat a (imp (clauses cs))) /\
    nvars s1 = variables (ip_prob s) /\
    solve C O fuel (solver_assume (ip_as s) s1) = Ok (x, s2) /\ r = match r_status x with None => 0 | Some true => 10 | Some false => 20 end%Z /\
    s' = mkIps (mkCnf [] (variables (ip_prob s))) s2 x [] (ip_cl s) None (match r_status x with Some true => false | _ => true end).
Proof.
  intros HO HL [(F & F1 & F2) H2 H3 H4 H5 H6 H7 H8 H9] HK E. unfold ipasir_solve in E. apply bind_ok in E. destruct E as (s1 & E1 & E).
  apply bind_ok in E. destruct E as ((x & s2) & E2 & E). injection E as <- <-.
  assert (HN : max (variables (ip_prob s)) (nvars (ip_sv s)) = variables (ip_prob s)) by lia.
  assert (R1 : sreach C ok (F ++ problem (ip_prob s)) s1).
  { apply (sr_init C ok F (ip_sv s) (variables (ip_prob s)) _ true); auto; [apply HO|]. rewrite HN. auto. }
  assert (N1 : nvars s1 = variables (ip_prob s)).
  { rewrite <- HN. apply (init_nvars F _ (problem (ip_prob s)) true _ _ (reach_BI _ _ _ _ F1)); auto. rewrite HN. auto. }
  exists (F ++ problem (ip_prob s)), s1, x, s2. split; [|auto]. apply sr_assume; auto; [apply HO|]. rewrite N1, H8. apply (assum_known (clauses cs)); auto.
Qed.
Lemma sreach_solve_nv C ok F s O fuel x s' : sreach C ok F s -> solve C O fuel s = Ok (x, s') -> nvars s' = nvars s.
Proof. intros HR E. exact (r_nv _ _ _ (sd_R _ _ _ _ _ (solve_spec _ C O fuel s x s' (reach_BI _ _ _ _ HR) E))). Qed.

Lemma ireach_II_gen C ok cs s : okl ok -> (forall h n, In (CSolve h n) cs -> ok (SSolve h n)) -> ireach C cs s -> II C ok (session cs) s.
Proof.
  intros HO HC (HL & E). revert HC s E. induction HL as [|cs l HL IH|cs l HL IH Hl|cs h fuel HL IH Hl|cs l HL IH|cs l HL IH|cs k HL IH]; intros HC s E.
  { injection E as <-. constructor; cbn; auto; try (intros; contradiction).
    - exists []. split; [apply sr_new|]. cbn. tauto.
    - intros l [].
    - intros l []. }
  all: rewrite irun_snoc in E; apply bind_ok in E; destruct E as (s0 & E0 & E); specialize (IH (fun h n Hi => HC h n (in_or_app _ _ _ (or_introl Hi))) s0 E0); rewrite session_snoc; cbn [istep] in E.
  - destruct IH as [(F & F1 & F2) H2 H3 H4 H5 H6 H7 H8 H9]. injection E as <-. unfold ipasir_add, mstep. destruct (session cs) as ((G & cl) & As). cbn [fst snd] in *.
    destruct (Z.eqb_spec l 0) as [->|Hz]; cbn [negb].
    + destruct (read_step (ip_prob s0) (ip_cl s0) H2) as (R1 & R2 & R3 & R4). constructor; cbn [fst snd ip_sv ip_prob ip_cl ip_as map]; auto.
      * exists F. split; auto. intros a. rewrite sat_app, R4. unfold imp. rewrite map_app, sat_app. cbn [map]. rewrite sat_cons.
        specialize (F2 a). rewrite sat_app in F2. unfold imp in F2. rewrite <- H6. split; [intros (X1 & X2 & X3)|intros (X1 & X2 & X3)].
        -- split; [apply F2; auto|]. split; auto. intros x [].
        -- apply F2 in X1. tauto.
      * intros c x Hc Hx. apply in_app_or in Hc. destruct Hc as [Hc|[<-|[]]]; [specialize (H3 c x Hc Hx); lia|]. apply R3. rewrite H6. apply in_map. auto.
      * lia.
      * intros c Hc. apply in_app_or in Hc. destruct Hc as [Hc|[<-|[]]]; auto.
      * intros x [].
    + constructor; cbn [fst snd ip_sv ip_prob ip_cl ip_as]; auto.
      * exists F. auto.
      * rewrite H6, map_app. reflexivity.
      * intros x Hx. apply in_app_or in Hx. destruct Hx as [Hx|[<-|[]]]; auto.
  - destruct IH as [H1 H2 H3 H4 H5 H6 H7 H8 H9]. injection E as <-. unfold mstep. destruct (session cs) as ((G & cl) & As). cbn [fst snd] in *.
    constructor; cbn [fst snd ip_sv ip_prob ip_cl ip_as ipasir_assume]; auto.
    + rewrite H8, map_app. reflexivity.
    + intros x Hx. apply in_app_or in Hx. destruct Hx as [Hx|[<-|[]]]; auto.
  - apply bind_ok in E. destruct E as ((r & s') & E & E'). injection E' as <-.
    destruct (solve_state C ok cs s0 h fuel r s' HO HL IH Hl E) as (F & s1 & x & s2 & R1 & R2 & R3 & R4 & _ & ->).
    destruct IH as [H1 H2 H3 H4 H5 H6 H7 H8 H9]. unfold mstep. unfold clauses in R2. destruct (session cs) as ((G & cl) & As). cbn [fst snd] in *.
    assert (N := sreach_solve_nv _ _ _ _ _ _ _ _ R1 R4). change (nvars (solver_assume (ip_as s0) s1)) with (nvars s1) in N.
    constructor; cbn [fst snd ip_sv ip_prob ip_cl ip_as map problem variables]; auto; try (intros l []).
    + assert (HSO : ok (SSolve h fuel)) by (apply HC; apply in_or_app; right; left; reflexivity).
      exists F. split; [apply (sr_solve C ok F _ h fuel x s2 R1 HSO R4)|]. intros a. rewrite app_nil_r. auto.
    + lia.
  - injection E as <-. destruct (session cs) as ((G & cl) & As). exact IH.
  - apply bind_ok in E. destruct E as ((r & s') & E & E'). injection E' as <-. destruct IH as [H1 H2 H3 H4 H5 H6 H7 H8 H9]. destruct (session cs) as ((G & cl) & As).
    unfold ipasir_failed in E. apply bind_ok in E. destruct E as (f & _ & E). destruct (_ <? _); [|discriminate]. injection E as _ <-. constructor; auto.
  - injection E as <-. destruct IH as [(F & F1 & F2) H2 H3 H4 H5 H6 H7 H8 H9]. destruct (session cs) as ((G & cl) & As). constructor; auto. exists F. split; auto. apply sr_callback; [auto|apply HO].
Qed.

Lemma okl_problem : okl problem_op.
Proof. repeat split. Qed.
Lemma okl_loading : okl loading_op.
Proof. repeat split. Qed.
Lemma ireach_II C cs s : ireach C cs s -> II C problem_op (session cs) s.
Proof. apply ireach_II_gen; [exact okl_problem|]. intros h n _. exact I. Qed.
Lemma ireach_II_first C cs s : (forall h n, ~ In (CSolve h n) cs) -> ireach C cs s -> II C loading_op (session cs) s.
Proof. intros H. apply ireach_II_gen; [exact okl_loading|]. intros h n Hi. destruct (H h n Hi). Qed.

(** ** Answers *)
Definition solvable (cs : list call) : Prop := forall l, In l (assumptions cs) -> occurs (clauses cs) (Z.abs l).
Lemma ip_codes C cs s O fuel r s' : ireach C cs s -> ipasir_solve C O fuel s = Ok (r, s') -> (r = 0 \/ r = 10 \/ r = 20)%Z.
Proof.
  intros _ E. unfold ipasir_solve in E. apply bind_ok in E. destruct E as (s1 & E1 & E). apply bind_ok in E. destruct E as ((x & s2) & E2 & E). injection E as <- _.
  destruct (r_status x) as [[|]|]; auto.
Qed.
Lemma ip_unsat C cs s O fuel r s' : ireach C cs s -> solvable cs -> ipasir_solve C O fuel s = Ok (r, s') -> r = 20%Z ->
  exists core, (forall l, In l core -> In l (assumptions cs)) /\
    (forall l, In l (assumptions cs) -> exists s'', ipasir_failed l s' = Ok (if in_dec Nat.eq_dec (lvar (import l)) (map (fun x => lvar (import x)) core) then true else false, s'')) /\
    zunsat (clauses cs) core.
Proof.
  intros HR HS E Hr. assert (HI := ireach_II C cs s HR). destruct (solve_state C problem_op cs s O fuel r s' okl_problem (proj1 HR) HI HS E) as (F & s1 & x & s2 & R1 & R2 & R3 & R4 & R5 & R6).
  assert (Hx : r_status x = Some false) by (destruct (r_status x) as [[|]|]; auto; lia).
  destruct (status_false C problem_op F _ O fuel x s2 R1 R4 Hx) as (A & B). unfold SolverSpec.assumptions in A. cbn [solver_assume core sv_t setAssumptions assum] in A.
  rewrite (ii_as _ _ _ _ HI) in A. change (snd (session cs)) with (assumptions cs) in A.
  assert (HNZ : nz (assumptions cs)) by exact (ii_asnz _ _ _ _ HI).
  set (core := filter (fun l => if in_dec Nat.eq_dec (lneg (import l)) (r_conflict x) then true else false) (assumptions cs)).
  assert (HC : forall y, In y (r_conflict x) -> exists l, In l core /\ y = lneg (import l)).
  { intros y Hy. specialize (A y Hy). apply in_map_iff in A. destruct A as (l & L1 & L2). exists l. split; [|rewrite L1, lneg_invol; auto].
    unfold core. apply filter_In. split; auto. rewrite L1, lneg_invol. destruct (in_dec _ _ _); auto. }
  exists core. split; [intros l Hl; apply filter_In in Hl; apply Hl|]. split.
  - intros l Hl. assert (HB := sd_B _ _ _ _ _ (solve_spec _ C O fuel _ x s2 (reach_BI _ _ _ _ R1) R4)).
    assert (HN : length (vd (sv_t s2)) = nvars s1).
    { rewrite (proj2 (b_T _ _ HB)), (b_n _ _ HB). exact (sreach_solve_nv _ _ _ _ _ _ _ _ R1 R4). }
    assert (HK : forall y, In y (map import (assumptions cs)) -> lvar y < nvars s1).
    { rewrite R3. apply (assum_known (clauses cs)); auto; [exact (ii_var _ _ _ _ HI)|exact (ii_nz _ _ _ _ HI)]. }
    assert (HAN : forall n ys f, n = length f -> (forall y, In y ys -> lvar y < n) -> exists f', length f' = n /\
      fold_left (fun f l => f <- f ;; (if lvar l <? n then Ok (set_nth (lvar l) true f) else Err UB)) ys (Ok f) = Ok f' /\
      forall v, v < n -> nth v f' false = (nth v f false || if in_dec Nat.eq_dec v (map lvar ys) then true else false)).
    { clear. intros n. induction ys as [|y ys IH]; intros f Hn Hy; cbn [fold_left].
      - exists f. split; auto. split; auto. intros v _. cbn. rewrite orb_false_r. auto.
      - cbn [bind]. assert (Hy0 := Hy y (or_introl eq_refl)). destruct (Nat.ltb_spec (lvar y) n); [|lia].
        destruct (IH (set_nth (lvar y) true f)) as (f' & F1 & F2 & F3); [rewrite set_nth_length; auto|intros; apply Hy; cbn; auto|].
        exists f'. split; auto. split; auto. intros v Hv. rewrite F3 by auto. rewrite TrailProofs.nth_set_nth. cbn [map].
        destruct (Nat.eqb_spec v (lvar y)) as [->|Hne]; cbn [andb].
        + replace (lvar y <? length f) with true by (symmetry; apply Nat.ltb_lt; lia). destruct (in_dec Nat.eq_dec (lvar y) (lvar y :: map lvar ys)) as [|n0]; [rewrite orb_true_r; auto|]. exfalso. apply n0. cbn. auto.
        + destruct (in_dec Nat.eq_dec v (map lvar ys)) as [i0|i0], (in_dec Nat.eq_dec v (lvar y :: map lvar ys)) as [i|n0]; auto.
          * exfalso. apply n0. cbn. auto.
          * cbn in i. exfalso. intuition congruence. }
    destruct (HAN (length (vd (sv_t s2))) (r_conflict x) (repeat false (length (vd (sv_t s2))))) as (f & F1 & F2 & F3).
    { rewrite repeat_length. auto. }
    { intros y Hy. rewrite HN. specialize (A y Hy). specialize (HK _ A). rewrite lvar_neg in HK. auto. }
    assert (Hlv : lvar (import l) < length f) by (rewrite F1, HN; apply HK; apply in_map; auto).
    rewrite R6. unfold ipasir_failed. cbn [ip_fmap]. unfold ipasir_analyze. cbn [ip_sv ip_res]. rewrite F2. cbn [bind].
    destruct (Nat.ltb_spec (lvar (import l)) (length f)); [|lia]. eexists. f_equal. f_equal. rewrite F3 by lia.
    rewrite nth_repeat. cbn [orb].
    destruct (in_dec Nat.eq_dec (lvar (import l)) (map lvar (r_conflict x))) as [i|i], (in_dec Nat.eq_dec (lvar (import l)) (map (fun x0 => lvar (import x0)) core)) as [j|j]; auto.
    + exfalso. apply j. apply in_map_iff in i. destruct i as (y & Y1 & Y2). destruct (HC y Y2) as (k & K1 & ->). rewrite lvar_neg in Y1. apply in_map_iff. exists k. auto.
    + exfalso. apply i. apply in_map_iff in j. destruct j as (k & K1 & K2). apply filter_In in K2. destruct K2 as (K2 & K3). destruct (in_dec Nat.eq_dec (lneg (import k)) (r_conflict x)) as [Hk|]; [|discriminate].
      apply in_map_iff. exists (lneg (import k)). rewrite lvar_neg. auto.
  - intros a (Ha & Hc). apply zsat_import in Ha; [|exact (ii_nz _ _ _ _ HI)]. apply R2 in Ha. destruct (B _ Ha) as (y & Y1 & Y2). destruct (HC y Y1) as (l & L1 & ->).
    assert (Hl := Hc l L1). apply zlit_import in Hl; [|apply HNZ; apply filter_In in L1; apply L1]. apply (lit_holds_neg (in_asg a) (import l)); auto.
Qed.

Definition read (m : list (option bool)) : assignment := fun v => match nth v m None with Some b => b | None => false end.
Lemma read_lit m l n : model_total n m -> lvar l < n -> lit_holds (read m) l <-> res_satisfies m l = true.
Proof.
  intros H Hl. specialize (H (lvar l) Hl). unfold lit_holds, lit_val, read, res_satisfies. destruct (nth (lvar l) m None) as [b|]; [|congruence]. cbn.
  destruct (xorb b (lsign l)); split; congruence.
Qed.
Lemma model_lit_read m l : model_lit m l -> lit_holds (read m) l.
Proof. unfold model_lit, lit_holds, lit_val, read. intros ->. destruct (lsign l); reflexivity. Qed.
Lemma ip_sat_gen C ok cs s O fuel r s' : okl ok ->
  (forall F s O fuel x s', sreach C ok F s -> solve C O fuel s = Ok (x, s') -> r_status x = Some true ->
    model_sat (r_model x) F /\ (forall l, In l (SolverSpec.assumptions s) -> model_lit (r_model x) l) /\ model_total (nvars s) (r_model x)) ->
  legal cs -> II C ok (session cs) s -> solvable cs -> ipasir_solve C O fuel s = Ok (r, s') -> r = 10%Z ->
  (forall c, In c (clauses cs) -> exists l, In l c /\ ipasir_val l s' = l) /\ (forall l, In l (assumptions cs) -> ipasir_val l s' = l) /\
  (forall l, l <> 0%Z -> occurs (clauses cs) (Z.abs l) -> ipasir_val (- l) s' = ipasir_val l s').
Proof.
  intros HO HM HR HI HS E Hr. destruct (solve_state C ok cs s O fuel r s' HO HR HI HS E) as (F & s1 & x & s2 & R1 & R2 & R3 & R4 & R5 & R6).
  assert (Hx : r_status x = Some true) by (destruct (r_status x) as [[|]|]; auto; lia).
  destruct (HM F _ O fuel x s2 R1 R4 Hx) as (M1 & M2 & M3).
  change (nvars (solver_assume (ip_as s) s1)) with (nvars s1) in M3. unfold SolverSpec.assumptions in M2. cbn [solver_assume core sv_t setAssumptions assum] in M2.
  assert (HV : forall l, ipasir_val l s' = if res_satisfies (r_model x) (import l) then l else (- l)%Z) by (intros l; rewrite R6, Hx; reflexivity).
  assert (HF : sat (read (r_model x)) F).
  { intros c Hc. destruct (M1 c Hc) as (l & L1 & L2). exists l. split; auto. apply model_lit_read. auto. }
  apply R2 in HF. split; [|split].
  - intros c Hc. destruct (HF (map import c)) as (y & Y1 & Y2); [unfold imp; apply in_map_iff; exists c; auto|]. apply in_map_iff in Y1. destruct Y1 as (l & <- & Hl).
    exists l. split; auto. rewrite HV. apply (read_lit _ _ (nvars s1)) in Y2; auto; [rewrite Y2; auto|]. rewrite R3. apply (ii_var _ _ _ _ HI c); auto.
  - intros l Hl. rewrite HV. assert (HL := M2 (import l)). rewrite (ii_as _ _ _ _ HI) in HL. specialize (HL (in_map import _ _ Hl)).
    assert (E2 : res_satisfies (r_model x) (import l) = true) by (unfold res_satisfies; rewrite HL; destruct (lsign (import l)); reflexivity). rewrite E2. auto.
  - intros l Hz (c & k & K1 & K2 & K3). rewrite !HV. rewrite import_neg by auto.
    assert (Hlt : lvar (import l) < nvars s1).
    { assert (H := ii_var _ _ _ _ HI c k K1 K2). rewrite R3. assert (E2 : lvar (import l) = lvar (import k)); [|lia]. apply Nat2Z.inj. rewrite !import_var; [lia| |auto]. apply (ii_nz _ _ _ _ HI c); auto. }
    assert (T := M3 _ Hlt). unfold res_satisfies. rewrite lvar_neg, lsign_neg. destruct (nth (lvar (import l)) (r_model x) None) as [b|]; [|congruence].
    destruct b, (lsign (import l)); cbn; lia.
Qed.
Lemma ip_sat C cs s O fuel r s' : c_elim C = false -> c_inproc C = 0%N -> c_pre C = false ->
  ireach C cs s -> solvable cs -> ipasir_solve C O fuel s = Ok (r, s') -> r = 10%Z ->
  (forall c, In c (clauses cs) -> exists l, In l c /\ ipasir_val l s' = l) /\ (forall l, In l (assumptions cs) -> ipasir_val l s' = l) /\
  (forall l, l <> 0%Z -> occurs (clauses cs) (Z.abs l) -> ipasir_val (- l) s' = ipasir_val l s').
Proof.
  intros Q1 Q2 Q3 HR. apply (ip_sat_gen C problem_op); [exact okl_problem| |exact (proj1 HR)|apply ireach_II; exact HR].
  intros F s0 O0 n x s0' R1 R4 Hx. exact (status_true C problem_op F _ O0 n x s0' (conj Q1 Q2) (or_introl Q3) R1 (reach_KI C F _ (conj Q1 Q2) Q3 R1) R4 Hx).
Qed.
Lemma ip_sat_first C cs s O fuel r s' : c_inproc C = 0%N -> (forall h n, ~ In (CSolve h n) cs) ->
  ireach C cs s -> solvable cs -> ipasir_solve C O fuel s = Ok (r, s') -> r = 10%Z ->
  (forall c, In c (clauses cs) -> exists l, In l c /\ ipasir_val l s' = l) /\ (forall l, In l (assumptions cs) -> ipasir_val l s' = l) /\
  (forall l, l <> 0%Z -> occurs (clauses cs) (Z.abs l) -> ipasir_val (- l) s' = ipasir_val l s').
Proof.
  intros Q HN HR. apply (ip_sat_gen C loading_op); [exact okl_loading| |exact (proj1 HR)|apply ireach_II_first; auto].
  intros F s0 O0 n x s0' R1 R4 Hx. exact (first_model C F s0 O0 n x s0' Q R1 R4 Hx).
Qed.
Lemma ip_defined C cs s O fuel : c_elim C = false -> c_inproc C = 0%N -> c_pre C = false -> ireach C cs s -> solvable cs -> ipasir_solve C O fuel s <> Err UB.
Proof.
  intros Q1 Q2 Q3 HR HS E. assert (HI := ireach_II C cs s HR). destruct HI as [(F & F1 & F2) H2 H3 H4 H5 H6 H7 H8 H9].
  assert (HK := reach_KI C F _ (conj Q1 Q2) Q3 F1). unfold ipasir_solve in E.
  destruct (solver_init (variables (ip_prob s)) (problem (ip_prob s)) true (ip_sv s)) as [s1|e] eqn:E1; cbn [bind] in E.
  2: { injection E as ->. apply (init_defined F _ _ _ _ (ki_ev _ _ HK) (reach_BI _ _ _ _ F1) E1). }
  assert (HN : max (variables (ip_prob s)) (nvars (ip_sv s)) = variables (ip_prob s)) by lia.
  assert (R1 : sreach C problem_op (F ++ problem (ip_prob s)) s1).
  { apply (sr_init C problem_op F (ip_sv s) (variables (ip_prob s)) _ true); auto; [reflexivity|]. rewrite HN. auto. }
  assert (N1 : nvars s1 = variables (ip_prob s)).
  { rewrite <- HN. apply (init_nvars F _ (problem (ip_prob s)) true _ _ (reach_BI _ _ _ _ F1)); auto. rewrite HN. auto. }
  assert (R2 : sreach C problem_op (F ++ problem (ip_prob s)) (solver_assume (ip_as s) s1)).
  { apply sr_assume; auto; [exact I|]. rewrite N1, H8. apply (assum_known (clauses cs)); auto. }
  destruct (solve C O fuel (solver_assume (ip_as s) s1)) as [[x s2]|e] eqn:E2; cbn [bind] in E; [discriminate|]. injection E as ->.
  exact (safe_history C _ _ O fuel (conj Q1 Q2) Q3 R2 E2).
Qed.

(** queries do not change the answers of later queries *)
Lemma failed_keeps l s b s' : ipasir_failed l s = Ok (b, s') -> forall k u, ipasir_failed k s = Ok u -> exists w, ipasir_failed k s' = Ok (fst u, w).
Proof.
  intros E k u Eu. unfold ipasir_failed in *. apply bind_ok in E. destruct E as (f & Ef & E). rewrite Ef in Eu. cbn [bind] in Eu.
  destruct (_ <? _) in E; [|discriminate]. injection E as _ <-. cbn [ip_fmap bind]. destruct (lvar (import k) <? length f); [|discriminate].
  injection Eu as <-. cbn [fst]. eexists. reflexivity.
Qed.
Lemma failed_keeps_many C qs : forall s s', irun C s (map CFailed qs) = Ok s' -> forall k u, ipasir_failed k s = Ok u -> exists w, ipasir_failed k s' = Ok (fst u, w).
Proof.
  induction qs as [|q qs IH]; intros s s' E k u Eu; cbn [map irun istep] in E; [injection E as <-; exists (snd u); destruct u; exact Eu|].
  apply bind_ok in E. destruct E as (s1 & E1 & E). apply bind_ok in E1. destruct E1 as ((b & s2) & E1 & E2). injection E2 as ->.
  destruct (failed_keeps _ _ _ _ E1 k u Eu) as (w & Ew). destruct (IH _ _ E k _ Ew) as (w2 & Ew2). exists w2. exact Ew2.
Qed.
Lemma ip_failed C cs s O fuel r s' qs s'' : ireach C cs s -> solvable cs -> ipasir_solve C O fuel s = Ok (r, s') -> r = 20%Z ->
  irun C s' (map CFailed qs) = Ok s'' -> exists failed, (forall l, In l (assumptions cs) -> exists w, ipasir_failed l s'' = Ok (failed l, w)) /\
  zunsat (clauses cs) (filter failed (assumptions cs)).
Proof.
  intros HR HS E Hr Eq. destruct (ip_unsat C cs s O fuel r s' HR HS E Hr) as (core & H1 & H2 & H3).
  exists (fun l => if in_dec Nat.eq_dec (lvar (import l)) (map (fun x => lvar (import x)) core) then true else false). split.
  - intros l Hl. destruct (H2 l Hl) as (w & Ew). exact (failed_keeps_many C qs s' s'' Eq l _ Ew).
  - intros a (A1 & A2). apply (H3 a). split; auto. intros l Hl. apply A2. apply filter_In. split; auto.
    destruct (in_dec _ _ _) as [|n]; auto. exfalso. apply n. apply in_map_iff. exists l. auto.
Qed.
Lemma ip_unsat_all C cs s O fuel r s' : ireach C cs s -> solvable cs -> ipasir_solve C O fuel s = Ok (r, s') -> r = 20%Z ->
  zunsat (clauses cs) (assumptions cs).
Proof.
  intros HR HS E Hr. destruct (ip_unsat C cs s O fuel r s' HR HS E Hr) as (core & H1 & H2 & H3). intros a (A1 & A2). apply (H3 a). split; auto.
Qed.
(** the last answer, and whether clauses or assumptions were added since *)
Lemma ip_val_none C cs l s : forall s0, irun C s0 cs = Ok s -> ip_nomodel s0 = true ->
  (forall h fuel, ~ In (CSolve h fuel) cs) -> ipasir_val l s = 0%Z.
Proof.
  induction cs as [|c cs IH]; intros s0 E H0 HN; cbn [irun] in E; [injection E as <-; unfold ipasir_val; rewrite H0; auto|].
  apply bind_ok in E. destruct E as (s1 & E1 & E). apply (IH s1 E); [|intros h fuel Hi; apply (HN h fuel); cbn; auto].
  destruct c as [k|k|h fuel|k|k|k]; cbn [istep] in E1.
  - injection E1 as <-. unfold ipasir_add. destruct (negb _); auto.
  - injection E1 as <-. auto.
  - exfalso. apply (HN h fuel). cbn. auto.
  - injection E1 as <-. auto.
  - apply bind_ok in E1. destruct E1 as ((b & s2) & E1 & E2). injection E2 as ->. unfold ipasir_failed in E1. apply bind_ok in E1. destruct E1 as (f & _ & E1).
    destruct (_ <? _); [|discriminate]. injection E1 as _ <-. auto.
  - injection E1 as <-. auto.
Qed.
Lemma ip_no_model C s r s' O fuel cs s'' l : ipasir_solve C O fuel s = Ok (r, s') -> r <> 10%Z ->
  irun C s' cs = Ok s'' -> (forall h n, ~ In (CSolve h n) cs) -> ipasir_val l s'' = 0%Z.
Proof.
  intros E Hr Er HN. apply (ip_val_none C cs l s'' s' Er); auto. unfold ipasir_solve in E. apply bind_ok in E. destruct E as (s1 & E1 & E). apply bind_ok in E. destruct E as ((x & s2) & E2 & E).
  injection E as <- <-. cbn [ip_nomodel]. destruct (r_status x) as [[|]|]; auto.
Qed.
Lemma ip_model_gone C s c k cs s'' l : c = CAdd k \/ c = CAssume k -> irun C s (c :: cs) = Ok s'' ->
  (forall h n, ~ In (CSolve h n) cs) -> ipasir_val l s'' = 0%Z.
Proof.
  intros Hc E HN. cbn [irun] in E. apply bind_ok in E. destruct E as (s1 & E1 & E). apply (ip_val_none C cs l s'' s1 E); auto.
  destruct Hc as [-> | ->]; cbn [istep] in E1; injection E1 as <-; auto. unfold ipasir_add. destruct (negb _); auto.
Qed.
Lemma solvableb_ok cs : forallb (fun l => existsb (fun d => existsb (fun k => Z.abs k =? Z.abs l)%Z d) (clauses cs)) (assumptions cs) = true ->
  forall l, In l (assumptions cs) -> occurs (clauses cs) (Z.abs l).
Proof.
  intros H l Hl. rewrite forallb_forall in H. specialize (H l Hl). apply existsb_exists in H. destruct H as (d & D1 & D2). apply existsb_exists in D2.
  destruct D2 as (k & K1 & K2). exists d, k. split; auto. split; auto. lia.
Qed.

Lemma no_elim_ipasir C O fuel s : c_inproc C = 0%N -> c_pre C = false -> ipasir_solve C O fuel s = ipasir_solve (no_elim C) O fuel s.
Proof.
  intros H1 H2. unfold ipasir_solve. destruct (solver_init (variables (ip_prob s)) (problem (ip_prob s)) true (ip_sv s)); cbn [bind]; [|reflexivity].
  rewrite (no_elim_solve C) by assumption. reflexivity.
Qed.
Lemma no_elim_irun C cs : c_inproc C = 0%N -> c_pre C = false -> forall s, irun C s cs = irun (no_elim C) s cs.
Proof.
  intros H1 H2. induction cs as [|c cs IH]; intros s; [reflexivity|]. cbn [irun].
  assert (E : istep C s c = istep (no_elim C) s c).
  { destruct c; cbn [istep]; try reflexivity. rewrite no_elim_ipasir by assumption. reflexivity. }
  rewrite E. destruct (istep (no_elim C) s c); cbn [bind]; [apply IH|reflexivity].
Qed.
Lemma no_elim_ireach C cs s : c_inproc C = 0%N -> c_pre C = false -> ireach C cs s -> ireach (no_elim C) cs s.
Proof. intros H1 H2 (L & R). split; [exact L|]. rewrite no_elim_irun in R by assumption. exact R. Qed.
Lemma ip_sat_history C cs s O fuel r s' : c_inproc C = 0%N -> c_pre C = false ->
  ireach C cs s -> solvable cs -> ipasir_solve C O fuel s = Ok (r, s') -> r = 10%Z ->
  (forall c, In c (clauses cs) -> exists l, In l c /\ ipasir_val l s' = l) /\ (forall l, In l (assumptions cs) -> ipasir_val l s' = l) /\
  (forall l, l <> 0%Z -> occurs (clauses cs) (Z.abs l) -> ipasir_val (- l) s' = ipasir_val l s').
Proof.
  intros H1 H2 HR HS HE. rewrite no_elim_ipasir in HE by assumption. apply no_elim_ireach in HR; try assumption.
  exact (ip_sat (no_elim C) cs s O fuel r s' eq_refl H1 H2 HR HS HE).
Qed.
Lemma ip_defined_history C cs s O fuel : c_inproc C = 0%N -> c_pre C = false -> ireach C cs s -> solvable cs -> ipasir_solve C O fuel s <> Err UB.
Proof.
  intros H1 H2 HR HS. rewrite no_elim_ipasir by assumption. apply no_elim_ireach in HR; try assumption.
  exact (ip_defined (no_elim C) cs s O fuel eq_refl H1 H2 HR HS).
Qed.
