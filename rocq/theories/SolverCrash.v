(** The first solve with variable elimination: if the search finds an assignment then the problem is
    satisfiable, even if the values of the eliminated variables cannot be computed. *)
Require Import List Arith Bool NArith ZArith Permutation Lia.
From Coq Require Import ZifyBool ZifyNat ZifyN.
Require Import Verif.Base Verif.CNFModel Verif.CNFProofs Verif.Outcome Verif.TrailModel Verif.TrailSpec Verif.TrailProofs Verif.TrailLemmas Verif.DbModel Verif.PropModel Verif.PropProofs Verif.DbProofs
  Verif.PropSpec Verif.PropLemmas Verif.AnalyzeModel Verif.AnalyzeProofs Verif.AnalyzeLemmas Verif.SimpModel Verif.SubsProofs Verif.SimpProofs Verif.SimpSpec Verif.SimpLemmas
  Verif.VEProofs Verif.AsymmProofs Verif.AsymmLemmas Verif.ReduceModel Verif.SolverModel Verif.SolverBase Verif.SolverUnits Verif.SolverSimp Verif.SolverSearch Verif.SolverProofs Verif.SolverSpec Verif.SolverLemmas Verif.SolverElim.
Import ListNotations.

(** ** A trail for an assignment *)
Definition inb (v : var) (vs : list var) : bool := if in_dec Nat.eq_dec v vs then true else false.
Definition trail_of (n : nat) (a : assignment) (no : list var) : trail_t :=
  mkTrail n (map (fun v => if inb v no then None else Some (a v)) (seq 0 n)) [] (map (fun v => mkLit v (negb (a v))) (filter (fun v => negb (inb v no)) (seq 0 n))) 0 [] [] [].
Lemma inb_spec v vs : inb v vs = true <-> In v vs.
Proof. unfold inb. destruct (in_dec _ _ _); split; auto; discriminate. Qed.
Lemma trail_of_val n a no v : vvalue (trail_of n a no) v = if (v <? n) && negb (inb v no) then Some (a v) else None.
Proof.
  unfold vvalue, trail_of. cbn [asg]. destruct (Nat.ltb_spec v n) as [H|H].
  - assert (E : nth_error (map (fun v => if inb v no then None else Some (a v)) (seq 0 n)) v = Some (if inb v no then None else Some (a v))).
    { apply (map_nth_error (fun v => if inb v no then None else Some (a v))). rewrite nth_error_nth' with (d := 0) by (rewrite seq_length; auto). rewrite seq_nth by auto. reflexivity. }
    rewrite (nth_error_nth _ _ None E). cbn [andb]. destruct (inb v no); reflexivity.
  - rewrite nth_overflow by (rewrite map_length, seq_length; auto). reflexivity.
Qed.
Lemma trail_of_TV n a no : TV n (trail_of n a no).
Proof.
  constructor; auto.
  - cbn [trail_of asg]. rewrite map_length, seq_length. reflexivity.
  - cbn [trail_of tr]. rewrite map_map. rewrite (map_ext _ (fun v => v)) by (intros v; apply lvar_mk). rewrite map_id. apply NoDup_filter, seq_NoDup.
  - cbn [trail_of tr]. intros l Hl. apply in_map_iff in Hl. destruct Hl as (v & <- & Hv). apply filter_In in Hv. destruct Hv as (Hv & _). apply in_seq in Hv. rewrite lvar_mk. lia.
  - intros l. unfold value. rewrite trail_of_val. cbn [trail_of tr]. rewrite in_map_iff. split.
    + destruct (Nat.ltb_spec (lvar l) n) as [H|H]; cbn [andb]; [|discriminate]. destruct (inb (lvar l) no) eqn:Eb; cbn [negb]; [discriminate|].
      intros E. exists (lvar l). split; [|apply filter_In; split; [apply in_seq; lia|rewrite Eb; reflexivity]].
      cbn in E. injection E as E. transitivity (mkLit (lvar l) (lsign l)); [|symmetry; apply lit_eta]. f_equal. destruct (a (lvar l)), (lsign l); cbn in *; congruence.
    + intros (v & <- & Hv). apply filter_In in Hv. destruct Hv as (Hv & Hb). apply in_seq in Hv. rewrite lvar_mk, lsign_mk.
      destruct (Nat.ltb_spec v n); [|lia]. rewrite Hb. cbn. destruct (a v); reflexivity.
Qed.
Definition as_of (t : trail_t) : assignment := fun v => match vvalue t v with Some b => b | None => false end.
Lemma as_of_holds t l : value t l = Some true -> lit_holds (as_of t) l.
Proof. unfold value, lit_holds, lit_val, as_of. destruct (vvalue t (lvar l)) as [b|]; cbn; [|discriminate]. intros E. injection E as E. destruct b, (lsign l); cbn in *; congruence. Qed.
Lemma trail_of_holds n a no l : lit_holds a l -> lvar l < n -> ~ In (lvar l) no -> value (trail_of n a no) l = Some true.
Proof.
  intros H Hn Hi. unfold value. rewrite trail_of_val. destruct (Nat.ltb_spec (lvar l) n); [|lia]. destruct (inb (lvar l) no) eqn:Eb; [apply inb_spec in Eb; contradiction|].
  cbn. unfold lit_holds, lit_val in H. destruct (a (lvar l)), (lsign l); cbn in *; congruence.
Qed.

(** ** Elimination keeps satisfiability *)
Definition satK (m : bool) (d : db) (a : assignment) : Prop := forall c, Kp m d c -> sat_clause a (clits d c).
Record RY (d0 d : db) (t : trail_t) (s : sdb) (e : ve) : Prop := {
  ry_W : exists X, WR X d s /\ forall c, X c -> c < length (arena d) /\ exists l, clits d c = [l] /\ In l (tr t);
  ry_sem : forall m a, satK m d a -> exists a', satK m d0 a' /\ forall u, ~ In u (ev e) -> a' u = a u }.
Lemma sem_cover d0 d d' (e : ve) : (forall m a, satK m d a -> exists a', satK m d0 a' /\ forall u, ~ In u (ev e) -> a' u = a u) -> Cover d d' ->
  forall m a, satK m d' a -> exists a', satK m d0 a' /\ forall u, ~ In u (ev e) -> a' u = a u.
Proof.
  intros H HC m a Ha. apply (H m a). intros c (C1 & C2). destruct (HC c C1) as (c' & L1 & L2 & L3). destruct (Ha c' (conj L1 (fun Hm => L3 (C2 Hm)))) as (l & M1 & M2). exists l. auto.
Qed.
Lemma RY_mstep n d0 d t s e d' t' T : RY d0 d t s e -> SI n d s -> DI n d -> mstep T d d' -> (forall l, In l (tr T) -> In l (tr t')) -> (forall l, In l (tr t) -> In l (tr t')) -> RY d0 d' t' s e.
Proof.
  intros [(X & R3 & R4) R5] HI HD HM H1 H2. assert (HC := Cover_mstep n T d d' HD HM). constructor; [|exact (sem_cover _ _ _ _ R5 HC)].
  exists (fun c => X c \/ length (arena d) <= c < length (arena d')). split.
  - intros c (C1 & C2). apply (ms_cls _ _ _ HM) in C1. destruct C1 as [C1|C1]; auto.
    assert (Hlt := cls_lt _ _ _ HD C1). destruct (R3 c) as [H|H]; auto. split; auto.
    unfold isDeleted in *. rewrite (ms_wt _ _ _ HM) in C2; auto.
  - intros c [H|H].
    + destruct (R4 c H) as (A & l & B & B2). split; [assert (Q := ms_len _ _ _ HM); lia|]. exists l. split; [exact (unit_perm d d' c l (ms_lits _ _ _ HM c A) B)|auto].
    + split; [lia|]. destruct (ms_new _ _ _ HM c H) as (_ & l & A & B). exists l. auto.
Qed.

Section Simp.
Variables (P : assignment -> Prop) (C : cfg) (O : oracle) (d0 : db).
Lemma pmu_RY d w t s e d' w' t' : SS P d w t s e -> RY d0 d t s e -> pmu d w t = Ok (d', w', t') -> RY d0 d' t' s e.
Proof.
  intros [HZ HI HE] HR E. destruct (pmu_spec P False d w t HZ) as (d1 & w1 & t1 & E1 & [A1 A2 A3 (new & A4) A5 A6 A7 A8]).
  rewrite E in E1. injection E1 as <- <- <-.
  apply (RY_mstep (nv d) d0 d t s e d' t' t'); auto; [apply HI|]. intros l Hl. rewrite A4. apply in_or_app. auto.
Qed.
Lemma fail_RY d t s e b : SI (nv d) d s -> RY d0 d t s e -> RY d0 (fail_if b d) t s e.
Proof. intros HI HR. destruct b; cbn [fail_if]; auto. apply (RY_mstep (nv d) d0 d t s e _ t t); auto; [apply HI|apply empty_mstep]. Qed.
Lemma cleanup_RY d t s e n : RY d0 d t s e -> RY d0 d t (cleanup_if n s) e.
Proof. intros [R1 R2]. unfold cleanup_if. destruct (0 <? n); constructor; auto. Qed.
Lemma subsume_RY ptr d w t s e b d' s' k : SS P d w t s e -> SL d s -> RY d0 d t s e -> subsume_all ptr d s = Ok (b, d', s', k) -> RY d0 (fail_if b d') t s' e.
Proof.
  intros [HZ HI HE] R2 [(X & R3 & R4) R9] E.
  destruct (subsume_list_spec ptr (nv d) (seq 0 (length (subs s))) d s cnt0 HI) as (b1 & d1 & s1 & k1 & E1 & [A1 A2 A3 A4 A5 A6 A7 A8] & HF).
  unfold subsume_all in E. rewrite E1 in E. injection E as -> -> -> ->. destruct (A4 R2) as (X1 & X2).
  apply fail_RY; [rewrite (ds_nv _ _ A2); auto|]. constructor; [|exact (sem_cover _ _ _ _ R9 X2)].
  exists X. split; [exact (A5 X R2 R3)|]. intros c Hc. destruct (R4 c Hc) as (B1 & l & B2 & B3). split; [assert (Q := ds_len _ _ A2); lia|].
  exists l. rewrite (ds_lits _ _ A2); auto.
Qed.
Lemma asymm_RY d w t s e b n d' w' t' s' : SS P d w t s e -> SL d s -> RY d0 d t s e ->
  asymm_reduce (c_asymm C) d w t s = Ok (b, n, d', w', t', s') -> RY d0 (fail_if b d') t' s' e.
Proof.
  intros [HZ HI HE] R2 [(X & R3 & R4) R9] E. destruct HZ as [Z1 Z2 Z3 Z4 Z5 Z6]. assert (HI2 : SI (nvt t) d s) by (rewrite Z4; auto).
  destruct (asymm_reduce_spec (c_asymm C) d w t s HI2 Z2 Z3) as (b1 & n1 & d1 & w1 & t1 & s1 & E1 & [A1 A2 A3 A4 A5 A6 A7 A8 A9 A10 A11 A12] & HF).
  rewrite E1 in E. injection E as -> -> -> -> -> ->. destruct (A5 R2) as (X1 & X2).
  apply fail_RY; [rewrite (ps_nv _ _ A3), <- Z4; auto|]. constructor; [|exact (sem_cover _ _ _ _ R9 X2)].
  exists X. split; [exact (A6 X R2 R3)|]. intros c Hc. destruct (R4 c Hc) as (C1 & l & C2 & C3). split; [assert (Q := ps_len _ _ A3); lia|].
  exists l. split; [exact (unit_perm d d' c l (ps_lits _ _ A3 c C1) C2)|rewrite A8; auto].
Qed.
Lemma elim_RY cand d w t s e b n d' s' e' t' : SS P d w t s e -> RX d0 d t s e -> RY d0 d t s e ->
  eliminate (c_elim C) (c_lim C) cand d s e t = Ok (b, n, d', s', e', t') -> RY d0 (fail_if b d') t' s' e'.
Proof.
  intros [HZ HI HE] HX [(X & R3 & R4) R9] E. destruct HZ as [Z1 Z2 Z3 Z4 Z5 Z6]. assert (R2 := rx_SL _ _ _ _ _ HX).
  assert (HS := eliminate_spec (nv d) (c_elim C) (c_lim C) cand d s e t HI (vo_I _ _ _ HE) Z4). rewrite E in HS.
  destruct HS as (new & HP & HV & Ht & Hk & Hnew & HF).
  destruct HP as [A1 A2 A3 A4 A5 A6 A7 A8 A9 A10 A11 A12 A13 A14].
  assert (VI : VEI (nvt t) e) by (rewrite Z4; apply HE). destruct (ve_init_spec t e VI) as (I1 & I2 & I3 & I4 & _). rewrite I3 in A7.
  destruct (undecide_fields new t) as (U1 & U2 & U3 & U4 & U5 & U6 & U7).
  assert (HT := pi_TI _ _ _ Z2).
  assert (HX2 : forall c, X c -> c < length (arena d') /\ exists l, clits d' c = [l] /\ In l (tr t)).
  { intros c Hc. destruct (R4 c Hc) as (B1 & l & B2 & B3). split; [assert (Q := ds_len _ _ A2); lia|]. exists l. rewrite (ds_lits _ _ A2); auto. }
  apply fail_RY; [rewrite (ds_nv _ _ A2); auto|]. constructor.
  - exists X. split; [exact (A5 X R2 R3)|]. intros c Hc. destruct (HX2 c Hc) as (B1 & l & B2 & B3). split; auto. exists l. split; auto. rewrite Ht. congruence.
  - intros m a Ha.
    assert (HK : forall c, Kp m d' c -> satisfies_any (trail_of (nv d) a new) (clits d' c) = true).
    { intros c Hc. destruct (Ha c Hc) as (l & L1 & L2). apply satisfies_any_true. exists l. split; auto. apply trail_of_holds; auto.
      - rewrite <- (ds_nv _ _ A2). assert (A1' : SI (nv d') d' s') by (rewrite (ds_nv _ _ A2); exact A1). apply (di_WFA _ _ (s_D _ _ _ A1') c). exact L1.
      - destruct (A5 X R2 R3 c (proj1 Hc)) as [(i & Hi)|Hx]; [exact (proj1 (A13 i c l Hi L1))|]. destruct (HX2 c Hx) as (_ & y & Y1 & Y2). rewrite Y1 in L1. destruct L1 as [<-|[]].
        intros Hn. destruct (Hnew _ Hn) as (N1 & _). apply (ti_val _ HT) in Y2. unfold value in Y2. rewrite N1 in Y2. discriminate. }
    destruct (A14 R2 m e' (trail_of (nv d) a new) (fun u _ => eq_refl) (trail_of_TV _ _ _)) as (t3 & Q1 & Q2 & Q3 & Q4 & Q5 & Q6 & Q7); auto.
    + intros u Hu. rewrite trail_of_val. apply inb_spec in Hu. rewrite Hu, andb_false_r. reflexivity.
    + intros i c l Hi Hl. destruct (in_dec Nat.eq_dec (lvar l) new) as [Hn|Hn]; auto. right. rewrite trail_of_val.
      assert (Hv : lvar l < nv d) by (apply (di_WFA _ _ (s_D _ _ _ HI) c); auto). destruct (Nat.ltb_spec (lvar l) (nv d)); [|lia].
      destruct (inb (lvar l) new) eqn:Eb; [apply inb_spec in Eb; contradiction|discriminate].
    + set (a1 := fun v => match vvalue t3 v with Some b => b | None => a v end).
      destruct (R9 m a1) as (a' & S1 & S2).
      { intros c Hc. specialize (Q7 c Hc). apply satisfies_any_true in Q7. destruct Q7 as (l & L1 & L2). exists l. split; auto.
        unfold value in L2. unfold lit_holds, lit_val, a1. destruct (vvalue t3 (lvar l)) as [y|]; cbn in L2; [|discriminate]. injection L2 as L2. destruct y, (lsign l); cbn in *; congruence. }
      exists a'. split; auto. intros u Hu. rewrite A7, in_app_iff in Hu. rewrite S2 by tauto. unfold a1. rewrite Q3 by tauto. rewrite trail_of_val.
      destruct (_ && _); reflexivity.
Qed.
Lemma simp_round_RY k d w t s e : SS P d w t s e -> RX d0 d t s e -> RY d0 d t s e ->
  safe (simp_round C O k d w t s e) (fun x => match x with (b, d', w', t', s', e') => RY d0 d' t' s' e' end).
Proof.
  intros H0 X0 Y0. unfold simp_round.
  destruct (pmu_SS P C d w t s e H0) as (d1 & w1 & t1 & E1 & H1 & _). rewrite E1. cbn [bind]. assert (X1 := pmu_RX P d0 _ _ _ _ _ _ _ _ H0 X0 E1). assert (Y1 := pmu_RY _ _ _ _ _ _ _ _ H0 Y0 E1).
  destruct (empt d1) eqn:M1; [cbn [safe]; auto|].
  destruct (subsume_SS P C (o_ptr O k) d1 w1 t1 s e H1) as (b2 & d2 & s2 & n2 & E2 & H2 & _). rewrite E2. cbn [bind].
  assert (X2 := subsume_RX P d0 _ _ _ _ _ _ _ _ _ _ H1 X1 E2). assert (Y2 := subsume_RY _ _ _ _ _ _ _ _ _ _ H1 (rx_SL _ _ _ _ _ X1) Y1 E2).
  destruct (pmu_SS P C (fail_if b2 d2) w1 t1 s2 e H2) as (d3 & w3 & t3 & E3 & H3 & _). rewrite E3. cbn [bind].
  assert (X3 := pmu_RX P d0 _ _ _ _ _ _ _ _ H2 X2 E3). assert (Y3 := pmu_RY _ _ _ _ _ _ _ _ H2 Y2 E3).
  destruct (SS_cleanup P C _ _ _ _ _ (sub_nTouched n2) H3) as (H4 & _). assert (X4 := cleanup_RX d0 _ _ _ _ (sub_nTouched n2) X3). assert (Y4 := cleanup_RY _ _ _ _ (sub_nTouched n2) Y3).
  destruct (empt d3) eqn:M3; [cbn [safe]; auto|].
  destruct (asymm_SS P C _ _ _ _ _ H4 M3) as (b5 & n5 & d5 & w5 & t5 & s5 & E5 & H5 & _). rewrite E5. cbn [bind].
  assert (X5 := asymm_RX P C d0 _ _ _ _ _ _ _ _ _ _ _ H4 X4 E5). assert (Y5 := asymm_RY _ _ _ _ _ _ _ _ _ _ _ H4 (rx_SL _ _ _ _ _ X4) Y4 E5).
  destruct (pmu_SS P C _ _ _ _ _ H5) as (d6 & w6 & t6 & E6 & H6 & _). rewrite E6. cbn [bind].
  assert (X6 := pmu_RX P d0 _ _ _ _ _ _ _ _ H5 X5 E6). assert (Y6 := pmu_RY _ _ _ _ _ _ _ _ H5 Y5 E6).
  destruct (SS_cleanup P C _ _ _ _ _ n5 H6) as (H7 & _). assert (X7 := cleanup_RX d0 _ _ _ _ n5 X6). assert (Y7 := cleanup_RY _ _ _ _ n5 Y6).
  destruct (empt d6) eqn:M6; [cbn [safe]; auto|].
  assert (HE := elim_SS P C (o_vars O k) _ w6 _ _ _ H7).
  destruct (eliminate (c_elim C) (c_lim C) (o_vars O k) d6 (cleanup_if n5 s5) e t6) as [[[[[[b n] d8] s8] e8] t8]|er] eqn:E8; cbn [bind safe] in *; [|exact HE].
  apply cleanup_RY. exact (elim_RY _ _ _ _ _ _ _ _ _ _ _ _ H7 X7 Y7 E8).
Qed.
Lemma simp_loop_RY fuel : forall k num max d w t s e, SS P d w t s e -> RX d0 d t s e -> RY d0 d t s e ->
  safe (simp_loop C O fuel k num max d w t s e) (fun x => match x with (k', d', w', t', e') => exists s', RY d0 d' t' s' e' end).
Proof.
  induction fuel as [|f IH]; intros k num max d w t s e H0 X0 Y0; cbn [simp_loop]; [discriminate|].
  destruct ((max <? 10 * num) && negb (o_term O k)); [|cbn [safe]; exists s; auto].
  assert (A := simp_round_RX P C O d0 k d w t s e H0 X0). assert (B := simp_round_RY k d w t s e H0 X0 Y0).
  destruct (simp_round C O k d w t s e) as [[[[[[b d1] w1] t1] s1] e1]|er]; cbn [bind safe] in *; [|exact A]. destruct A as (H1 & X1).
  destruct b; [exact (IH (S k) _ _ d1 w1 t1 s1 e1 H1 X1 B)|cbn [safe]; exists s1; auto].
Qed.
End Simp.

Lemma start_RY P C O fuel s s1 : c_pre C = true -> BI P s -> nodel (sv_d s) -> AD (sv_t s) -> ev (sv_e s) = [] ->
  solve_start C O fuel s = Ok s1 -> empt (sv_d s1) = false -> exists b, RY (sv_d s) (sv_d s1) (sv_t s1) b (sv_e s1).
Proof.
  intros Hp [B1 B2 B3 B4 B5] HN HA He E Em. unfold solve_start in E. rewrite Hp in E.
  set (t0 := trail_reset (sv_t s)) in *. assert (HT0 : TI t0) by (apply TI_TLreset; auto).
  destruct (ve_reset_spec P (nv (sv_d s)) (sv_e s) t0 B5 B3 B4) as (cor & e1 & t1 & E1 & V1 & TS & Hcor & Hev).
  destruct (Hev He) as (-> & -> & He1). rewrite E1 in E. cbn [bind create_corr] in E. apply bind_ok in E. destruct E as (s2 & E2 & E3).
  injection E3 as <-. cbn [core sv_d sv_t sv_e] in *. unfold processClauseDatabase in E2. apply bind_ok in E2.
  destruct E2 as (((((k & d) & w) & t) & e) & E2 & E3). injection E3 as <-. cbn [with_e core sv_d sv_w sv_t sv_e sv_clk] in *.
  assert (HW : WS (nv (sv_d s)) (sv_d s) (prop_reset (sv_d s))) by (apply WS_reset; apply B1).
  destruct (Z_start P (sv_d s) (prop_reset (sv_d s)) t0 B1 HT0) as (Z1 & _); auto.
  assert (Em0 : empt (sv_d s) = false).
  { destruct (empt (sv_d s)) eqn:Ex; auto. rewrite (loop_empt _ _ _ _ _ _ _ _ _ _ _ _ _ _ _ _ P Z1 Ex E2) in Em. discriminate. }
  assert (HA0 : AD t0) by (intros v; apply (HA v)).
  assert (HR := RX_init P (sv_d s) t0 e1 B1 Em0 HN HA0 He1 V1).
  destruct (sdb_init_spec _ _ (ci_D _ _ B1) (ci_L _ _ B1) (ci_N _ _ B1 Em0)) as (S1 & S2 & S3 & S4).
  assert (HS : SS P (sv_d s) (prop_reset (sv_d s)) t0 (sdb_init (sv_d s)) e1) by (constructor; auto).
  assert (HY : RY (sv_d s) (sv_d s) t0 (sdb_init (sv_d s)) e1).
  { constructor; [exists (fun _ => False); split; [auto|intros c []]|]. intros m a Ha. exists a. auto. }
  assert (HL := simp_loop_RY P C O (sv_d s) fuel (sv_clk s) 1 0 _ _ _ _ _ HS HR HY). rewrite E2 in HL. cbn [safe] in HL. exact HL.
Qed.

(** ** The search found an assignment *)
Lemma first_found C F s O fuel s1 cs s2 : c_inproc C = 0%N -> c_pre C = true -> sreach C loading_op F s -> solve_start C O fuel s = Ok s1 -> empt (sv_d s1) = false ->
  solve_loop C O fuel fuel s1 = Ok (Some true, cs, s2) -> satisfiable (F ++ units (assumptions s)).
Proof.
  intros HC Hp HR E1 Em E2. destruct (load_KI C F s HR) as ([K1 K2 K3] & HN). assert (HB := reach_BI _ _ _ _ HR).
  assert (HS1 := solve_start_spec (holdsF F) C O fuel s HB). rewrite E1 in HS1. cbn [safe] in HS1. destruct HS1 as (X1 & X2 & X3 & _).
  destruct (start_RX _ C O fuel s s1 Hp HB HN K3 K2 E1 Em) as (b & HX). destruct (start_RY _ C O fuel s s1 Hp HB HN K3 K2 E1 Em) as (b2 & HY).
  rewrite (loop_no_elim C O HC) in E2.
  assert (HL := solve_loop_spec (holdsF F) (no_elim C) O fuel fuel s1 X1 X2). rewrite E2 in HL. cbn [safe] in HL.
  destruct HL as [B Y2 Y3 Y4 Y5 Y6]. assert (HQ := no_elim_quiet C HC). destruct (Y6 eq_refl) as (J1 & J2 & J3). destruct (J3 HQ) as (D1 & D2). destruct (Y4 HQ) as [G1 G2 G3].
  destruct HX as [R1 R2 (X & R3 & R4) R5 R6 R7 R8 Ra R9].
  assert (Hall : forall v, v < nv (sv_d s) -> ~ In v (ev (sv_e s1)) -> vvalue (sv_t s2) v <> None).
  { intros v Hv Hev. apply D1; [rewrite R1; exact Hv|]. apply R6. exact Hev. }
  destruct (ry_sem _ _ _ _ _ HY true (as_of (sv_t s2))) as (a & A1 & A2).
  { intros c (C1 & C2). specialize (C2 eq_refl). destruct (G3 c (proj1 C1) C2) as (c' & L1 & L2 & L3).
    assert (Hc' : exists l, In l (clits (sv_d s2) c') /\ In l (tr (sv_t s2))).
    { apply D2; auto. intros Hlen l Hl. destruct (R3 c C1) as [(i & Hi)|Hu].
      - apply Hall; [rewrite <- R1; apply (di_WFA _ _ (ci_D _ _ (b_C _ _ X1)) c); auto|]. exact (R5 i c l Hi (L3 l Hl)).
      - exfalso. destruct (R4 c Hu) as (_ & y & Hy). rewrite Hy in L3.
        destruct (di_WFA _ _ (ci_D _ _ (b_C _ _ B)) c') as (ND & _). change (alits (arena (sv_d s2)) c') with (clits (sv_d s2) c') in ND. apply NoDup_map_inv in ND.
        assert (HQ2 := NoDup_incl_length ND L3). cbn [length] in HQ2. lia. }
    destruct Hc' as (l & H1 & H2). exists l. split; auto. apply as_of_holds. apply (ti_val _ J2). exact H2. }
  exists a. intros f Hf. apply in_app_iff in Hf. destruct Hf as [Hf|Hf].
  - destruct (K1 f Hf) as (c & C1 & C2 & C3).
    assert (HK : Kp true (sv_d s) c) by (split; [split; [auto|apply HN; auto]|auto]). destruct (A1 c HK) as (l & L1 & L2). exists l. auto.
  - unfold units in Hf. apply in_map_iff in Hf. destruct Hf as (l & <- & Hl). exists l. split; [left; auto|].
    unfold assumptions in Hl. rewrite <- (r_assum _ _ _ X3) in Hl. assert (Hv := J1 l Hl). apply (ti_val _ J2) in Hv. apply as_of_holds in Hv.
    unfold lit_holds, lit_val in *. rewrite A2; auto.
Qed.
Lemma first_crash C F s O fuel : c_inproc C = 0%N -> sreach C loading_op F s -> solve C O fuel s = Err UB -> satisfiable (F ++ units (assumptions s)).
Proof.
  intros HC HR E. destruct (c_pre C) eqn:Hp.
  2: { exfalso. revert E. apply (history_safe C F s O fuel HC Hp). clear - HR. induction HR; [apply sr_new|eapply sr_init; eauto|eapply sr_assume; eauto; exact I|eapply sr_callback; eauto; exact I|cbn in H; tauto]. }
  assert (HB := reach_BI _ _ _ _ HR). unfold solve in E.
  assert (HS1 := solve_start_spec (holdsF F) C O fuel s HB). destruct (solve_start C O fuel s) as [s1|er] eqn:E1; cbn [safe bind] in HS1, E; [|congruence].
  destruct HS1 as (X1 & X2 & X3 & _). destruct (empt (sv_d s1)) eqn:Em; [cbn [bind solve_finish] in E; discriminate|].
  assert (HL := solve_loop_spec (holdsF F) C O fuel fuel s1 X1 X2). destruct (solve_loop C O fuel fuel s1) as [((r & cs) & s2)|er] eqn:E2; cbn [safe bind] in HL, E; [|congruence].
  destruct r as [[|]|]; cbn [solve_finish] in E; [|discriminate..]. exact (first_found C F s O fuel s1 cs s2 HC Hp HR E1 Em E2).
Qed.
