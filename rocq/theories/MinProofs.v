(** Proofs about model minimisation. *)
Require Import List Arith Bool NArith ZArith Lia Permutation.
Require Import Verif.Base Verif.Outcome Verif.CNFModel Verif.CNFSpec Verif.CNFProofs Verif.TrailModel Verif.DbModel Verif.PropSpec.
Require Import Verif.GateModel Verif.GateSpec Verif.SolverModel Verif.SolverSpec Verif.SolverProofs Verif.SolverLemmas Verif.IpasirProofs Verif.MinModel Verif.MinSpec.
Import ListNotations.

Definition pos (v : var) : lit := mkLit v false.
Definition ngv (v : var) : lit := mkLit v true.
Lemma ngv_neg v : lneg (ngv v) = pos v. Proof. unfold ngv, pos. rewrite lneg_mk. reflexivity. Qed.
Definition hits (K : list var) (hs : list clause) : Prop := forall c, In c hs -> exists v, In v K /\ In (pos v) c.
Definition charf (K : list var) : assignment := fun v => existsb (Nat.eqb v) K.
Lemma charf_true K v : charf K v = true <-> In v K.
Proof. unfold charf. rewrite existsb_exists. split; [intros (w & H & E); apply Nat.eqb_eq in E; subst; auto|intros H; exists v; split; auto; apply Nat.eqb_refl]. Qed.
Lemma holds_pos a v : lit_holds a (pos v) <-> a v = true.
Proof. unfold lit_holds, lit_val, pos. rewrite lvar_mk, lsign_mk. destruct (a v); cbn; split; congruence. Qed.
Lemma holds_ngv a v : lit_holds a (ngv v) <-> a v = false.
Proof. unfold lit_holds, lit_val, ngv. rewrite lvar_mk, lsign_mk. destruct (a v); cbn; split; congruence. Qed.

Definition pos_formula (n : nat) (hs : list clause) : Prop := forall c, In c hs -> c <> [] /\ forall l, In l c -> exists v, l = pos v /\ v < n.
Lemma hits_sat n K hs : pos_formula n hs -> hits K hs <-> sat (charf K) hs.
Proof.
  intros HP. split.
  - intros H c Hc. destruct (H c Hc) as (v & V1 & V2). exists (pos v). split; auto. apply holds_pos, charf_true; auto.
  - intros H c Hc. destruct (H c Hc) as (l & L1 & L2). destruct (proj2 (HP c Hc) l L1) as (v & -> & _). exists v. split; auto. apply charf_true, holds_pos; auto.
Qed.

(** ** Loading *)
Lemma read_ok cs : forall p, Forall (clause_ok (variables p)) (problem p) ->
  Forall (clause_ok (variables (readClauses p cs))) (problem (readClauses p cs)) /\ variables p <= variables (readClauses p cs) /\
  (forall c l, In c cs -> In l c -> lvar l < variables (readClauses p cs)) /\
  forall a, sat a (problem (readClauses p cs)) <-> sat a (problem p) /\ sat a cs.
Proof.
  induction cs as [|c cs IH]; intros p HP.
  - cbn. split; auto. split; auto. split; [intros c l []|]. intros a. split; [intros H; split; auto; intros c []|tauto].
  - change (readClauses p (c :: cs)) with (readClauses (readClause p c) cs).
    destruct (read_step p c HP) as (A1 & A2 & A3 & A4). destruct (IH _ A1) as (B1 & B2 & B3 & B4). split; auto. split; [lia|]. split.
    + intros d l [<-|Hd] Hl; [specialize (A3 l Hl); lia|eauto].
    + intros a. rewrite B4, A4. rewrite sat_cons. tauto.
Qed.
Lemma load_reach C F s p s' : sreach C problem_op F s -> Forall (clause_ok (variables p)) (problem p) -> load p s = Ok s' ->
  sreach C problem_op (F ++ problem p) s' /\ nvars s' = max (variables p) (nvars s) /\ assumptions s' = assumptions s.
Proof.
  intros HR HP E. unfold load in E.
  assert (HP' : Forall (clause_ok (max (variables p) (nvars s))) (problem p)).
  { eapply Forall_impl; [|exact HP]. intros c (A & B). split; auto. intros l Hl. specialize (B l Hl). lia. }
  split; [apply (sr_init C problem_op F s (variables p) (problem p) true s'); auto; reflexivity|].
  split; [apply (init_nvars F _ _ _ _ _ (reach_BI _ _ _ _ HR) HP' E)|].
  apply (init_assum F _ _ _ _ _ (reach_BI _ _ _ _ HR) HP' E).
Qed.
Lemma solve_assum C ok F s O fuel x s' : sreach C ok F s -> solve C O fuel s = Ok (x, s') -> assumptions s' = assumptions s.
Proof. intros HR E. exact (r_assum _ _ _ (sd_R _ _ _ _ _ (solve_spec _ C O fuel s x s' (reach_BI _ _ _ _ HR) E))). Qed.

(** ** A solve that is not interrupted has an answer *)
Lemma loop_answer C O fuel n : (forall i, o_term O i = false) -> forall s r cs s', solve_loop C O n fuel s = Ok (r, cs, s') -> r <> None.
Proof.
  intros HO. induction n as [|n IH]; intros s r cs s' E; [discriminate|]. cbn [solve_loop] in E. rewrite HO in E.
  apply bind_ok in E. destruct E as (((r1 & cs1) & s1) & E1 & E). destruct r1 as [b|]; [injection E as <- <- <-; discriminate|eauto].
Qed.
Lemma solve_answer C O fuel s x s' : (forall i, o_term O i = false) -> solve C O fuel s = Ok (x, s') -> r_status x <> None.
Proof.
  intros HO E. unfold solve in E. apply bind_ok in E. destruct E as (s1 & E1 & E). apply bind_ok in E. destruct E as (((r & cs) & s2) & E2 & E).
  assert (Hr : r <> None) by (destruct (empt (sv_d s1)); [injection E2 as <- <- <-; discriminate|exact (loop_answer C O fuel fuel HO _ _ _ _ E2)]).
  destruct r as [[|]|]; cbn [solve_finish] in E; [|injection E as <- <-; discriminate|congruence].
  apply bind_ok in E. destruct E as (t & E3 & E4). injection E4 as <- <-. discriminate.
Qed.

Lemma add_bits_ok a : forall b c p, Forall (clause_ok (variables p)) (problem p) ->
  Forall (clause_ok (variables (snd (add_bits a b c p)))) (problem (snd (add_bits a b c p))).
Proof.
  induction a as [|x a IH]; intros b c p HPp; cbn [add_bits]; auto. cbn [newVar].
  set (p2 := mkCnf (problem (mkCnf (problem p) (S (variables p)))) (S (variables (mkCnf (problem p) (S (variables p)))))).
  assert (H2 : Forall (clause_ok (variables p2)) (problem p2)).
  { cbn. eapply Forall_impl; [|exact HPp]. intros d (A & B). split; auto. intros l Hl. specialize (B l Hl). lia. }
  match goal with |- context [readClauses p2 ?q] => set (q0 := q) end.
  destruct (read_ok q0 p2 H2) as (B1 & _).
  specialize (IH (tl b) (mkLit (variables (mkCnf (problem p) (S (variables p)))) false) (readClauses p2 q0) B1).
  destruct (add_bits a (tl b) _ (readClauses p2 q0)) as ((o & c2) & p4). exact IH.
Qed.
Lemma counter_ok fuel : forall ins p, Forall (clause_ok (variables p)) (problem p) ->
  Forall (clause_ok (variables (snd (genParCounter fuel ins p)))) (problem (snd (genParCounter fuel ins p))).
Proof.
  induction fuel as [|fuel IH]; intros ins p HPp; destruct ins as [|x [|y ins]]; auto.
  cbn [genParCounter]. set (h := length (x :: y :: ins) / 2). set (l := x :: y :: ins) in *.
  assert (G1 := IH (firstn h l) p HPp). destruct (genParCounter fuel (firstn h l) p) as (a & p1). cbn [snd] in G1.
  assert (G2 := IH (skipn h l) p1 G1). destruct (genParCounter fuel (skipn h l) p1) as (b & p2). cbn [snd] in G2.
  assert (G3 := add_bits_ok a b (last l 0) p2 G2). destruct (add_bits a b (last l 0) p2) as ((o & c) & p3). exact G3.
Qed.

Section Sets.
Variable n : nat.
Definition Kof (m : model) : list var := filter (fun v => satisfies m (pos v)) (seq 0 n).
Definition Nof (m : model) : list var := filter (fun v => negb (satisfies m (pos v))) (seq 0 n).
Lemma Kof_in m v : In v (Kof m) <-> v < n /\ model_lit m (pos v).
Proof.
  unfold Kof. rewrite filter_In, in_seq, satisfies_assigns. unfold assigns, model_lit.
  unfold pos. rewrite !lvar_mk, !lsign_mk. cbn [negb].
  assert (H : nth_error m v = Some (Some true) <-> nth v m None = Some true).
  { destruct (nth_error m v) as [o|] eqn:E; [rewrite (nth_error_nth _ _ None E); split; congruence|]. apply nth_error_None in E. rewrite nth_overflow by auto. split; congruence. }
  rewrite H. split; [intros ((_ & A) & B); auto|intros (A & B); split; auto; split; [lia|auto]].
Qed.
Lemma Nof_in m v : In v (Nof m) <-> v < n /\ ~ In v (Kof m).
Proof.
  unfold Nof, Kof. rewrite !filter_In, in_seq, negb_true_iff. destruct (satisfies m (pos v)); split.
  - intros (_ & H). discriminate.
  - intros (A & B). exfalso. apply B. split; auto. split; [lia|auto].
  - intros ((_ & A) & _). split; auto. intros (_ & H). discriminate.
  - intros (A & _). split; auto. split; [lia|auto].
Qed.
End Sets.

Section Iter.
Variables (C : cfg) (O : nat -> oracle) (sf n : nat) (hs : list clause).
Hypothesis (HI : c_inproc C = 0%N) (HC : c_pre C = false) (HP : pos_formula n hs).

Notation Kof := (Kof n).
Notation Nof := (Nof n).
Lemma Kof_nodup m : NoDup (Kof m). Proof. apply NoDup_filter, seq_NoDup. Qed.
Lemma Kof_hits m F : model_sat m F -> (forall a, sat a F -> sat a hs) -> hits (Kof m) hs.
Proof.
  intros HM HF c Hc. assert (HA : sat (read m) F) by (intros d Hd; destruct (HM d Hd) as (l & L1 & L2); exists l; split; auto; apply model_lit_read; auto).
  destruct (HF _ HA c Hc) as (l & L1 & L2). destruct (proj2 (HP c Hc) l L1) as (v & -> & Hv). exists v. split; auto. apply Kof_in. split; auto.
  apply (proj1 (holds_pos _ _)) in L2. unfold read in L2. unfold model_lit, pos. rewrite lvar_mk, lsign_mk. destruct (nth v m None) as [[|]|]; try discriminate. reflexivity.
Qed.

(** state of the loop: [K] are the variables of the cardinality clause, [N] those of the assumptions *)
Record shr (F : formula) (K N : list var) (s : solver) : Prop := {
  sh_R : sreach C problem_op F s;
  sh_F : forall a, sat a F -> sat a hs;
  sh_C : forall a, sat a hs -> sat_clause a (map ngv K) -> sat a F;
  sh_nd : NoDup K;
  sh_K : forall v, In v K -> v < n;
  sh_N : forall v, In v N -> v < n /\ v < nvars s /\ ~ In v K;
  sh_H : hits K hs }.
Definition noterm : Prop := forall k i, o_term (O k) i = false.

Lemma trues_K m : trues n m = map ngv (Kof m). Proof. reflexivity. Qed.
Lemma others_N m : others n m = map ngv (Nof m). Proof. reflexivity. Qed.
Lemma unit_holds a l : sat a (units [l]) <-> lit_holds a l.
Proof. unfold units. cbn. rewrite sat_cons. rewrite sat_clause_unit. split; [tauto|]. intros H. split; auto. apply sat_nil. Qed.
Lemma units_hold a ls : sat a (units ls) <-> forall l, In l ls -> lit_holds a l.
Proof.
  unfold units. split.
  - intros H l Hl. apply sat_clause_unit. apply H. apply in_map_iff. exists l. auto.
  - intros H c Hc. apply in_map_iff in Hc. destruct Hc as (l & <- & Hl). apply sat_clause_unit. auto.
Qed.

Lemma shrink_spec fuel : forall k K N F s card k' s', shr F K N s -> (forall v, v < n -> In v K \/ In v N) ->
  shrink C O sf n fuel k (map ngv K) (map ngv N) s = Ok (card, k', s') ->
  exists K' F', card = map ngv K' /\ NoDup K' /\ (forall v, In v K' -> v < n) /\ hits K' hs /\
    sreach C problem_op F' s' /\ (forall a, sat a F' -> sat a hs) /\
    (noterm -> unsat (F' ++ units (assumptions s')) /\ forall v, In v K' -> ~ hits (remove Nat.eq_dec v K') hs).
Proof.
  induction fuel as [|fuel IH]; intros k K N F s card k' s' HS HA E; [discriminate|]. cbn [shrink] in E.
  apply bind_ok in E. destruct E as (s1 & E1 & E). apply bind_ok in E. destruct E as ((x & s2) & E2 & E).
  destruct HS as [R1 R2 R3 R4 R5 R6 R7].
  assert (H0 : Forall (clause_ok (variables cnf_empty)) (problem cnf_empty)) by constructor.
  destruct (read_ok [map ngv K] cnf_empty H0) as (P1 & _ & P3 & P4). set (pc := readClauses cnf_empty [map ngv K]) in *.
  destruct (load_reach C F s pc s1 R1 P1 E1) as (L1 & L2 & L3).
  assert (HKn : forall v, In v K -> v < nvars s1).
  { intros v Hv. assert (Hx := P3 _ (ngv v) (or_introl eq_refl) (in_map ngv _ _ Hv)). unfold ngv in Hx. rewrite lvar_mk in Hx. lia. }
  assert (HNn : forall v, In v N -> v < nvars s1) by (intros v Hv; destruct (R6 v Hv) as (_ & H & _); lia).
  assert (A1 : sreach C problem_op (F ++ problem pc) (solver_assume (map ngv N) s1)).
  { apply sr_assume; auto; [exact I|]. intros l Hl. apply in_map_iff in Hl. destruct Hl as (v & <- & Hv). unfold ngv. rewrite lvar_mk. auto. }
  assert (A2 : assumptions (solver_assume (map ngv N) s1) = map ngv N) by reflexivity.
  assert (A3 := solve_assum _ _ _ _ _ _ _ _ A1 E2). rewrite A2 in A3.
  assert (A4 : nvars s2 = nvars s1) by (exact (sreach_solve_nv _ _ _ _ _ _ _ _ A1 E2)).
  assert (A5 : sreach C problem_op (F ++ problem pc) s2) by (eapply sr_solve; [exact A1|exact I|exact E2]).
  assert (HF : forall a, sat a (F ++ problem pc) <-> sat a F /\ sat_clause a (map ngv K)).
  { intros a. rewrite sat_app, P4, sat_cons. split; [tauto|]. intros (B1 & B2). split; auto. split; [apply sat_nil|]. split; auto. apply sat_nil. }
  destruct (r_status x) as [[|]|] eqn:Ex.
  - destruct (history_model C _ _ _ _ _ _ HI HC A1 E2 Ex) as (M1 & M2 & M3). rewrite A2 in M2.
    rewrite trues_K, others_N in E. apply (IH _ _ _ (F ++ problem pc) s2) in E.
    + exact E.
    + assert (HKK : forall v, In v (Kof (r_model x)) -> In v K).
      { intros v Hv. apply Kof_in in Hv. destruct Hv as (V1 & V2). destruct (HA v V1) as [H|H]; auto. exfalso.
        specialize (M2 (ngv v) (in_map ngv _ _ H)). unfold model_lit, pos, ngv in *. rewrite lvar_mk, lsign_mk in *. rewrite V2 in M2. discriminate. }
      constructor.
      * exact A5.
      * intros a Ha. apply HF in Ha. apply R2. tauto.
      * intros a B1 B2. apply HF.
        assert (B3 : sat_clause a (map ngv K)) by (eapply sat_clause_incl; [|exact B2]; intros l Hl; apply in_map_iff in Hl; destruct Hl as (v & <- & Hv); apply in_map; auto).
        split; auto.
      * apply Kof_nodup.
      * intros v Hv. apply Kof_in in Hv. tauto.
      * intros v Hv. apply Nof_in in Hv. destruct Hv as (V1 & V2). split; auto. split; auto. rewrite A4. destruct (HA v V1); auto.
      * apply (Kof_hits _ (F ++ problem pc)); auto. intros a Ha. apply HF in Ha. apply R2. tauto.
    + intros v Hv. rewrite Nof_in. destruct (in_dec Nat.eq_dec v (Kof (r_model x))); auto.
  - injection E as <- <- <-. exists K, (F ++ problem pc). split; auto. split; auto. split; auto. split; auto. split; auto. split; [intros a Ha; apply HF in Ha; apply R2; tauto|].
    intros _. assert (U := unsat_core C problem_op _ _ _ _ _ _ A1 E2 Ex). rewrite A2 in U. rewrite A3. split; auto.
    intros v Hv HH. apply (hits_sat n) in HH; auto. apply (U (charf (remove Nat.eq_dec v K))).
    assert (HC2 : sat_clause (charf (remove Nat.eq_dec v K)) (map ngv K)).
    { exists (ngv v). split; [apply in_map; auto|]. apply holds_ngv. destruct (charf (remove Nat.eq_dec v K) v) eqn:E3; auto. apply charf_true in E3. apply in_remove in E3. tauto. }
    rewrite sat_app, HF. split; [split; auto|]. apply units_hold. intros l Hl. apply in_map_iff in Hl. destruct Hl as (w & <- & Hw). apply holds_ngv.
    destruct (charf (remove Nat.eq_dec v K) w) eqn:E3; auto. apply charf_true in E3. apply in_remove in E3. destruct (R6 w Hw) as (_ & _ & H). tauto.
  - injection E as <- <- <-. exists K, (F ++ problem pc). split; auto. split; auto. split; auto. split; auto. split; auto. split; [intros a Ha; apply HF in Ha; apply R2; tauto|].
    intros HT. exfalso. exact (solve_answer _ _ _ _ _ _ (HT k) E2 Ex).
Qed.

Lemma count_spec outs fuel : forall k lt K F s card, NoDup K -> (forall v, In v K -> v < n) -> hits K hs ->
  sreach C problem_op F s -> (forall a, sat a F -> sat a hs) ->
  count_down C O sf n fuel k outs lt (map ngv K) s = Ok card ->
  exists K', card = map ngv K' /\ NoDup K' /\ (forall v, In v K' -> v < n) /\ hits K' hs /\ (unsat (F ++ units (assumptions s)) -> K' = K).
Proof.
  induction fuel as [|fuel IH]; intros k lt K F s card H1 H2 H3 HR HF E; [discriminate|]. cbn [count_down] in E. rewrite map_length in E.
  assert (H0 : Forall (clause_ok (variables (mkCnf [] (variables lt)))) (problem (mkCnf [] (variables lt)))) by constructor.
  destruct (read_ok (lessThan outs (length K) []) _ H0) as (P1 & _ & P3 & P4). set (pc := readClauses (mkCnf [] (variables lt)) (lessThan outs (length K) [])) in *. cbv zeta in E.
  apply bind_ok in E. destruct E as (s1 & E1 & E). apply bind_ok in E. destruct E as ((x & s2) & E2 & E).
  destruct (load_reach C F s pc s1 HR P1 E1) as (L1 & L2 & L3).
  assert (A5 : sreach C problem_op (F ++ problem pc) s2) by (eapply sr_solve; [exact L1|exact I|exact E2]).
  assert (HF2 : forall a, sat a (F ++ problem pc) -> sat a hs) by (intros a Ha; apply sat_app in Ha; apply HF; tauto).
  destruct (r_status x) as [[|]|] eqn:Ex.
  - destruct (history_model C _ _ _ _ _ _ HI HC L1 E2 Ex) as (M1 & M2 & M3). rewrite trues_K in E.
    apply (IH _ _ _ (F ++ problem pc) s2) in E; auto.
    + destruct E as (K' & E3 & E4 & E5 & E6 & _). exists K'. split; auto. split; auto. split; auto. split; auto.
      intros U. exfalso. apply (U (read (r_model x))). rewrite L3 in M2.
      assert (HS : sat (read (r_model x)) (F ++ problem pc)).
      { intros d Hd. destruct (M1 d Hd) as (l & L4 & L5). exists l. split; auto. apply model_lit_read; auto. }
      apply sat_app in HS. apply sat_app. split; [tauto|]. apply units_hold. intros l Hl. apply model_lit_read. auto.
    + apply Kof_nodup.
    + intros v Hv. apply Kof_in in Hv. tauto.
    + apply (Kof_hits _ (F ++ problem pc)); auto.
  - injection E as <-. exists K. auto.
  - injection E as <-. exists K. auto.
Qed.

Lemma iter_spec fuel minimal k : iterativeMinimization C O sf n fuel hs minimal = Ok k ->
  exists K, k = map pos K /\ NoDup K /\ (forall v, In v K -> v < n) /\ hits K hs /\
    (noterm -> (forall v, In v K -> ~ hits (remove Nat.eq_dec v K) hs) /\ iterativeMinimization C O sf n fuel hs false = Ok k).
Proof.
  unfold iterativeMinimization. intros E. apply bind_ok in E. destruct E as (s0 & E0 & E). apply bind_ok in E. destruct E as (((card & k1) & s1) & E1 & E).
  rewrite E0. cbn [bind]. rewrite E1. cbn [bind].
  assert (H0 : Forall (clause_ok (variables cnf_empty)) (problem cnf_empty)) by constructor.
  destruct (read_ok hs cnf_empty H0) as (P1 & _ & P3 & P4). destruct (load_reach C [] _ _ _ (sr_new C problem_op) P1 E0) as (L1 & L2 & L3).
  change (map (fun v => mkLit v true) (seq 0 n)) with (map ngv (seq 0 n)) in E1. change (@nil lit) with (map ngv []) in E1.
  cbn [app] in L1.
  assert (HH : shr (problem (readClauses cnf_empty hs)) (seq 0 n) [] s0).
  { constructor; auto.
    - intros a Ha. apply P4 in Ha. tauto.
    - intros a Ha _. apply P4. split; auto. apply sat_nil.
    - apply seq_NoDup.
    - intros v Hv. apply in_seq in Hv. lia.
    - intros v [].
    - intros c Hc. destruct (HP c Hc) as (C1 & C2). destruct c as [|l c]; [congruence|]. destruct (C2 l (or_introl eq_refl)) as (v & -> & Hv).
      exists v. split; [apply in_seq; lia|left; auto]. }
  destruct (shrink_spec fuel 0 (seq 0 n) [] _ s0 card k1 s1 HH) as (K & F & -> & K1 & K2 & K3 & K4 & K5 & K6).
  { intros v Hv. left. apply in_seq. lia. }
  { exact E1. }
  apply bind_ok in E. destruct E as (card' & E2 & E3). injection E3 as <-.
  assert (HK : forall L, map lneg (map ngv L) = map pos L) by (intros L; rewrite map_map; apply map_ext; intros v; apply ngv_neg).
  destruct minimal.
  - destruct (genParCounter n (map (fun v => mkLit v false) (seq 0 n)) cnf_empty) as (outs & counter) eqn:Eg.
    assert (Hc := counter_ok n (map (fun v => mkLit v false) (seq 0 n)) cnf_empty H0). rewrite Eg in Hc. cbn [snd] in Hc.
    apply bind_ok in E2. destruct E2 as (s2 & E4 & E5). destruct (load_reach C F s1 counter s2 K4 Hc E4) as (J1 & J2 & J3).
    destruct (count_spec outs fuel k1 cnf_empty K (F ++ problem counter) s2 card' K1 K2 K3 J1) as (K' & -> & Z1 & Z2 & Z3 & Z4); auto.
    { intros a Ha. apply K5. apply sat_app in Ha. tauto. }
    exists K'. rewrite HK. split; auto. split; auto. split; auto. split; auto. intros HT. destruct (K6 HT) as (U & M).
    assert (E6 : K' = K). { apply Z4. rewrite J3. intros a Ha. apply (U a). rewrite !sat_app in *. tauto. }
    subst K'. rewrite HK. split; auto.
  - injection E2 as <-. exists K. rewrite HK. split; auto. split; auto. split; auto. split; auto. intros HT. split; auto. apply (K6 HT).
Qed.
End Iter.

(** ** purify *)
Definition pure (m : model) (c : clause) : clause := map (fun l => pos (lvar l)) (filter (satisfies m) c).
Lemma total_len n m v : model_total n m -> v < n -> v < length m.
Proof. intros H Hv. destruct (Nat.lt_ge_cases v (length m)) as [|H2]; auto. exfalso. apply (H v Hv). apply nth_overflow. auto. Qed.
Lemma mk_eq l b : (mkLit (lvar l) b =? l) = eqb b (lsign l).
Proof.
  apply eq_true_iff_eq. rewrite Nat.eqb_eq, eqb_true_iff. split; [intros <-; rewrite lsign_mk; auto|intros ->; symmetry; apply lit_eta].
Qed.
Lemma purify_clause_ok m c : (forall l, In l c -> lvar l < length m) -> purify_clause m c = Ok (pure m c).
Proof.
  induction c as [|l c IH]; intros H; [reflexivity|]. cbn [purify_clause]. rewrite IH by (intros x Hx; apply H; right; auto). cbn [bind].
  specialize (H l (or_introl eq_refl)). unfold pure. cbn [filter].
  destruct (nth_error m (lvar l)) as [o|] eqn:E; [|apply nth_error_None in E; lia].
  assert (HS : satisfies m l = match CNFModel.value m (lvar l) with Some (Some l') => l' =? l | _ => false end).
  { apply eq_true_iff_eq. rewrite satisfies_assigns. unfold assigns, CNFModel.value. rewrite E. 
    destruct o as [[|]|]; rewrite ?mk_eq; destruct (lsign l); cbn; split; congruence. }
  rewrite HS. unfold CNFModel.value. rewrite E. destruct o as [[|]|]; [destruct (_ =? l); reflexivity|destruct (_ =? l); reflexivity|reflexivity].
Qed.
Lemma purify_ok m cs : (forall c l, In c cs -> In l c -> lvar l < length m) -> purify m cs = Ok (map (pure m) cs).
Proof.
  induction cs as [|c cs IH]; intros H; [reflexivity|]. cbn [purify]. rewrite purify_clause_ok by (intros l Hl; apply (H c); auto; left; auto). cbn [bind].
  rewrite IH by (intros d l Hd; apply H; right; auto). reflexivity.
Qed.
Lemma model_lit_assigns m l : model_lit m l <-> assigns m l.
Proof.
  unfold model_lit, assigns. destruct (nth_error m (lvar l)) as [o|] eqn:E; [rewrite (nth_error_nth _ _ None E); split; congruence|].
  apply nth_error_None in E. rewrite nth_overflow by auto. split; congruence.
Qed.
Lemma pure_pos n m cs : (forall c l, In c cs -> In l c -> lvar l < n) -> model_sat m cs -> pos_formula n (map (pure m) cs).
Proof.
  intros H HM c Hc. apply in_map_iff in Hc. destruct Hc as (d & <- & Hd). split.
  - destruct (HM d Hd) as (l & L1 & L2). intros E. assert (Hx : In (pos (lvar l)) (pure m d)); [|rewrite E in Hx; destruct Hx].
    unfold pure. apply in_map_iff. exists l. split; auto. apply filter_In. split; auto. apply satisfies_assigns, model_lit_assigns; auto.
  - intros l Hl. unfold pure in Hl. apply in_map_iff in Hl. destruct Hl as (x & <- & Hx). apply filter_In in Hx. exists (lvar x). split; auto. apply (H d); tauto.
Qed.

(** ** Back to the original polarity *)
Definition pol (m : model) (l : lit) : lit := if satisfies m l then l else lneg l.
Lemma pol_var m l : lvar (pol m l) = lvar l.
Proof. unfold pol. destruct (satisfies m l); auto. apply lvar_neg. Qed.
Lemma pol_spec n m v l : model_total n m -> v < n -> lvar l = v -> pol m (pos v) = l <-> model_lit m l.
Proof.
  intros HT Hv E. specialize (HT v Hv). unfold pol.
  assert (HS : satisfies m (pos v) = true <-> nth v m None = Some true).
  { rewrite satisfies_assigns, <- model_lit_assigns. unfold model_lit, pos. rewrite lvar_mk, lsign_mk. reflexivity. }
  unfold model_lit. assert (EL : mkLit v (lsign l) = l) by (rewrite <- E; symmetry; apply lit_eta). rewrite E, <- EL, lsign_mk. destruct (satisfies m (pos v)) eqn:E1.
  - rewrite (proj1 HS eq_refl). unfold pos. split; [intros X; apply mkLit_inj in X; destruct X as (_ & <-); reflexivity|]. destruct (lsign l); [discriminate|reflexivity].
  - unfold pos. rewrite lneg_mk. destruct (nth v m None) as [[|]|]; [|cbn [negb]|congruence].
    + assert (false = true) by (apply HS; reflexivity). discriminate.
    + split; [intros X; apply mkLit_inj in X; destruct X as (_ & <-); reflexivity|]. destruct (lsign l); [reflexivity|discriminate].
Qed.
Lemma fold_map {A B D} (f : D -> B -> D) (g : A -> B) l : forall d, fold_left (fun d x => f d (g x)) l d = fold_left f (map g l) d.
Proof. induction l as [|x l IH]; intros d; cbn; auto. Qed.
Lemma kept_in m ks l : NoDup (map lvar ks) ->
  In l (getModelLiterals (fold_left (fun r l => setModelValue r (if satisfies m l then l else lneg l)) ks [])) <-> In l (map (pol m) ks).
Proof.
  intros HN. rewrite getModelLiterals_in. change (fun r l0 => setModelValue r (if satisfies m l0 then l0 else lneg l0)) with (fun r l0 => setModelValue r (pol m l0)).
  rewrite (fold_map setModelValue (pol m)). change (fold_left setModelValue (map (pol m) ks) []) with (setModel [] (map (pol m) ks)). rewrite setModel_assigns.
  assert (HN2 : NoDup (map lvar (map (pol m) ks))) by (rewrite map_map; erewrite map_ext; [exact HN|intros x; apply pol_var]).
  split.
  - intros [(pre & post & E & _)|(_ & H)]; [rewrite E; apply in_or_app; right; left; auto|]. unfold assigns in H. destruct (lvar l); discriminate.
  - intros H. left. apply in_split in H. destruct H as (pre & post & E). exists pre, post. split; auto. intros x Hx Hv. exfalso.
    rewrite E, map_app in HN2. cbn in HN2. apply NoDup_remove_2 in HN2. apply HN2. apply in_or_app. right. rewrite <- Hv. apply in_map. auto.
Qed.

(** ** Implicants and primes *)
Lemma hits_implicant n m cs K : model_total n m -> (forall v, In v K -> v < n) -> hits K (map (pure m) cs) ->
  implicant (map (pol m) (map pos K)) cs.
Proof.
  intros HT HK HH a Ha c Hc. destruct (HH _ (in_map (pure m) _ _ Hc)) as (v & V1 & V2). unfold pure in V2. apply in_map_iff in V2.
  destruct V2 as (l & E & Hl). apply filter_In in Hl. destruct Hl as (L1 & L2). exists l. split; auto. apply Ha.
  unfold pos in E. apply mkLit_inj in E. destruct E as (E & _).
  assert (EP : pol m (pos v) = l) by (apply (pol_spec n); auto; apply model_lit_assigns, satisfies_assigns; auto).
  rewrite <- EP. apply in_map, in_map. auto.
Qed.
Definition hitb (K : list var) (c : clause) : bool := existsb (fun v => existsb (Nat.eqb (pos v)) c) K.
Lemma hitb_spec K c : hitb K c = true <-> exists v, In v K /\ In (pos v) c.
Proof.
  unfold hitb. rewrite existsb_exists. split; intros (v & H1 & H2); exists v; split; auto.
  - apply existsb_exists in H2. destruct H2 as (x & X1 & X2). apply Nat.eqb_eq in X2. subst. auto.
  - apply existsb_exists. exists (pos v). split; auto. apply Nat.eqb_refl.
Qed.
Lemma not_hits K hs : ~ hits K hs -> exists c, In c hs /\ forall v, In v K -> ~ In (pos v) c.
Proof.
  intros H. destruct (forallb (hitb K) hs) eqn:E.
  - exfalso. apply H. intros c Hc. rewrite forallb_forall in E. apply hitb_spec. auto.
  - assert (X : existsb (fun c => negb (hitb K c)) hs = true).
    { clear H. induction hs as [|c hs IH]; [discriminate|]. cbn in *. destruct (hitb K c); cbn in *; auto. }
    apply existsb_exists in X. destruct X as (c & X1 & X2). exists c. split; auto. intros v Hv Hc. apply negb_true_iff in X2.
    assert (hitb K c = true) by (apply hitb_spec; exists v; auto). congruence.
Qed.
Lemma miss_falsify n m cs K : model_total n m -> wf_problem n cs -> (forall v, In v K -> v < n) -> ~ hits K (map (pure m) cs) ->
  exists a, agrees a (map (pol m) (map pos K)) /\ ~ sat a cs.
Proof.
  intros HT HW HK HN. apply not_hits in HN. destruct HN as (c' & Hc & HN). apply in_map_iff in Hc. destruct Hc as (c & <- & Hc).
  destruct (HW c Hc) as (W1 & W2 & W3).
  exists (fun w => if in_dec Nat.eq_dec w K then read m w else if in_dec Nat.eq_dec (pos w) c then false else true). split.
  - intros l Hl. rewrite map_map in Hl. apply in_map_iff in Hl. destruct Hl as (v & <- & Hv).
    assert (HM : model_lit m (pol m (pos v))) by (apply (pol_spec n m v); auto; rewrite pol_var; unfold pos; apply lvar_mk).
    unfold lit_holds, lit_val. assert (E : lvar (pol m (pos v)) = v) by (rewrite pol_var; apply lvar_mk). rewrite E.
    destruct (in_dec Nat.eq_dec v K); [|contradiction]. unfold model_lit in HM. rewrite E in HM. unfold read. rewrite HM. destruct (lsign (pol m (pos v))); reflexivity.
  - intros HS. destruct (HS c Hc) as (l & L1 & L2). unfold lit_holds, lit_val in L2. destruct (in_dec Nat.eq_dec (lvar l) K) as [HK1|HK1].
    + apply (HN _ HK1). unfold pure. apply in_map_iff. exists l. split; auto. apply filter_In. split; auto. apply satisfies_assigns, model_lit_assigns.
      specialize (HT (lvar l) (HK _ HK1)). unfold model_lit, read in *. destruct (nth (lvar l) m None) as [b|]; [|congruence]. destruct b, (lsign l); try discriminate; reflexivity.
    + destruct (in_dec Nat.eq_dec (pos (lvar l)) c) as [HP|HP].
      * destruct (lsign l) eqn:Es; [|discriminate]. apply W2. exists (pos (lvar l)). split; auto.
        assert (El : lneg (pos (lvar l)) = l) by (unfold pos; rewrite lneg_mk; rewrite (lit_eta l) at 2; rewrite Es; reflexivity). rewrite El. auto.
      * destruct (lsign l) eqn:Es; [discriminate|]. apply HP. unfold pos. rewrite <- Es. rewrite <- lit_eta. auto.
Qed.
