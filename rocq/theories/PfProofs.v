(** Proofs about the start of the portfolio. *)
Require Import List Arith Bool NArith QArith_base Lia.
Require Import Verif.Base Verif.Outcome Verif.SolverModel Verif.SolverSpec Verif.PortModel Verif.PortProofs Verif.PfModel Verif.PfSpec.
Require Import Verif.PropSpec Verif.SolverLemmas Verif.IpasirProofs Verif.SolverProps.
Import ListNotations.
Open Scope nat_scope.

Definition final (r : list (opt * (store -> oval))) (g : store) : store := fold_left (fun g x => put (fst x) (snd x g) g) r g.

Section Start.
Variables (g0 : store) (threads : nat).
Definition prev (k : nat) : store := match k with 0 => g0 | S j => portfolio g0 j end.

Lemma tri_step k I : ((N.of_nat (S k) + (I + N.of_nat (k * (k + 1) / 2)) mod 2 ^ 32) mod 2 ^ 32 = (I + N.of_nat (S k * (S k + 1) / 2)) mod 2 ^ 32)%N.
Proof.
  assert (E : S k * (S k + 1) / 2 = S k + k * (k + 1) / 2).
  { replace (S k * (S k + 1)) with (S k * 2 + k * (k + 1)) by lia. rewrite Nat.div_add_l by lia. reflexivity. }
  rewrite E, Nat2N.inj_add. rewrite N.add_mod_idemp_r by discriminate. f_equal. lia.
Qed.
Lemma inproc_ok k I : as_n (prev k OInproc) = I ->
  VN ((N.of_nat k + I) mod 4294967296) = portfolio g0 k OInproc.
Proof.
  intros E. cbn [portfolio]. f_equal. destruct k as [|j].
  - cbn [prev] in E. subst I. change (0 * (0 + 1) / 2) with 0. change (N.of_nat 0) with 0%N. rewrite N.add_0_r. reflexivity.
  - cbn [prev portfolio as_n] in E. subst I. apply tri_step.
Qed.

Lemma even_mod k : (k mod 2 =? 0) = Nat.even k.
Proof.
  destruct (Nat.even k) eqn:E.
  - apply Nat.even_spec in E. destruct E as (m & ->). rewrite Nat.mul_comm, Nat.mod_mul by lia. reflexivity.
  - apply Nat.eqb_neq. intros H. apply Nat.mod_divides in H; [|lia]. destruct H as (m & ->). rewrite Nat.even_mul in E. discriminate.
Qed.

Lemma final_app r1 r2 g : final (r1 ++ r2) g = final r2 (final r1 g).
Proof. apply fold_left_app. Qed.

Lemma assigned k g : (forall o, o <> OSort -> o <> OPre -> g o = prev k o) -> forall o, final (assignments k) g o = portfolio g0 k o.
Proof.
  intros H o.
  assert (HI : as_n (g OInproc) = as_n (prev k OInproc)) by (rewrite H by discriminate; reflexivity).
  unfold assignments. rewrite final_app. set (h := final _ g).
  assert (Hh : forall o, h o = match o with
      | ORecalc => VB false | OSort => VB (Nat.even k) | OPre => VB (k =? 0) | OInproc => portfolio g0 k OInproc
      | OElim => VB (negb (as_b (g OStaticDb)))
      | OAsymm => VB ((k =? 6) || (k =? 7) || (k =? 14) || (k =? 15)) | x => prev k x end).
  { intros x. subst h. unfold final. cbn [fold_left fst snd]. unfold put at 1, const.
    destruct x; cbn -[N.modulo N.add N.of_nat portfolio Nat.modulo Nat.eqb orb]; try (rewrite even_mod; reflexivity); try reflexivity;
      try (rewrite <- (H _) by discriminate; reflexivity).
    change (VN ((N.of_nat k + as_n (g OInproc)) mod 4294967296) = portfolio g0 k OInproc). apply inproc_ok. symmetry. exact HI. }
  clearbody h. assert (HS : g OStaticDb = g0 OStaticDb).
  { rewrite H by discriminate. destruct k; reflexivity. }
  destruct o; try (
    do 16 (destruct k as [|k]; [unfold final; cbn [branching fold_left fst snd]; unfold put, const; cbn -[N.modulo N.add]; rewrite ?Hh, ?HS; cbn -[N.modulo N.add]; reflexivity|]);
    cbn [branching]; unfold final; cbn [fold_left]; rewrite Hh, ?HS; cbn -[N.modulo N.add Nat.div Nat.mul]; reflexivity).
Qed.

(** [g] may differ from the configuration after gates were analysed *)
Definition nearly (k : nat) (g : store) : Prop := forall o, o <> OSort -> o <> OPre -> g o = portfolio g0 k o.
Definition touched (k : nat) (g : store) : Prop :=
  nearly k g /\ (forall o, g o <> portfolio g0 k o -> g o = VB false /\ semantic (g0 OMethod) = true).
Definition entry (e : event) : Prop :=
  e_tid e < threads /\ (e_val e = portfolio g0 (e_tid e) (e_opt e) \/
   (e_gate e = true /\ (e_opt e = OSort \/ e_opt e = OPre) /\ portfolio g0 (e_tid e) ORsil = VB true /\ semantic (g0 OMethod) = true /\ e_val e = VB false)).
Definition finished (k : nat) (p : pf) : Prop :=
  f_solvers p = k /\ (forall u, u < k -> f_thr p u = TReady) /\ (forall u, k <= u -> f_thr p u = TNone).
Definition inv (p : pf) : Prop :=
  (forall e, In e (f_log p) -> entry e) /\
  match f_main p with
  | MTest k => k <= threads /\ finished k p /\ forall o, o <> OSort -> o <> OPre -> f_g p o = prev k o
  | MSet k r => k < threads /\ finished k p /\ forall o, final r (f_g p) o = portfolio g0 k o
  | MWait k => k < threads /\ (forall u, u < k -> f_thr p u = TReady) /\ (forall u, k < u -> f_thr p u = TNone) /\
      ((f_thr p k = TMake /\ f_solvers p = k /\ forall o, f_g p o = portfolio g0 k o) \/
       (f_thr p k = TGate /\ f_solvers p = k /\ portfolio g0 k ORsil = VB true /\ touched k (f_g p)) \/
       (f_thr p k = TReady /\ f_solvers p = S k /\ nearly k (f_g p)))
  | MStarted => forall u, f_thr p u = TReady \/ f_thr p u = TNone
  end.

Lemma finished_idle k p u : finished k p -> f_thr p u = TReady \/ f_thr p u = TNone.
Proof. intros (_ & A & B). destruct (Nat.lt_ge_cases u k); auto. Qed.
Lemma idle_inv p u : inv p -> f_thr p u = TMake \/ f_thr p u = TGate -> f_main p = MWait u.
Proof.
  intros (_ & H) T. assert (N : ~ (f_thr p u = TReady \/ f_thr p u = TNone)) by (destruct T as [T|T]; rewrite T; intros [X|X]; discriminate).
  destruct (f_main p) as [k|k r|k|].
  - destruct H as (_ & H & _). destruct (N (finished_idle k p u H)).
  - destruct H as (_ & H & _). destruct (N (finished_idle k p u H)).
  - destruct H as (_ & A & B & _). destruct (Nat.lt_trichotomy u k) as [L|[->|L]]; auto; destruct N; auto.
  - destruct (N (H u)).
Qed.

Lemma at_thr_same t c f : at_thr t c f t = c.
Proof. unfold at_thr. rewrite Nat.eqb_refl. reflexivity. Qed.
Lemma at_thr_other t c f u : u <> t -> at_thr t c f u = f u.
Proof. intros H. unfold at_thr. apply Nat.eqb_neq in H. rewrite H. reflexivity. Qed.

Lemma inv_init : inv (pf_init g0).
Proof.
  split; [intros e []|]. cbn. split; [lia|]. split; [|auto]. split; [reflexivity|]. split; [intros u H; lia|auto].
Qed.

Lemma inv_next s p q : inv p -> fnext threads s p = Some q -> inv q.
Proof.
  intros HI. destruct s as [|t o|t|t o|t|]; cbn [fnext]; intros E.
  - destruct HI as (HL & HM). destruct (f_main p) as [k|k [|[o e] r]|k|] eqn:Em; [| | | |discriminate]; injection E as <-.
    + destruct HM as (Hk & Hf & Hg). split; [exact HL|]. cbn [f_main f_g f_thr f_solvers f_result f_log].
      destruct (Nat.ltb_spec k threads) as [L|L]; cbn [andb]; [destruct (f_result p); cbn [negb]|].
      * intros u. apply (finished_idle k p u Hf).
      * split; [exact L|]. split; [exact Hf|]. intros o. apply assigned. exact Hg.
      * intros u. apply (finished_idle k p u Hf).
    + destruct HM as (Hk & (H1 & H2 & H3) & Hg). split; [exact HL|]. cbn [f_main f_g f_thr f_solvers f_result f_log]. split; [exact Hk|].
      split; [intros u Hu; rewrite at_thr_other by lia; auto|]. split; [intros u Hu; rewrite at_thr_other by lia; apply H3; lia|].
      left. rewrite at_thr_same. split; [reflexivity|]. split; [exact H1|]. exact Hg.
    + destruct HM as (Hk & Hf & Hg). split; [exact HL|]. cbn [f_main f_g f_thr f_solvers f_result f_log]. split; [exact Hk|]. split; [exact Hf|]. exact Hg.
    + destruct HM as (Hk & H1 & H2 & H3). split; [exact HL|]. cbn [f_main f_g f_thr f_solvers f_result f_log].
      destruct (Nat.leb_spec (f_solvers p) k) as [L|L]; [split; [exact Hk|]; split; [exact H1|]; split; [exact H2|exact H3]|].
      destruct H3 as [(_ & X & _)|[(_ & X & _)|(T & X & Y)]]; [lia|lia|].
      split; [lia|]. split; [|exact Y]. split; [exact X|]. split.
      * intros u Hu. destruct (Nat.eq_dec u k) as [->|N]; [exact T|apply H1; cbn; lia].
      * intros u Hu. apply H2. cbn; lia.
  - destruct (f_thr p t) eqn:Et; try discriminate; injection E as <-.
    + assert (Em := idle_inv p t HI (or_introl Et)). destruct HI as (HL & HM). rewrite Em in HM. destruct HM as (Hk & H1 & H2 & H3).
      split; [|cbn [f_main f_g f_thr f_solvers f_result f_log]; rewrite Em; auto].
      intros e He. apply in_app_or in He. destruct He as [He|[<-|[]]]; [auto|]. split; [exact Hk|]. left. cbn.
      destruct H3 as [(_ & _ & Y)|[(X & _)|(X & _)]]; [apply Y|congruence|congruence].
    + assert (Em := idle_inv p t HI (or_intror Et)). destruct HI as (HL & HM). rewrite Em in HM. destruct HM as (Hk & H1 & H2 & H3).
      split; [|cbn [f_main f_g f_thr f_solvers f_result f_log]; rewrite Em; auto].
      intros e He. apply in_app_or in He. destruct He as [He|[<-|[]]]; [auto|]. split; [exact Hk|]. cbn.
      destruct H3 as [(X & _)|[(_ & _ & R & Y & Z)|(X & _)]]; [congruence| |congruence].
      destruct (opt_eq_dec o OSort) as [->|N1]; [|destruct (opt_eq_dec o OPre) as [->|N2]; [|left; apply Y; auto]].
      * destruct (f_g p OSort) as [[|]| |] eqn:Eg; cbn in Z |- *.
        -- left. specialize (Z OSort). cbn in Z. rewrite Eg in Z. destruct (Nat.even t); [reflexivity|]. destruct Z as (Z & _); [discriminate|discriminate].
        -- specialize (Z OSort). cbn in Z. rewrite Eg in Z. destruct (Nat.even t) eqn:Ev; [|left; reflexivity]. right. destruct Z as (_ & Z); [discriminate|]. auto 10.
        -- specialize (Z OSort). cbn in Z. rewrite Eg in Z. destruct Z as (Z & _); discriminate.
        -- specialize (Z OSort). cbn in Z. rewrite Eg in Z. destruct Z as (Z & _); discriminate.
      * destruct (f_g p OPre) as [[|]| |] eqn:Eg; cbn in Z |- *.
        -- left. specialize (Z OPre). cbn in Z. rewrite Eg in Z. destruct (t =? 0); [reflexivity|]. destruct Z as (Z & _); [discriminate|discriminate].
        -- specialize (Z OPre). cbn in Z. rewrite Eg in Z. destruct (t =? 0) eqn:Ev; [|left; reflexivity]. right. destruct Z as (_ & Z); [discriminate|]. auto 10.
        -- specialize (Z OPre). cbn in Z. rewrite Eg in Z. destruct Z as (Z & _); discriminate.
        -- specialize (Z OPre). cbn in Z. rewrite Eg in Z. destruct Z as (Z & _); discriminate.
  - destruct (f_thr p t) eqn:Et; try discriminate. destruct (as_b (f_g p ORsil)) eqn:Er; [|discriminate]. injection E as <-.
    assert (Em := idle_inv p t HI (or_introl Et)). destruct HI as (HL & HM). rewrite Em in HM. destruct HM as (Hk & H1 & H2 & H3).
    split; [exact HL|]. cbn [f_main f_g f_thr f_solvers f_result f_log]. rewrite Em. split; [exact Hk|].
    split; [intros u Hu; rewrite at_thr_other by lia; auto|]. split; [intros u Hu; rewrite at_thr_other by lia; auto|].
    right. left. rewrite at_thr_same. destruct H3 as [(_ & X & Y)|[(X & _)|(X & _)]]; [|congruence|congruence].
    split; [reflexivity|]. split; [exact X|]. split.
    + rewrite Y in Er. cbn [portfolio as_b] in Er |- *. rewrite Er. reflexivity.
    + split; [intros o _ _; apply Y|]. intros o N. destruct (N (Y o)).
  - destruct (f_thr p t) eqn:Et; try discriminate.
    assert (Em := idle_inv p t HI (or_intror Et)). destruct HI as (HL & HM). rewrite Em in HM. destruct HM as (Hk & H1 & H2 & H3).
    destruct H3 as [(X & _)|[(_ & X & R & Y & Z)|(X & _)]]; [congruence| |congruence].
    assert (Mt : f_g p OMethod = g0 OMethod) by (rewrite Y by discriminate; reflexivity).
    assert (G : (o = OSort \/ o = OPre) /\ semantic (g0 OMethod) = true /\ q = mkPf (put o (VB false) (f_g p)) (f_main p) (f_thr p) (f_solvers p) (f_result p) (f_log p)).
    { rewrite <- Mt. destruct o; try discriminate; destruct (semantic (f_g p OMethod)); try discriminate; injection E as <-; auto. }
    destruct G as (Ho & Hs & ->). split; [exact HL|]. cbn [f_main f_g f_thr f_solvers f_result f_log]. rewrite Em. split; [exact Hk|]. split; [exact H1|]. split; [exact H2|].
    right. left. split; [exact Et|]. split; [exact X|]. split; [exact R|]. split.
    + intros x N1 N2. unfold put. destruct (opt_eq_dec x o) as [->|_]; [destruct Ho; congruence|apply Y; auto].
    + intros x. unfold put. destruct (opt_eq_dec x o) as [->|_]; [auto|apply Z].
  - assert (T : (f_thr p t = TMake \/ f_thr p t = TGate) /\ q = mkPf (f_g p) (f_main p) (at_thr t TReady (f_thr p)) (S (f_solvers p)) (f_result p) (f_log p)).
    { destruct (f_thr p t); try discriminate; injection E as <-; auto. }
    destruct T as (T & ->). assert (Em := idle_inv p t HI T). destruct HI as (HL & HM). rewrite Em in HM. destruct HM as (Hk & H1 & H2 & H3).
    split; [exact HL|]. cbn [f_main f_g f_thr f_solvers f_result f_log]. rewrite Em. split; [exact Hk|].
    split; [intros u Hu; rewrite at_thr_other by lia; auto|]. split; [intros u Hu; rewrite at_thr_other by lia; auto|].
    right. right. rewrite at_thr_same. split; [reflexivity|].
    destruct H3 as [(_ & X & Y)|[(_ & X & _ & Y & _)|(X & _)]]; [| |destruct T; congruence].
    + split; [lia|]. intros o _ _. apply Y.
    + split; [lia|]. exact Y.
  - destruct (0 <? f_solvers p); [|discriminate]. injection E as <-. exact HI.
Qed.

Lemma inv_run sch : forall p q, inv p -> frun threads sch p = Some q -> inv q.
Proof.
  induction sch as [|s r IH]; intros p q H E; cbn [frun] in E; [injection E as <-; exact H|].
  destruct (fnext threads s p) as [p1|] eqn:E1; [|discriminate]. exact (IH p1 q (inv_next s p p1 H E1) E).
Qed.

Lemma reads sch p e : frun threads sch (pf_init g0) = Some p -> In e (f_log p) -> entry e.
Proof. intros E H. destruct (inv_run sch _ _ inv_init E) as (HL & _). exact (HL e H). Qed.

Lemma one_at_a_time sch p t u : frun threads sch (pf_init g0) = Some p -> f_thr p t = TMake \/ f_thr p t = TGate -> f_thr p u = TMake \/ f_thr p u = TGate -> t = u.
Proof. intros E Ht Hu. assert (HI := inv_run sch _ _ inv_init E). assert (A := idle_inv p t HI Ht). assert (B := idle_inv p u HI Hu). congruence. Qed.

Lemma configured sch p t rd : frun threads sch (pf_init g0) = Some p -> (forall o, In o cfg_opts -> In (mkE t false o (rd o)) (f_log p)) ->
  cfg_of rd = cfg_of (portfolio g0 t).
Proof.
  intros E H. assert (A : forall o, In o cfg_opts -> rd o = portfolio g0 t o).
  { intros o Ho. destruct (reads sch p _ E (H o Ho)) as (_ & [X|(X & _)]); [exact X|discriminate]. }
  unfold cfg_of. rewrite !A; [reflexivity|..]; cbn; tauto.
Qed.

(** ** The verdict *)
Lemma loading C n F s : Forall (clause_ok n) F -> solver_init n F true (solver_new C) = Ok s -> sreach C loading_op F s /\ assumptions s = [].
Proof.
  intros H E. assert (HR : sreach C loading_op [] (solver_new C)) by apply sr_new. assert (HB := reach_BI _ _ _ _ HR).
  assert (HF : Forall (clause_ok (max n (nvars (solver_new C)))) F) by (change (nvars (solver_new C)) with 0; rewrite Nat.max_0_r; exact H).
  split; [exact (sr_init C loading_op [] _ _ _ true s HR eq_refl HF E)|]. exact (init_assum [] _ _ true _ _ HB HF E).
Qed.
Lemma sreach_mono C (ok ok' : sop -> Prop) F s : (forall o, ok o -> ok' o) -> sreach C ok F s -> sreach C ok' F s.
Proof. intros H R. induction R; econstructor; eauto. Qed.

Lemma answered_unsat p F t a : answers p F t a -> a_status a = Some false -> unsat F.
Proof.
  intros [N|(rd & n & s & O & fuel & x & s' & _ & HF & HI & Q & ->)] St; [congruence|]. cbn in St. destruct (loading _ _ _ _ HF HI) as (S & As).
  assert (U := C21_unsat_correct (cfg_of rd) F s O fuel x s' (sreach_mono _ _ any_op _ _ (fun _ _ => I) S) Q St). rewrite As in U. cbn in U. rewrite app_nil_r in U. exact U.
Qed.
Lemma unsat_verdict p F ans psch r : (forall t, answers p F t (ans t)) ->
  run ans psch port_init = Some r -> p_verdict r = Some (Some false) -> unsat F.
Proof.
  intros HA R V. destruct (verdict_answered ans psch r false R V) as (t & Ht). exact (answered_unsat p F t _ (HA t) Ht).
Qed.
Lemma answered_sat sch p F t a : frun threads sch (pf_init g0) = Some p -> as_n (portfolio g0 t OInproc) = 0%N -> answers p F t a -> a_status a = Some true -> model_sat (a_model a) F.
Proof.
  intros E Z [N|(rd & n & s & O & fuel & x & s' & L & HF & HI & Q & ->)] St; [congruence|]. cbn in St |- *. destruct (loading _ _ _ _ HF HI) as (S & As).
  assert (Ec := configured sch p t rd E L). assert (c_inproc (cfg_of rd) = 0%N) by (rewrite Ec; exact Z).
  apply (C20_model_first_partial _ F s O fuel x s' H S Q St).
Qed.
Lemma first_answer sch p F a : frun threads sch (pf_init g0) = Some p -> g0 OInproc = VN 0 -> answers p F 0 a -> a_status a = Some true -> model_sat (a_model a) F.
Proof. intros E Z. apply (answered_sat sch p F 0 a E). cbn. rewrite Z. reflexivity. Qed.
(** a printed model is that of a thread that found one, if no thread was interrupted and the formula is satisfiable *)
Lemma printed_model ans psch r t : run ans psch port_init = Some r -> p_int r = false -> p_model r = Some t -> a_status (ans t) <> None.
Proof.
  intros E Hi Hm. destruct (PI_run ans psch _ _ (PI_init ans) E) as [A B D C G K]. assert (T := G t (or_introl Hm)).
  intros Es. assert (p_int r = true); [|congruence]. apply (D t); auto. rewrite T. discriminate.
Qed.
Lemma first_model_printed sch p F ans psch r : frun threads sch (pf_init g0) = Some p -> (forall t, answers p F t (ans t)) -> g0 OInproc = VN 0 ->
  run ans psch port_init = Some r -> p_int r = false -> p_model r = Some 0 -> satisfiable F -> model_sat (a_model (ans 0)) F.
Proof.
  intros E HA Z R Hi Hm HS. apply (first_answer sch p F _ E Z (HA 0)). assert (N := printed_model ans psch r 0 R Hi Hm).
  destruct (a_status (ans 0)) as [[|]|] eqn:Es; [reflexivity| |destruct (N eq_refl)].
  destruct HS as (m & Hm'). destruct (answered_unsat p F 0 _ (HA 0) Es m Hm').
Qed.
End Start.
