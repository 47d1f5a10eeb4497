(** More proofs about the whole program. *)
Require Import List Arith ZArith NArith Lia String Ascii Bool.
Require Import Verif.Base Verif.Outcome Verif.OptModel Verif.OptSpec Verif.OptProofs Verif.CNFModel Verif.CNFSpec Verif.CNFProofs Verif.DimacsModel Verif.DimacsSpec Verif.DimacsProofs
  Verif.DimacsMore Verif.DbModel Verif.SolverModel Verif.PropSpec Verif.SolverSpec Verif.SolverBase Verif.SolverProofs Verif.SolverLemmas Verif.SolverElim Verif.IpasirProofs
  Verif.DRATModel Verif.DratFileModel Verif.DratFileProofs Verif.DratTextModel Verif.DratTextSolver Verif.MainModel Verif.MainSpec Verif.MainOpt Verif.MainProofs.
Import ListNotations.
Open Scope list_scope.

Lemma clause_nz ml t zs : clause_text ml t zs -> forall z, In z zs -> z <> 0%Z /\ (Z.abs z <= 2 ^ 30)%Z.
Proof. induction 1 as [n H|z n w t zs H1 H2 H3 H4 H5 H6 IH]; intros y Hy; [destruct Hy|]. destruct Hy as [<-|Hy]; auto. Qed.
Lemma dimacs_nz ml t cs : dimacs ml t cs -> forall c z, In c cs -> In z c -> z <> 0%Z /\ (Z.abs z <= 2 ^ 30)%Z.
Proof.
  induction 1 as [|c t cs H1 H2 IH|body e t cs H1 H2 H3 IH|w1 z1 n1 w2 z2 n2 c t cs H1 H2 H3 H4 H5 H6 H7 H8 H9 IH|ct zs c t cs H1 H2 H3 IH]; auto; intros d z Hd Hz; [destruct Hd|].
  destruct Hd as [<-|Hd]; [apply (clause_nz _ _ _ H1 z Hz)|eauto].
Qed.
Lemma zlit_var z : z <> 0%Z -> Z.of_nat (lvar (zlit z)) = (Z.abs z - 1)%Z.
Proof. intros H. unfold zlit. rewrite lvar_mk. lia. Qed.
Lemma zlit_neg z : z <> 0%Z -> zlit (- z) = lneg (zlit z).
Proof. intros H. unfold zlit. rewrite lneg_mk, Z.abs_opp. f_equal. destruct (Z.ltb_spec (- z) 0), (Z.ltb_spec z 0); reflexivity || lia. Qed.
Lemma zlit_inj z y : z <> 0%Z -> y <> 0%Z -> zlit z = zlit y -> z = y.
Proof.
  intros H1 H2 E. assert (V := zlit_var z H1). rewrite E, zlit_var in V by exact H2. unfold zlit in E. apply mkLit_inj in E. destruct E as (_ & E).
  destruct (Z.ltb_spec z 0), (Z.ltb_spec y 0); try discriminate; lia.
Qed.
Definition nonzero (cs : list (list Z)) : Prop := forall c z, In c cs -> In z c -> z <> 0%Z /\ (Z.abs z <= 2 ^ 30)%Z.
Lemma called_nz B w args cs : called_with B w args cs -> nonzero cs.
Proof. intros (text & _ & _ & _ & ml & D & _). exact (dimacs_nz ml text cs D). Qed.
Lemma loaded_last cs : nonzero cs -> last_variable cs (variables (loaded cs)).
Proof.
  intros NZ. destruct (readClauses_nvars (clauses cs)) as (H1 & H2). fold (loaded cs) in H1, H2. split.
  - intros c z Hc Hz. assert (H : lvar (zlit z) < variables (loaded cs)) by (apply H1; exists (map zlit c), (zlit z); split; [apply in_map; exact Hc|]; split; [apply in_map; exact Hz|reflexivity]).
    assert (V := zlit_var z (proj1 (NZ c z Hc Hz))). lia.
  - destruct H2 as [H2|(v & (c' & l & Hc & Hl & <-) & H2)]; [auto|right]. apply in_map_iff in Hc. destruct Hc as (c & <- & Hc). apply in_map_iff in Hl. destruct Hl as (z & <- & Hz).
    exists c, z. split; [exact Hc|]. split; [exact Hz|]. assert (V := zlit_var z (proj1 (NZ c z Hc Hz))). lia.
Qed.
Lemma last_bound cs n : nonzero cs -> last_variable cs n -> (Z.of_nat n <= 2 ^ 30)%Z.
Proof. intros NZ (_ & [->|(c & z & Hc & Hz & E)]); [lia|]. rewrite <- E. apply (NZ c z Hc Hz). Qed.

Lemma starts_v t : starts "v" t = true <-> exists u, t = 118 :: u.
Proof.
  unfold starts. cbn [String.length]. destruct (list_eq_dec Nat.eq_dec (firstn 1 t) (bytes "v")) as [E|N].
  - split; [intros _|reflexivity]. destruct t as [|c t]; [discriminate E|]. cbn [firstn] in E. change (bytes "v") with [118] in E. injection E as ->. eauto.
  - split; [discriminate|]. intros (u & ->). elim N. reflexivity.
Qed.
Lemma prog_sat B w args cs code lines : called_with B w args cs -> unset args "inprocessing" -> program B w args = Exits code lines -> In (bytes "s SATISFIABLE") lines ->
  exists a, sat a (clauses cs) /\ forall t, In t lines -> starts "v" t = true -> exists n, last_variable cs n /\ solution_line n a t.
Proof.
  intros HC U E H. destruct (ran_of _ _ _ _ _ _ _ HC E H) as (os & x & s & s' & R). assert (HS := ran_status _ _ _ _ _ _ _ _ _ _ (Some true) R H).
  destruct (ran_model _ _ _ _ _ _ _ _ _ _ U R HS) as (M & T). exists (value_of (r_model x)). split; [apply loaded_sat, model_sat_value; exact M|].
  intros t Ht Hv. apply starts_v in Hv. destruct Hv as (u & ->). exists (variables (loaded cs)). split; [apply loaded_last; apply (called_nz B w args); exact HC|].
  destruct R as (kept & n & _ & _ & _ & ER). apply (report_line _ _ _ _ _ _ _ _ _ _ _ ER) in Ht.
  destruct Ht as [(Ht & _)|[Ht|[(y & Hy & _ & Ht)|[(_ & [|] & _ & Ht & _)|(_ & ? & [|] & _ & _ & Ht & _)]]]]; try discriminate Ht.
  - destruct (r_status x) as [[|]|]; discriminate Ht.
  - apply value_line_ok; assumption.
Qed.
Lemma prog_sat_line B w args cs code lines : called_with B w args cs -> switch args "model" false = true -> program B w args = Exits code lines -> In (bytes "s SATISFIABLE") lines ->
  exists t, In t lines /\ starts "v" t = true.
Proof.
  intros HC HM E H. destruct (ran_of _ _ _ _ _ _ _ HC E H) as (os & x & s & s' & R). assert (HS := ran_status _ _ _ _ _ _ _ _ _ _ (Some true) R H).
  destruct R as (kept & n & EP & _ & _ & ER). destruct (report_cases _ _ _ _ _ _ _ _ _ _ _ ER) as (vs & t & -> & HV & _).
  destruct HV as [(_ & HV)|(v & -> & _ & HV)].
  - exfalso. specialize (HV HS). rewrite (done_bool args os kept "model" false EP) in HV; [congruence|]. vm_compute. reflexivity.
  - exists v. split; [|apply starts_v; apply (value_line_head _ _ _ HV)]. apply in_app_iff. right. cbn [app In]. auto.
Qed.
Lemma prog_exit B w args cs code lines b : called_with B w args cs -> program B w args = Exits code lines -> In (status_line b) lines ->
  (b = Some true -> switch args "test-model" false = false) -> (b = Some false -> switch args "test-proof" false = false) -> code = exit_code b.
Proof.
  intros HC E H T1 T2. destruct (ran_of _ _ _ _ _ _ _ HC E H) as (os & x & s & s' & R). assert (HS := ran_status _ _ _ _ _ _ _ _ _ _ b R H).
  destruct R as (kept & n & EP & _ & _ & ER). destruct (report_cases _ _ _ _ _ _ _ _ _ _ _ ER) as (vs & t & _ & _ & HV). rewrite HS in HV.
  destruct HV as [(_ & HV & _)|[(HV & HT & _)|(HV & HT & _)]]; [exact HV| |].
  - exfalso. rewrite (done_bool args os kept "test-model" false EP) in HT; [rewrite T1 in HT; [discriminate|exact HV]|]. vm_compute. reflexivity.
  - exfalso. rewrite (done_bool args os kept "test-proof" false EP) in HT; [rewrite T2 in HT; [discriminate|exact HV]|]. vm_compute. reflexivity.
Qed.
Lemma prog_verified_model B w args cs code lines : called_with B w args cs -> program B w args = Exits code lines -> In model_verified lines -> satisfiable (clauses cs) /\ code = 0%Z.
Proof.
  intros HC E H. destruct (ran_of _ _ _ _ _ _ _ HC E H) as (os & x & s & s' & R). destruct R as (kept & n & EP & _ & _ & ER). apply (report_line _ _ _ _ _ _ _ _ _ _ _ ER) in H.
  destruct H as [(H & _)|[H|[(y & H & _)|[(_ & [|] & HK & H & HZ)|(_ & ? & [|] & _ & _ & H & _)]]]]; try discriminate H; [destruct (r_status x) as [[|]|]; discriminate H|].
  split; [|exact HZ]. exists (value_of (r_model x)). apply loaded_sat. apply (checkResult_extends _ (r_model x)); [exact HK|].
  intros l Hl. unfold assigns in Hl. unfold lit_holds, lit_val, value_of. rewrite (nth_error_nth _ _ None Hl). destruct (lsign l); reflexivity.
Qed.
Lemma prog_verified_proof B w args cs code lines : called_with B w args cs -> program B w args = Exits code lines -> In proof_verified lines -> unsat (clauses cs) /\ code = 0%Z.
Proof.
  intros HC E H. destruct (ran_of _ _ _ _ _ _ _ HC E H) as (os & x & s & s' & R). destruct R as (kept & n & EP & _ & _ & ER). apply (report_line _ _ _ _ _ _ _ _ _ _ _ ER) in H.
  destruct H as [(H & _)|[H|[(y & H & _)|[(_ & [|] & HK & H & HZ)|(_ & text & [|] & _ & HK & H & HZ)]]]]; try discriminate H; [destruct (r_status x) as [[|]|]; discriminate H|].
  split; [|exact HZ]. apply loaded_unsat. intros a. apply (file_sound B (w_junk w 1) text (variables (loaded cs)) (problem (loaded cs))); [|exact HK].
  intros c l. apply loaded_vars.
Qed.
Lemma model_lit_assigns m l : model_lit m l -> assigns m l.
Proof.
  unfold model_lit, assigns. intros H. destruct (nth_error m (lvar l)) as [o|] eqn:E; [rewrite (nth_error_nth _ _ None E) in H; congruence|].
  apply nth_error_None in E. rewrite (nth_overflow m None E) in H. discriminate.
Qed.
Lemma model_sat_check m F : model_sat m F -> checkResult F m = Some true.
Proof. intros H. apply checkResult_true. intros c Hc. destruct (H c Hc) as (l & L1 & L2). exists l. split; [exact L1|apply model_lit_assigns; exact L2]. Qed.
Lemma prog_model_test B w args cs code lines : called_with B w args cs -> unset args "inprocessing" -> program B w args = Exits code lines -> ~ In model_refused lines.
Proof.
  intros HC U E H. destruct (ran_of _ _ _ _ _ _ _ HC E H) as (os & x & s & s' & R). assert (R' := R). destruct R as (kept & n & EP & _ & _ & ER). apply (report_line _ _ _ _ _ _ _ _ _ _ _ ER) in H.
  destruct H as [(H & _)|[H|[(y & H & _)|[(HS & [|] & HK & H & HZ)|(_ & ? & [|] & _ & _ & H & _)]]]]; try discriminate H; [destruct (r_status x) as [[|]|]; discriminate H|].
  destruct (ran_model _ _ _ _ _ _ _ _ _ _ U R' HS) as (M & _). rewrite (model_sat_check _ _ M) in HK. discriminate.
Qed.
