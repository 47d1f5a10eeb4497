(** Proofs about the whole program. *)
Require Import List Arith ZArith NArith Lia String Ascii Bool.
Require Import Verif.Base Verif.Outcome Verif.OptModel Verif.OptSpec Verif.OptProofs Verif.CNFModel Verif.CNFSpec Verif.CNFProofs Verif.DimacsModel Verif.DimacsSpec Verif.DimacsProofs
  Verif.DimacsMore Verif.DbModel Verif.SolverModel Verif.PropSpec Verif.SolverSpec Verif.SolverBase Verif.SolverProofs Verif.SolverLemmas Verif.SolverElim Verif.IpasirProofs
  Verif.RestartModel Verif.RestartProofs Verif.DRATModel Verif.DratFileModel Verif.DratFileProofs Verif.DratTextModel Verif.DratTextSolver Verif.MainModel Verif.MainSpec Verif.MainOpt.
Import ListNotations.
Open Scope list_scope.

Definition loaded (cs : list (list Z)) : cnf := readClauses cnf_empty (clauses cs).
Lemma loaded_ok cs : Forall (clause_ok (variables (loaded cs))) (problem (loaded cs)).
Proof.
  unfold loaded, readClauses. assert (H : Forall (clause_ok (variables cnf_empty)) (problem cnf_empty)) by constructor. revert H. generalize cnf_empty.
  induction (clauses cs) as [|c r IH]; intros p H; cbn [fold_left]; [exact H|]. apply IH. apply (read_step p c H).
Qed.
Lemma loaded_sat cs a : sat a (problem (loaded cs)) <-> sat a (clauses cs).
Proof. apply readClauses_models. Qed.
Lemma loaded_unsat cs : unsat (problem (loaded cs)) -> unsat (clauses cs).
Proof. intros H a Ha. apply (H a). apply loaded_sat. exact Ha. Qed.
Lemma loaded_vars cs c l : In c (problem (loaded cs)) -> In l c -> lvar l < variables (loaded cs).
Proof. intros Hc. assert (H := loaded_ok cs). rewrite Forall_forall in H. apply (H c Hc). Qed.
Lemma init_reach C cs s : solver_init (variables (loaded cs)) (problem (loaded cs)) true (solver_new C) = Ok s ->
  sreach C loading_op (problem (loaded cs)) s /\ nvars s = variables (loaded cs) /\ assumptions s = [].
Proof.
  intros E. assert (HR : sreach C loading_op [] (solver_new C)) by apply sr_new. assert (HB := reach_BI _ _ _ _ HR).
  assert (HF : Forall (clause_ok (max (variables (loaded cs)) (nvars (solver_new C)))) (problem (loaded cs))) by (change (nvars (solver_new C)) with 0; rewrite Nat.max_0_r; apply loaded_ok).
  split; [exact (sr_init C loading_op [] _ _ _ true s HR eq_refl HF E)|]. split.
  - rewrite (init_nvars [] _ _ true _ _ HB HF E). apply Nat.max_0_r.
  - exact (init_assum [] _ _ true _ _ HB HF E).
Qed.

(** ** The way to the answer *)
Lemma called_program B w args cs : called_with B w args cs -> program B w args =
  match parse_options true cli_options args with Help => Exits 0 [] | Unknown _ => Exits 1 [] | Range => Exits 1 [] | Done os _ => with_problem B w os (loaded cs) end.
Proof.
  intros (text & (G1 & G2) & HB & HJ & ml & D1 & D2 & D3). unfold program. destruct (parse_options true cli_options args) as [os kept| | |] eqn:E; try reflexivity.
  apply cli_done in E. destruct E as (_ & ->). rewrite G1. assert (RD := readDimacs_ok B ml (w_junk w 0) text cs cnf_empty HB HJ D2 D3 D1).
  destruct (wanted args) as [|f|]; [| |destruct G2]; rewrite G2, RD; reflexivity.
Qed.
Definition lines0 (os : list opt) : list (list nat) := if get_bool os "use-lrb" then [lrb_line] else [].
(** the solver ran and answered *)
Definition answered (w : world) (os : list opt) (cs : list (list Z)) (x : sresult) (s s' : solver) : Prop :=
  solver_init (variables (loaded cs)) (problem (loaded cs)) true (solver_new (cfg_of os)) = Ok s /\ exists O, solve (cfg_of os) O (w_fuel w) s = Ok (x, s').
Definition ended_early (e : ending) : Prop := exists code, e = Exits code [].
Lemma called_cases B w args cs e : called_with B w args cs -> program B w args = e ->
  (ended_early e) \/ e = Crashes \/ e = Silent \/ e = Unmodelled \/
  exists os kept n x s s', parse_options true cli_options args = Done os kept /\ get_text os "certified-output" = Ok n /\ answered w os cs x s s' /\
    report B w os (loaded cs) (proof_name os n) (r_status x) (r_model x) (rev (cert (sv_d s'))) (lines0 os) = e.
Proof.
  intros HC E. rewrite (called_program B w args cs HC) in E. destruct (parse_options true cli_options args) as [os kept| | |] eqn:EP; [|left; eexists; eauto..].
  unfold with_problem in E. destruct (get_text os "certified-output") as [n|er] eqn:EN.
  - assert (E' : (if ((0 <? get_int os "test-limit") && (get_int os "test-limit" <? Z.of_nat (variables (loaded cs))))%bool%Z then Exits 0 []
      else if get_bool os "gate-stats" then Unmodelled else run B w os (loaded cs) (proof_name os n)) = e) by (destruct (get_bool os "test-proof"); exact E).
    clear E. destruct ((0 <? _)%Z && _)%bool; [left; eexists; eauto|]. destruct (get_bool os "gate-stats"); [auto 10|].
    unfold run in E'. destruct (unmodelled os); [auto 10|]. destruct (solver_init _ _ _ _) as [s|er] eqn:EI; cbn [bind] in E'; [|destruct er; auto 10].
    destruct (rsolve _ _ _ _ _ s) as [((x & q') & s')|er] eqn:ES; [|destruct er; auto 10]. do 4 right. exists os, kept, n, x, s, s'. split; [reflexivity|]. split; [exact EN|].
    split; [split; [assumption|]; destruct (rsolve_solve _ _ _ _ _ _ _ _ _ ES) as (f & Ef); eexists; exact Ef|]. exact E'.
  - destruct (get_bool os "test-proof"); [auto|]. destruct ((0 <? _)%Z && _)%bool; [left; eexists; eauto|]. destruct (get_bool os "gate-stats"); auto 10.
Qed.

(** ** The report *)
Lemma report_cases B w os p name r m ls l0 code lines : report B w os p name r m ls l0 = Exits code lines ->
  exists vs t, lines = l0 ++ [status_line r] ++ vs ++ t /\
  (vs = [] /\ (r = Some true -> get_bool os "model" = false) \/ exists v, vs = [v] /\ r = Some true /\ value_line m (variables p) = Some v) /\
  ((t = [] /\ code = exit_code r /\ (r = Some true -> get_bool os "test-model" = false) /\ (r = Some false -> get_bool os "test-proof" = false)) \/
   (r = Some true /\ get_bool os "test-model" = true /\ exists b, checkResult (problem p) m = Some b /\ t = [if b then model_verified else model_refused] /\ code = (if b then 0 else 1)%Z) \/
   (r = Some false /\ get_bool os "test-proof" = true /\ exists text b, proof_file w name ls = Some text /\
      check_proof_file B (w_junk w 1) text (variables p) (problem p) = POk (Ok b) /\ t = [if b then proof_verified else proof_refused] /\ code = (if b then 0 else 1)%Z)).
Proof.
  assert (S : forall L, self_test B w os p name r m ls L = Exits code lines -> exists t, lines = L ++ t /\
    ((t = [] /\ code = exit_code r /\ (r = Some true -> get_bool os "test-model" = false) /\ (r = Some false -> get_bool os "test-proof" = false)) \/
     (r = Some true /\ get_bool os "test-model" = true /\ exists b, checkResult (problem p) m = Some b /\ t = [if b then model_verified else model_refused] /\ code = (if b then 0 else 1)%Z) \/
     (r = Some false /\ get_bool os "test-proof" = true /\ exists text b, proof_file w name ls = Some text /\
      check_proof_file B (w_junk w 1) text (variables p) (problem p) = POk (Ok b) /\ t = [if b then proof_verified else proof_refused] /\ code = (if b then 0 else 1)%Z))).
  { intros L E. unfold self_test in E. destruct r as [[|]|].
    - destruct (get_bool os "test-model").
      + destruct (checkResult (problem p) m) as [[|]|] eqn:EC; [| |discriminate]; injection E as <- <-; eexists; (split; [reflexivity|]); right; left; (split; [reflexivity|]; split; [reflexivity|]); [exists true|exists false]; auto.
      + injection E as <- <-. exists []. rewrite app_nil_r. split; [reflexivity|]. left. split; [reflexivity|]. split; [reflexivity|]. split; [reflexivity|discriminate].
    - destruct (get_bool os "test-proof").
      + destruct (proof_file w name ls) as [text|] eqn:EF; [|discriminate]. destruct (check_proof_file _ _ _ _ _) as [[[|]|[]]| | |] eqn:EC; try discriminate; injection E as <- <-; eexists; (split; [reflexivity|]);
          right; right; (split; [reflexivity|]; split; [reflexivity|]); exists text; [exists true|exists false]; auto.
      + injection E as <- <-. exists []. rewrite app_nil_r. split; [reflexivity|]. left. split; [reflexivity|]. split; [reflexivity|]. split; [discriminate|reflexivity].
    - injection E as <- <-. exists []. rewrite app_nil_r. split; [reflexivity|]. left. split; [reflexivity|]. split; [reflexivity|]. split; discriminate. }
  intros E. unfold report in E. assert (N : self_test B w os p name r m ls (l0 ++ [status_line r]) = Exits code lines -> (r = Some true -> get_bool os "model" = false) ->
    exists vs t, lines = l0 ++ [status_line r] ++ vs ++ t /\
  (vs = [] /\ (r = Some true -> get_bool os "model" = false) \/ exists v, vs = [v] /\ r = Some true /\ value_line m (variables p) = Some v) /\
  ((t = [] /\ code = exit_code r /\ (r = Some true -> get_bool os "test-model" = false) /\ (r = Some false -> get_bool os "test-proof" = false)) \/
   (r = Some true /\ get_bool os "test-model" = true /\ exists b, checkResult (problem p) m = Some b /\ t = [if b then model_verified else model_refused] /\ code = (if b then 0 else 1)%Z) \/
   (r = Some false /\ get_bool os "test-proof" = true /\ exists text b, proof_file w name ls = Some text /\
      check_proof_file B (w_junk w 1) text (variables p) (problem p) = POk (Ok b) /\ t = [if b then proof_verified else proof_refused] /\ code = (if b then 0 else 1)%Z))).
  { intros E' Hm. destruct (S _ E') as (t & -> & Ht). exists [], t. rewrite <- app_assoc. split; [reflexivity|]. split; [left; auto|exact Ht]. }
  destruct r as [[|]|]; [|apply N; [exact E|discriminate]..]. destruct (get_bool os "minimize"); [discriminate|]. destruct (get_bool os "model") eqn:EM; [|apply N; auto].
  destruct (value_line m (variables p)) as [v|] eqn:EV; [|discriminate]. destruct (S _ E) as (t & -> & Ht). exists [v], t. rewrite <- !app_assoc. split; [reflexivity|]. split; [right; eauto|exact Ht].
Qed.
Lemma value_line_head m n v : value_line m n = Some v -> exists t, v = 118 :: t.
Proof. unfold value_line. destruct (print_values m (seq 0 n)); intros E; [|discriminate]. injection E as <-. eauto. Qed.
(** which lines there are *)
Lemma report_line B w os p name r m ls code lines t : report B w os p name r m ls (lines0 os) = Exits code lines -> In t lines ->
  t = lrb_line /\ get_bool os "use-lrb" = true \/ t = status_line r \/ (exists u, t = 118 :: u /\ r = Some true /\ value_line m (variables p) = Some t) \/
  (r = Some true /\ exists b, checkResult (problem p) m = Some b /\ t = (if b then model_verified else model_refused) /\ code = (if b then 0 else 1)%Z) \/
  (r = Some false /\ exists text b, proof_file w name ls = Some text /\ check_proof_file B (w_junk w 1) text (variables p) (problem p) = POk (Ok b) /\ t = (if b then proof_verified else proof_refused) /\ code = (if b then 0 else 1)%Z).
Proof.
  intros E Ht. destruct (report_cases _ _ _ _ _ _ _ _ _ _ _ E) as (vs & u & -> & HV & HU). apply in_app_iff in Ht. destruct Ht as [Ht|Ht].
  - unfold lines0 in Ht. destruct (get_bool os "use-lrb"); [destruct Ht as [<-|[]]; auto|destruct Ht].
  - cbn [app] in Ht. destruct Ht as [<-|Ht]; [auto|]. apply in_app_iff in Ht. destruct Ht as [Ht|Ht].
    + destruct HV as [(-> & _)|(v & -> & HV & HV')]; [destruct Ht|]. destruct Ht as [<-|[]]. destruct (value_line_head _ _ _ HV') as (y & Hy). right. right. left. exists y. auto.
    + destruct HU as [(-> & _)|[(HR & _ & b & H1 & -> & H2)|(HR & _ & text & b & H0 & H1 & -> & H2)]]; [destruct Ht|destruct Ht as [<-|[]]..].
      * do 3 right. left. split; [exact HR|]. exists b. auto.
      * do 4 right. split; [exact HR|]. exists text, b. auto.
Qed.
Ltac which H := destruct H as [(H & _)|[H|[(? & H & _)|[(_ & [|] & _ & H & _)|(_ & ? & [|] & _ & _ & H & _)]]]].

(** ** What the answers mean *)
Definition ran (B : nat) (w : world) (args : list string) (cs : list (list Z)) (code : Z) (lines : list (list nat)) (os : list opt) (x : sresult) (s s' : solver) : Prop :=
  exists kept n, parse_options true cli_options args = Done os kept /\ get_text os "certified-output" = Ok n /\ answered w os cs x s s' /\
    report B w os (loaded cs) (proof_name os n) (r_status x) (r_model x) (rev (cert (sv_d s'))) (lines0 os) = Exits code lines.
Lemma ran_of B w args cs code lines t : called_with B w args cs -> program B w args = Exits code lines -> In t lines -> exists os x s s', ran B w args cs code lines os x s s'.
Proof.
  intros HC E Ht. destruct (called_cases B w args cs _ HC E) as [(c & K)|[K|[K|[K|(os & kept & n & x & s & s' & H1 & H2 & H3 & H4)]]]]; try discriminate.
  - injection K as -> ->. destruct Ht.
  - exists os, x, s, s'. exists kept, n. auto.
Qed.
Lemma ran_status B w args cs code lines os x s s' b : ran B w args cs code lines os x s s' -> In (status_line b) lines -> r_status x = b.
Proof.
  intros (kept & n & _ & _ & _ & E) H. apply (report_line _ _ _ _ _ _ _ _ _ _ _ E) in H. destruct b as [[|]|]; which H; try discriminate H;
    destruct (r_status x) as [[|]|]; try discriminate H; reflexivity.
Qed.
Lemma ran_unsat B w args cs code lines os x s s' : ran B w args cs code lines os x s s' -> r_status x = Some false -> unsat (clauses cs).
Proof.
  intros (kept & n & _ & _ & (E1 & O & E2) & _) HS. destruct (init_reach _ cs s E1) as (R & _ & A). apply loaded_unsat.
  assert (H := unsat_core _ loading_op _ s _ _ x s' R E2 HS). rewrite A in H. cbn [units map] in H. rewrite app_nil_r in H. exact H.
Qed.
Lemma prog_unsat B w args cs code lines : called_with B w args cs -> program B w args = Exits code lines -> In (bytes "s UNSATISFIABLE") lines -> unsat (clauses cs).
Proof.
  intros HC E H. destruct (ran_of _ _ _ _ _ _ _ HC E H) as (os & x & s & s' & R). apply (ran_unsat _ _ _ _ _ _ _ _ _ _ R). apply (ran_status _ _ _ _ _ _ _ _ _ _ (Some false) R H).
Qed.

(** *** solutions *)
Definition value_of (m : model) : assignment := fun v => match nth v m None with Some true => true | _ => false end.
Lemma model_sat_value m F : model_sat m F -> sat (value_of m) F.
Proof.
  intros H c Hc. destruct (H c Hc) as (l & L1 & L2). exists l. split; [exact L1|]. unfold model_lit in L2. unfold lit_holds, lit_val, value_of. rewrite L2. destruct (lsign l); reflexivity.
Qed.
Lemma inproc_unset args os kept : parse_options true cli_options args = Done os kept -> unset args "inprocessing" -> c_inproc (cfg_of os) = 0%N.
Proof.
  intros E U. unfold cfg_of, c_inproc. rewrite (done_int args os kept "inprocessing" 0 (- 2 ^ 31) imax E U); [reflexivity|]. vm_compute. reflexivity.
Qed.
Lemma ran_model B w args cs code lines os x s s' : unset args "inprocessing" -> ran B w args cs code lines os x s s' -> r_status x = Some true ->
  model_sat (r_model x) (problem (loaded cs)) /\ model_total (variables (loaded cs)) (r_model x).
Proof.
  intros U (kept & n & EP & _ & (E1 & O & E2) & _) HS. destruct (init_reach _ cs s E1) as (R & HN & A). rewrite <- HN.
  destruct (first_model (cfg_of os) _ s _ _ x s' (inproc_unset args os kept EP U) R E2 HS) as (M & _ & T). auto.
Qed.
Lemma print_values_ok m vs t : (forall v, In v vs -> nth v m None <> None) -> print_values m vs = Some t ->
  exists toks, t = List.concat (map (fun tok => bytes " " ++ tok) toks) ++ bytes " 0" /\
  Forall2 (fun v tok => number (if value_of m v then Z.of_nat v + 1 else - (Z.of_nat v + 1))%Z tok) vs toks.
Proof.
  revert t. induction vs as [|v r IH]; intros t H E; cbn [print_values] in E.
  - injection E as <-. exists []. split; [reflexivity|constructor].
  - destruct (CNFModel.value m v) as [o|] eqn:EV; [|discriminate]. destruct (print_values m r) as [t'|]; [|discriminate]. injection E as <-.
    destruct (IH t' (fun u Hu => H u (or_intror Hu)) eq_refl) as (toks & -> & HT). assert (Hv := H v (or_introl eq_refl)).
    unfold CNFModel.value in EV. destruct (nth_error m v) as [b|] eqn:EN; [|discriminate]. assert (EV' : nth v m None = b) by (apply nth_error_nth; exact EN). rewrite EV' in Hv.
    assert (N : forall sg, number (litz (mkLit v sg)) (print_lit (mkLit v sg))) by (intros sg; apply print_lit_number).
    destruct b as [[|]|]; [| |congruence]; injection EV as <-; cbn [print_value].
    + exists (print_lit (mkLit v false) :: toks). split; [cbn [map List.concat]; rewrite <- !app_assoc; reflexivity|]. constructor; [|exact HT].
      unfold value_of. rewrite EV'. specialize (N false). unfold litz in N. rewrite lvar_mk, lsign_mk in N. exact N.
    + exists (print_lit (mkLit v true) :: toks). split; [cbn [map List.concat]; rewrite <- !app_assoc; reflexivity|]. constructor; [|exact HT].
      unfold value_of. rewrite EV'. specialize (N true). unfold litz in N. rewrite lvar_mk, lsign_mk in N. exact N.
Qed.
Lemma value_line_ok m n t : model_total n m -> value_line m n = Some t -> solution_line n (value_of m) t.
Proof.
  intros H E. unfold value_line in E. destruct (print_values m (seq 0 n)) as [u|] eqn:EU; [|discriminate]. injection E as <-.
  destruct (print_values_ok m (seq 0 n) u) as (toks & -> & HT); [|exact EU|exists toks; split; [reflexivity|exact HT]].
  intros v Hv. apply in_seq in Hv. apply H. lia.
Qed.
