(** C52: the text of proof files. *)
Require Import List Arith Bool ZArith NArith Lia.
Require Import Verif.Base Verif.Outcome Verif.DbModel Verif.SolverModel Verif.SolverSpec Verif.CertSpec Verif.CertProofs Verif.CertCases Verif.CertProps Verif.DRATModel Verif.DimacsModel
  Verif.DimacsSpec Verif.DratFileModel Verif.DratTextModel Verif.DratTextSpec Verif.DratTextProofs Verif.DratTextSolver Verif.DRATAcceptProps.
Import ListNotations.

(** The checker reads a text of the proof format as exactly the clauses it states: its answer is the one for these lines.  As for
    problems (C06), every stretch of the buffer size contains a newline, and clauses over several lines are allowed in files smaller
    than the buffer. *)
Theorem C52_text : forall B ml junk text ls n cs, 0 < B -> length junk = B -> drat_text ml text ls -> lines_fit B text ->
  (ml = true -> length text < B) -> check_proof_file B junk text n cs = POk (check_proof n cs ls).
Proof. exact file_text. Qed.
Print Assumptions C52_text.

(** What the certificate writes is a text of the proof format, with these lines, and the checker reads it back. *)
Theorem C52_written : forall junk ls n cs, length junk = buffer_size ->
  (forall c l, In (CAdd c) ls \/ In (CDel c) ls -> In l c -> (Z.of_nat (lvar l) < 2 ^ 30)%Z) ->
  (forall c, In (CAdd c) ls \/ In (CDel c) ls -> (N.of_nat (length c) < 65536)%N) ->
  drat_text false (print_proof ls) ls /\ check_proof_file buffer_size junk (print_proof ls) n cs = POk (check_proof n cs ls).
Proof.
  intros junk ls n cs HJ H1 H2. split.
  - apply print_drat. apply Forall_forall. intros [c|c] Hc; apply Forall_forall; intros l Hl; apply (H1 c l); auto.
  - apply written_read; auto. intros [c|c] Hc; (split; [intros l Hl; apply (H1 c l)|apply (H2 c)]); auto.
Qed.
Print Assumptions C52_written.

(** Full statement: the checker accepts the proof file of every answer that the loaded problem has no solution.  Proved: for the first
    solve, without preprocessing and inprocessing, and without contradictory unit clauses in the problem; see C50 for what is false
    of the rest. *)
Theorem C52_solver_file_partial : forall C F s O fuel x s' junk, c_pre C = false -> c_inproc C = 0%N ->
  (forall l, In [l] F -> ~ In [lneg l] F) -> sreach C loading_op F s -> solve C O fuel s = Ok (x, s') ->
  r_status x = Some false -> r_conflict x = [] -> length junk = buffer_size -> (Z.of_nat (nvars s) <= 2 ^ 30)%Z ->
  check_proof_file buffer_size junk (print_proof (rev (cert (sv_d s')))) (nvars s) F = POk (Ok true).
Proof. exact solver_file. Qed.
Print Assumptions C52_solver_file_partial.

(** ** Cases *)
(** "c x", "1 -2 0", "d 3", "-1 0", "0" *)
Definition t_text : list nat := [99; 32; 120; 10; 49; 32; 45; 50; 32; 48; 10; 100; 32; 51; 10; 45; 49; 32; 48; 10; 48; 10].
Definition t_lines : list cline := [CAdd [mkLit 0 false; mkLit 1 true]; CDel [mkLit 2 false; mkLit 0 true]; CAdd []].
Lemma num1 d : 48 <= d <= 57 -> number (Z.of_nat d - 48) [d].
Proof. intros H. replace (Z.of_nat d - 48)%Z with (decimal [d]) by (unfold decimal; cbn [fold_left]; lia). apply n_plain; [discriminate|]. constructor; [exact H|constructor]. Qed.
Lemma num2 d : 48 <= d <= 57 -> number (- (Z.of_nat d - 48)) [45; d].
Proof. intros H. replace (Z.of_nat d - 48)%Z with (decimal [d]) by (unfold decimal; cbn [fold_left]; lia). apply n_minus; [discriminate|]. constructor; [exact H|constructor]. Qed.
Example C52_text_case : drat_text true t_text t_lines /\ lines_fit 30 t_text /\ length t_text < 30.
Proof.
  split; [|split; [|vm_compute; lia]].
  - unfold t_text. apply (dt_comment true [32; 120] 10); [|unfold line_end; lia|].
    { intros c [<-|[<-|[]]]; unfold line_end; lia. }
    assert (S32 : Forall (separator true) [32]) by (constructor; [split; [unfold white; lia|reflexivity]|constructor]).
    assert (S10 : Forall (separator true) [10]) by (constructor; [split; [unfold white; lia|reflexivity]|constructor]).
    apply (dt_add true [49; 32; 45; 50; 32; 48] [1; -2]%Z 10); [|unfold white; lia|].
    { apply (ct_lit true 1 [49] [32] [45; 50; 32; 48] [-2]%Z); [apply (num1 49); lia|lia|lia|discriminate|exact S32|].
      apply (ct_lit true (-2) [45; 50] [32] [48] []); [apply (num2 50); lia|lia|lia|discriminate|exact S32|].
      apply ct_zero. apply (num1 48). lia. }
    apply (dt_del true [32] [51; 10; 45; 49; 32; 48] [3; -1]%Z 10); [exact S32| |unfold white; lia|].
    { apply (ct_lit true 3 [51] [10] [45; 49; 32; 48] [-1]%Z); [apply (num1 51); lia|lia|lia|discriminate|exact S10|].
      apply (ct_lit true (-1) [45; 49] [32] [48] []); [apply (num2 49); lia|lia|lia|discriminate|exact S32|].
      apply ct_zero. apply (num1 48). lia. }
    apply (dt_add true [48] [] 10); [|unfold white; lia|apply dt_nil]. apply ct_zero. apply (num1 48). lia.
  - intros a b E Hb. exfalso. assert (H : length t_text = length (a ++ b)) by (rewrite E; reflexivity). rewrite app_length in H. cbn [t_text length] in H. lia.
Qed.
Example C52_written_case : print_proof t_lines = [49; 32; 45; 50; 32; 48; 10; 100; 32; 51; 32; 45; 49; 32; 48; 10; 48; 10].
Proof. vm_compute. reflexivity. Qed.
(** the hypotheses of the last theorem are met by the pigeon hole problem, see C50_solver_case *)
Example C52_solver_case : (forall l, In [l] d_php -> ~ In [lneg l] d_php) /\
  exists s x s', sreach c_plain loading_op d_php s /\ solve c_plain p_oracle 500 s = Ok (x, s') /\ r_status x = Some false /\ r_conflict x = [] /\
  nvars s = 12 /\ 40 < length (print_proof (rev (cert (sv_d s')))).
Proof.
  split. { intros l H. cbn in H. repeat (destruct H as [H|H]; [discriminate H|]). destruct H. }
  destruct (play c_plain [] (solver_new c_plain) [SInit 12 d_php true]) as [(F & s)|] eqn:E; [|vm_compute in E; discriminate].
  assert (HF : F = d_php) by (vm_compute in E; injection E as <- _; reflexivity).
  assert (H : match solve c_plain p_oracle 500 s with
    | Ok (x, s') => r_status x = Some false /\ r_conflict x = [] /\ nvars s = 12 /\ 40 < length (print_proof (rev (cert (sv_d s'))))
    | Err _ => False end).
  { vm_compute in E. injection E as _ <-. vm_compute. split; [reflexivity|]. split; [reflexivity|]. split; [reflexivity|]. lia. }
  destruct (solve c_plain p_oracle 500 s) as [(x & s')|] eqn:E'; [|destruct H]. exists s, x, s'.
  split; [rewrite <- HF; apply (play_new c_plain loading_op [SInit 12 d_php true]); [repeat constructor|exact E]|]. split; [exact E'|exact H].
Qed.
Print Assumptions C52_solver_case.

(** ** What is false *)
(** Without white space after the last number the answer depends on what was in the buffer before: the proof "1 0", "0" is accepted,
    or the checker reads beyond the buffer. *)
Theorem C52_no_newline_refuted : exists B junk1 junk2 n cs, length junk1 = B /\ length junk2 = B /\
  check_proof_file B junk1 [49; 32; 48; 10; 48] n cs = POk (Ok true) /\ check_proof_file B junk2 [49; 32; 48; 10; 48] n cs = PUB.
Proof.
  exists 12, (repeat 32 12), (repeat 57 12), 2, [[0; 2]; [0; 3]; [1; 2]; [1; 3]]. split; [reflexivity|]. split; [reflexivity|]. split; vm_compute; reflexivity.
Qed.
Print Assumptions C52_no_newline_refuted.
