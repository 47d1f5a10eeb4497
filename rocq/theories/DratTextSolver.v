(** The file that a first solve writes is accepted by the checker. *)
Require Import List Arith Bool ZArith NArith Lia.
Require Import Verif.Base Verif.Outcome Verif.DbModel Verif.DbProofs Verif.SolverModel Verif.SolverSpec Verif.CertSpec Verif.CertProofs Verif.CertSolver Verif.CertHistory
  Verif.CertOpen Verif.DRATModel Verif.DRATProofs Verif.DRATSpec Verif.DRATComplete Verif.DRATSolver Verif.DimacsModel Verif.DratFileModel Verif.DratTextModel Verif.DratTextProofs.
Import ListNotations.

Lemma deleted_present P ls Q : derivation P ls Q -> forall c, In (CDel c) ls -> exists c', same_lits c c' /\ (In c' P \/ In (CAdd c') ls).
Proof.
  induction 1 as [P|P c ls Q HR HD IH|P1 c' P2 c ls Q HS HD IH]; intros x Hx.
  - destruct Hx.
  - destruct Hx as [Hx|Hx]; [discriminate|]. destruct (IH x Hx) as (y & Y1 & [[<-|Y2]|Y2]); exists y || exists c; cbn [In]; auto.
  - destruct Hx as [Hx|Hx].
    + injection Hx as <-. exists c'. split; auto. left. apply in_app_iff. cbn; auto.
    + destruct (IH x Hx) as (y & Y1 & [Y2|Y2]); exists y; (split; [exact Y1|]); [left|right; right; exact Y2]. apply in_app_iff in Y2. apply in_app_iff. cbn [In]. tauto.
Qed.
Lemma solver_file C F s O fuel x s' junk : c_pre C = false -> c_inproc C = 0%N -> (forall l, In [l] F -> ~ In [lneg l] F) ->
  sreach C loading_op F s -> solve C O fuel s = Ok (x, s') -> r_status x = Some false -> r_conflict x = [] ->
  length junk = buffer_size -> (Z.of_nat (nvars s) <= 2 ^ 30)%Z ->
  check_proof_file buffer_size junk (print_proof (rev (cert (sv_d s')))) (nvars s) F = POk (Ok true).
Proof.
  intros H1 H2 HN HR E S1 S2 HJ HV. destruct (first_OC C F s O fuel x s' H1 H2 HR E) as (A & _ & L1 & L2). destruct (load_OC C F s HR) as (_ & HF).
  assert (HD : exists Q, derivation F (rev (cert (sv_d s'))) Q).
  { apply (history_cert C F s' H1 (or_introl H2)). apply (sr_solve C problem_op F s O fuel x s'); auto; [|exact I].
    clear - HR. induction HR as [|F s n cs lemma s' HR IH Ho Hc E|F s ls HR IH Ho Hl|F s cb HR IH Ho|F s O fuel x s' HR IH Ho E].
    - apply sr_new.
    - eapply sr_init; eauto.
    - eapply sr_assume; eauto; exact I.
    - eapply sr_callback; eauto; exact I.
    - destruct Ho. }
  destruct HD as (Q & HD). rewrite (written_read junk (rev (cert (sv_d s'))) (nvars s) F HJ).
  - rewrite (solver_accepted C F s O fuel x s' H1 H2 HN HR E S1 S2). reflexivity.
  - intros [c|c] Hc; cbn [line_lits'].
    + apply in_rev in Hc. destruct (L1 c Hc) as (W1 & W2 & W3). split; [|exact W3]. intros y Hy. specialize (W2 y Hy). lia.
    + assert (Hc' := Hc). apply in_rev in Hc'. destruct (L2 c Hc') as (W1 & W2). split; [intros y Hy; specialize (W2 y Hy); lia|].
      destruct (deleted_present _ _ _ HD c Hc) as (y & Y1 & Y2). assert (P : (N.of_nat (length y) < 65536)%N).
      { destruct Y2 as [Y2|Y2]; [apply (HF y Y2)|]. apply in_rev in Y2. apply (L1 y Y2). }
      assert (HL : length c <= length y); [|lia]. apply NoDup_incl_length; [|intros l Hl; apply Y1; exact Hl].
      apply (NoDup_map_inv lvar). exact W1.
Qed.
