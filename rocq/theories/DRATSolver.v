(** The checker accepts the proof that a first solve writes. *)
Require Import List Arith Bool NArith Lia.
Require Import Verif.Base Verif.Outcome Verif.DbModel Verif.DbProofs Verif.SolverModel Verif.SolverSpec Verif.CertSpec Verif.CertProofs Verif.CertSolver Verif.CertHistory
  Verif.CertOpen Verif.DRATModel Verif.DRATProofs Verif.DRATSpec Verif.DRATComplete.
Import ListNotations.

Lemma in_lemmas c ls : In c (lemmas ls) <-> In (CAdd c) ls.
Proof.
  induction ls as [|[e|e] r IH]; cbn [lemmas In]; [tauto| |]; rewrite IH.
  - split; (intros [H|H]; [left; congruence|auto]).
  - split; [auto|]. intros [H|H]; [discriminate|auto].
Qed.
Lemma solver_accepted C F s O fuel x s' : c_pre C = false -> c_inproc C = 0%N -> (forall l, In [l] F -> ~ In [lneg l] F) ->
  sreach C loading_op F s -> solve C O fuel s = Ok (x, s') -> r_status x = Some false -> r_conflict x = [] ->
  check_proof (nvars s) F (rev (cert (sv_d s'))) = Ok true.
Proof.
  intros H1 H2 HN HR E S1 S2. destruct (first_OC C F s O fuel x s' H1 H2 HR E) as (A & _ & L1 & L2). destruct (load_OC C F s HR) as (_ & HF).
  assert (HD : exists Q, derivation F (rev (cert (sv_d s'))) Q).
  { apply (history_cert C F s' H1 (or_introl H2)). apply (sr_solve C problem_op F s O fuel x s'); auto; [|exact I].
    clear - HR. induction HR as [|F s n cs lemma s' HR IH Ho Hc E|F s ls HR IH Ho Hl|F s cb HR IH Ho|F s O fuel x s' HR IH Ho E].
    - apply sr_new.
    - eapply sr_init; eauto.
    - eapply sr_assume; eauto; exact I.
    - eapply sr_callback; eauto; exact I.
    - destruct Ho. }
  destruct HD as (Q & HD). assert (HE := solve_empty C O fuel s x s' E S1 S2).
  destruct (check_defined (nvars s) F (rev (cert (sv_d s')))) as (b & Hb).
  - intros c l Hc. apply (HF c Hc).
  - intros [c|c] l Hc Hl; cbn [line_lits] in Hl; apply in_rev in Hc; [apply (L1 c Hc)|apply (L2 c Hc)]; auto.
  - intros c [Hc|Hc]; [apply (HF c Hc)|]. apply in_rev in Hc. apply (L1 c Hc).
  - rewrite Hb. f_equal. apply (checker_complete (nvars s) F (rev (cert (sv_d s'))) Q); auto.
    + apply Forall_forall. intros c Hc. destruct (HF c Hc) as ((W1 & W2 & _) & _). split; auto.
    + apply in_lemmas. apply in_rev. rewrite rev_involutive. exact HE.
    + intros c [Hc|Hc]; apply in_rev in Hc; [destruct (L1 c Hc) as (W1 & W2 & _); split; auto|auto].
    + intros l1 c l2 El Hc _. destruct (opn_lines F _ A l1 c l2 El Hc) as (m & M1 & M2). exists m. split; auto. rewrite in_app_iff in *. tauto.
Qed.
