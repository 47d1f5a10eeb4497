Require Import List Arith Bool ZArith NArith.
Require Import Verif.Base Verif.Outcome Verif.TrailModel Verif.DbModel Verif.DRATModel Verif.DRATProofs Verif.DimacsModel Verif.DratFileModel.
Import ListNotations.
Lemma proof_loop_lines B F fuel : forall s k r, proof_loop B F fuel s k = POk r -> exists ls, check_lines ls k = r.
Proof.
  induction fuel as [|fuel IH]; intros s k r H; cbn [proof_loop] in H; [discriminate|].
  destruct (eof s); [injection H as <-; exists []; reflexivity|]. destruct (cur s =? 99).
  - destruct (skipLine B F s) as [s1| | |]; try discriminate. cbn [pbind] in H. destruct (skipWhitespace B F s1) as [s2| | |]; try discriminate. cbn [pbind] in H. eauto.
  - destruct (cur s =? 100).
    + destruct (incPos B 1 s) as [s1| | |]; try discriminate. cbn [pbind] in H. destruct (read_lits B F s1 []) as [(ls, s2)| | |]; try discriminate. cbn [pbind] in H.
      destruct (check_clause_remove ls k) as [k'|e] eqn:E.
      * destruct (skipWhitespace B F s2) as [s3| | |]; try discriminate. cbn [pbind] in H. destruct (IH _ _ _ H) as (l & Hl). exists (CDel ls :: l). cbn [check_lines]. rewrite E. auto.
      * injection H as <-. exists [CDel ls]. cbn [check_lines]. rewrite E. auto.
    + destruct (read_lits B F s []) as [(ls, s2)| | |]; try discriminate. cbn [pbind] in H. destruct (check_clause_add ls k) as [([|], k')|e] eqn:E.
      * destruct (skipWhitespace B F s2) as [s3| | |]; try discriminate. cbn [pbind] in H. destruct (IH _ _ _ H) as (l & Hl). exists (CAdd ls :: l). cbn [check_lines]. rewrite E. auto.
      * injection H as <-. exists [CAdd ls]. cbn [check_lines]. rewrite E. auto.
      * injection H as <-. exists [CAdd ls]. cbn [check_lines]. rewrite E. auto.
Qed.
Lemma file_lines B junk text n cs r : check_proof_file B junk text n cs = POk r -> exists ls, check_proof n cs ls = r.
Proof.
  unfold check_proof_file, check_proof. destruct (chk_new n cs) as [k|e]; [|intros H; injection H as <-; exists []; auto]. cbn [bind].
  destruct (empt (k_d k)); [intros H; injection H as <-; exists []; auto|]. destruct (sb_new B junk text) as [s1| | |]; try discriminate. cbn [pbind]. destruct (skipWhitespace B _ s1) as [s2| | |]; try discriminate. cbn [pbind]. apply proof_loop_lines.
Qed.
Lemma file_sound B junk text n cs : (forall c l, In c cs -> In l c -> lvar l < n) -> check_proof_file B junk text n cs = POk (Ok true) -> forall x, ~ sat x cs.
Proof. intros H1 H2. destruct (file_lines _ _ _ _ _ _ H2) as (ls & E). exact (check_sound n cs ls H1 E). Qed.
