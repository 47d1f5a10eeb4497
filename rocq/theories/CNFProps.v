(** C03, C04, C07: problem container and result check. *)
Require Import List Arith Bool Lia Sorted Verif.Base Verif.CNFModel Verif.CNFSpec Verif.CNFProofs.
Import ListNotations.

(** C03: the stored problem has exactly the models of the clauses passed in. *)
Theorem C03_models : forall (cs : list clause) (a : assignment),
  sat a (problem (readClauses cnf_empty cs)) <-> sat a cs.
Proof. exact readClauses_models. Qed.
Print Assumptions C03_models.

(** C03: stored clauses are input clauses without duplicates, never tautologies ... *)
Theorem C03_stored_are_input : forall cs c,
  In c (problem (readClauses cnf_empty cs)) ->
  strictly_sorted c /\ ~ tautology c /\ exists d, In d cs /\ same_literals c d.
Proof. exact readClauses_shape. Qed.
Print Assumptions C03_stored_are_input.

(** ... and every non-tautological input clause is stored. *)
Theorem C03_input_is_stored : forall cs c,
  In c cs -> ~ tautology c ->
  exists u, In u (problem (readClauses cnf_empty cs)) /\ same_literals c u.
Proof. exact readClauses_stored. Qed.
Print Assumptions C03_input_is_stored.

(** C03: nVars() is above every variable of every passed clause (dropped ones included) and is
    either 0 or one more than an occurring variable. *)
Theorem C03_nvars : forall cs,
  (forall v, occurs cs v -> v < variables (readClauses cnf_empty cs)) /\
  (variables (readClauses cnf_empty cs) = 0 \/
   exists v, occurs cs v /\ variables (readClauses cnf_empty cs) = S v).
Proof. exact readClauses_nvars. Qed.
Print Assumptions C03_nvars.

Example C03_case :
  let p := readClauses cnf_empty [[5; 2; 5]; [8; 9; 0]; []; [3; 2; 4]] in
  problem p = [[2; 5]; []] /\ variables p = 5.
Proof. vm_compute. auto. Qed.
Example C03_case_nontaut : In [5; 2; 5] [[5; 2; 5]; [8; 9; 0]] /\ ~ tautology [5; 2; 5].
Proof.
  split; [simpl; auto|]. intros (l & Hl & Hn). simpl in Hl.
  destruct Hl as [<-|[<-|[<-|[]]]]; vm_compute in Hn; intuition discriminate.
Qed.

(** C04: checkResult answers true iff every clause contains a literal the result assigns true. *)
Theorem C04_true_iff : forall f m,
  checkResult f m = Some true <-> forall c, In c f -> exists l, In l c /\ assigns m l.
Proof. exact checkResult_true. Qed.
Print Assumptions C04_true_iff.

(** C04: answer false means some clause has no such literal. *)
Theorem C04_false : forall f m,
  checkResult f m = Some false -> exists c, In c f /\ ~ exists l, In l c /\ assigns m l.
Proof. exact checkResult_false. Qed.
Print Assumptions C04_false.

(** C04: on results that cover all variables the check is defined (no out-of-bounds read). *)
Theorem C04_defined : forall f m,
  (forall c l, In c f -> In l c -> lvar l < length m) -> checkResult f m <> None.
Proof. exact checkResult_defined. Qed.
Print Assumptions C04_defined.

(** C04: an accepted result is a model, whatever the variables it leaves open are set to. *)
Theorem C04_accepted_is_model : forall f m a,
  checkResult f m = Some true -> (forall l, assigns m l -> lit_holds a l) -> sat a f.
Proof. exact checkResult_extends. Qed.
Print Assumptions C04_accepted_is_model.

(** C04: a result written with setModelValue records the last literal written per variable. *)
Theorem C04_setModel : forall ls l,
  assigns (setModel [] ls) l <->
  exists pre post, ls = pre ++ l :: post /\ forall x, In x post -> lvar x = lvar l -> x = l.
Proof.
  intros ls l. rewrite setModel_assigns. split; [|auto].
  intros [H|[_ H]]; [auto|]. unfold assigns in H. destruct (lvar l); discriminate.
Qed.
Print Assumptions C04_setModel.

(** C04: getModelLiterals lists exactly the assigned literals. *)
Theorem C04_getModelLiterals : forall m l, In l (getModelLiterals m) <-> assigns m l.
Proof. exact getModelLiterals_in. Qed.
Print Assumptions C04_getModelLiterals.

(** The unconditional version ("returns false whenever a clause is unsatisfied") fails: for a
    partial result the diagnostic output reads beyond the model vector. *)
Theorem C04_short_model_refuted : exists f m,
  (exists c, In c f /\ ~ exists l, In l c /\ assigns m l) /\ checkResult f m = None.
Proof.
  exists [[mkLit 3 false]], [Some true]. split; [|reflexivity].
  exists [mkLit 3 false]. split; [left; auto|]. intros (l & [<-|[]] & H). discriminate.
Qed.
Print Assumptions C04_short_model_refuted.

Example C04_case : checkResult [[0; 3]; [2; 5]] (setModel [] [1; 3; 4; 5]) = Some true
  /\ checkResult [[0; 3]; [2; 4]] (setModel [] [1; 3; 5]) = Some false.
Proof. vm_compute. auto. Qed.

(** C07: the renaming is a bijection between the occurring variables and 0..k-1, k = nVars(). *)
Theorem C07_renaming : forall p, exists r : var -> var,
  problem (normalizeVariableNames p) = map (map (rename r)) (problem p) /\
  (forall v v', occurs (problem p) v -> occurs (problem p) v' -> r v = r v' -> v = v') /\
  (forall v, occurs (problem p) v -> r v < variables (normalizeVariableNames p)) /\
  (forall w, w < variables (normalizeVariableNames p) -> exists v, occurs (problem p) v /\ r v = w).
Proof. exact normalize_spec. Qed.
Print Assumptions C07_renaming.

(** C07: models correspond through the renaming, in both directions. *)
Theorem C07_models : forall p, exists r : var -> var,
  (forall v v', occurs (problem p) v -> occurs (problem p) v' -> r v = r v' -> v = v') /\
  (forall a, sat a (problem (normalizeVariableNames p)) <-> sat (fun v => a (r v)) (problem p)) /\
  (forall b, sat b (problem p) -> exists a, sat a (problem (normalizeVariableNames p)) /\
                                   forall v, occurs (problem p) v -> a (r v) = b v).
Proof. exact normalize_models. Qed.
Print Assumptions C07_models.

Example C07_case :
  normalizeVariableNames (mkCnf [[14; 3]; [15; 20]] 11) = mkCnf [[0; 3]; [1; 4]] 3.
Proof. vm_compute. auto. Qed.
