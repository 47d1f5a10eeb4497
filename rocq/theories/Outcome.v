(** Outcomes of model functions.  [Err] marks executions that have no defined C++ result or that
    the model does not follow further; it never counts as an answer of the program. *)
Inductive err :=
| Fuel     (** loop bound of the model exhausted *)
| UB       (** access out of bounds, null dereference, overflow of a fixed buffer *)
| TooLong  (** a clause of 65536 or more literals was created, see C08 *).
Inductive out (A : Type) := Ok (a : A) | Err (e : err).
Arguments Ok {A}. Arguments Err {A}.
Definition bind {A B} (m : out A) (f : A -> out B) : out B :=
  match m with Ok a => f a | Err e => Err e end.
Notation "x <- m ;; k" := (bind m (fun x => k))
  (at level 61, m at next level, right associativity).
Notation "' p <- m ;; k" := (bind m (fun x => match x with p => k end))
  (at level 61, p pattern, m at next level, right associativity).

Lemma bind_ok {A B} (m : out A) (f : A -> out B) b : bind m f = Ok b -> exists a, m = Ok a /\ f a = Ok b.
Proof. destruct m; simpl; intros H; [eauto|discriminate]. Qed.
