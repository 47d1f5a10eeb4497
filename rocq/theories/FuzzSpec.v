(** What a user of the fuzzing program relies on (C63). *)
Require Import List Arith ZArith String Bool.
Require Import Verif.Base Verif.CNFSpec Verif.MainModel Verif.MainSpec.
Import ListNotations.
Open Scope list_scope.

(** the program is called with a file other than cert.drat that has the clauses [cs] *)
Definition fuzz_called (B : nat) (w : world) (args : list string) (cs : list (list Z)) : Prop :=
  exists f rest text, args = f :: rest /\ f <> "cert.drat"%string /\ w_files w f = Some text /\ states B (w_junk w 0) text cs.
(** [c] is the first clause that is no tautology *)
Definition first_clause (cs : list (list Z)) (c : list Z) : Prop :=
  exists pre post, cs = pre ++ c :: post /\ (forall d, In d pre -> exists z, In z d /\ In (- z)%Z d) /\ ~ exists z, In z c /\ In (- z)%Z c.
(** the clauses hold under [a], and all literals of the first one *)
Definition solution (cs : list (list Z)) (a : assignment) : Prop :=
  sat a (clauses cs) /\ forall c z, first_clause cs c -> In z c -> lit_holds a (DimacsSpec.zlit z).
