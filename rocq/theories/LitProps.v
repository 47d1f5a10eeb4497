(** C01 (literal encoding), C02 (lifted booleans): theorem statements only. *)
Require Import ZArith Bool List Lia Verif.Base Verif.LitModel Verif.LitProofs.
Local Open Scope Z_scope.

(** C01: for every variable index below 2^30 the encoding fits an int32, decodes to the same
    variable and sign, and [~]/[^] only flip the sign. *)
Theorem C01_encoding : forall (v : Z) (s : bool),
  0 <= v < 2 ^ 30 ->
  int32 (LitZ v s) /\ Lit_var (LitZ v s) = v /\ Lit_sign (LitZ v s) = s /\
  Lit_not (LitZ v s) = LitZ v (negb s) /\ Lit_not (Lit_not (LitZ v s)) = LitZ v s /\
  Lit_xor (LitZ v s) true = LitZ v (negb s) /\ Lit_xor (LitZ v s) false = LitZ v s.
Proof. exact lit_encoding. Qed.
Print Assumptions C01_encoding.

(** C01: equality and order.  Variables are grouped, the positive literal first. *)
Theorem C01_equality : forall v s v' s',
  Lit_eq (LitZ v s) (LitZ v' s') = true <-> v = v' /\ s = s'.
Proof. exact lit_equal. Qed.
Print Assumptions C01_equality.

Theorem C01_inequality : forall v s v' s',
  Lit_neq (LitZ v s) (LitZ v' s') = true <-> ~ (v = v' /\ s = s').
Proof. exact lit_neq. Qed.
Print Assumptions C01_inequality.

Theorem C01_order : forall v s v' s',
  Lit_lt (LitZ v s) (LitZ v' s') = true <-> (v < v' \/ (v = v' /\ s = false /\ s' = true)).
Proof. exact lit_order. Qed.
Print Assumptions C01_order.

(** Two different literals of one variable are complementary and no third integer lies between. *)
Theorem C01_adjacent : forall x y,
  Lit_lt x y = true -> Lit_var x = Lit_var y ->
  y = Lit_not x /\ forall z, ~ (Lit_lt x z = true /\ Lit_lt z y = true).
Proof. exact lit_adjacent. Qed.
Print Assumptions C01_adjacent.

(** The natural-number literals used by all other models are this encoding. *)
Theorem C01_nat_literals_agree : forall l : nat,
  Lit_var (Z.of_nat l) = Z.of_nat (lvar l) /\ Lit_sign (Z.of_nat l) = lsign l /\
  Lit_not (Z.of_nat l) = Z.of_nat (lneg l).
Proof. exact lit_nat_refine. Qed.
Print Assumptions C01_nat_literals_agree.

(** The bound 2^30 is sharp: at 2^30 the constructor's addition leaves the int32 range. *)
Theorem C01_beyond_bound_refuted : exists v, 0 <= v /\ int32 v /\ ~ int32 (LitZ v false).
Proof. exists (2 ^ 30). vm_compute. intuition discriminate. Qed.
Print Assumptions C01_beyond_bound_refuted.

Example C01_case : 0 <= 1073741823 < 2 ^ 30 /\ LitZ 1073741823 true = int32_max.
Proof. vm_compute. intuition discriminate. Qed.
Example C01_adjacent_case : Lit_lt (LitZ 7 false) (LitZ 7 true) = true /\ Lit_var (LitZ 7 false) = Lit_var (LitZ 7 true).
Proof. vm_compute. auto. Qed.

(** C02. Kleene's strong three-valued logic, on an independent three-element type. *)
Local Open Scope N_scope.
Inductive tri := T | F | U.
Definition tri_and a b := match a, b with F, _ | _, F => F | T, T => T | _, _ => U end.
Definition tri_or a b := match a, b with T, _ | _, T => T | F, F => F | _, _ => U end.
Definition tri_flip a (b : bool) := if b then match a with T => F | F => T | U => U end else a.
(** the meaning of a stored byte: 0 = true, 1 = false, 2 and 3 = undefined *)
Definition tri_of (n : N) : tri := match n with 0 => T | 1 => F | _ => U end.

Theorem C02_kleene : forall x y b, x < 4 -> y < 4 ->
  (lb_eq x y = true <-> tri_of x = tri_of y) /\
  (lb_neq x y = true <-> tri_of x <> tri_of y) /\
  tri_of (lb_xor x b) = tri_flip (tri_of x) b /\ lb_xor x b < 4 /\
  tri_of (lb_and x y) = tri_and (tri_of x) (tri_of y) /\ lb_and x y < 4 /\
  tri_of (lb_or x y) = tri_or (tri_of x) (tri_of y) /\ lb_or x y < 4.
Proof.
  intros x y b Hx Hy.
  destruct (byte4 x Hx) as [->|[->|[->| ->]]], (byte4 y Hy) as [->|[->|[->| ->]]], b;
    vm_compute; intuition (congruence || discriminate || auto).
Qed.
Print Assumptions C02_kleene.

Theorem C02_constructors : forall x,
  tri_of (lb_of_bool x) = (if x then T else F) /\ lb_of_bool x < 4 /\
  tri_of lb_True = T /\ tri_of lb_False = F /\ tri_of lb_Undef = U.
Proof. intros []; vm_compute; auto. Qed.
Print Assumptions C02_constructors.

Example C02_case : lb_and 3 1 = 1 /\ lb_or 3 0 = 0 /\ lb_eq 3 2 = true.
Proof. vm_compute. auto. Qed.
