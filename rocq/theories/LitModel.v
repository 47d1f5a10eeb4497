(** Model of Var, Lit and lbool (src/candy/core/SolverTypes.h:60-195) at the level of
    machine integers.  Var::id and Lit::x are int32_t and are modelled as [Z]; signed
    overflow (undefined behaviour in C++) shows as a value outside the int32 range. *)
Require Import ZArith Bool List Verif.Base.
Local Open Scope Z_scope.

Definition int32_min : Z := -2147483648.
Definition int32_max : Z := 2147483647.
Definition int32 (x : Z) : Prop := int32_min <= x <= int32_max.

(** SolverTypes.h:104-106, [Lit(Var v, bool sign)]: x = v.id + v.id + (sign ? 1 : 0) *)
Definition LitZ (v : Z) (sign : bool) : Z := v + v + (if sign then 1 else 0).
(** SolverTypes.h:112-114, [sign()]: x & 1 *)
Definition Lit_sign (x : Z) : bool := negb (Z.land x 1 =? 0).
(** SolverTypes.h:116-118, [var()]: x >> 1 (arithmetic shift) *)
Definition Lit_var (x : Z) : Z := Z.shiftr x 1.
(** SolverTypes.h:120-124, [operator~]: x ^ 1 *)
Definition Lit_not (x : Z) : Z := Z.lxor x 1.
(** SolverTypes.h:126-130, [operator^(bool)] *)
Definition Lit_xor (x : Z) (b : bool) : Z := Z.lxor x (if b then 1 else 0).
(** SolverTypes.h:132-142, [==], [!=], [<] *)
Definition Lit_eq (x y : Z) : bool := x =? y.
Definition Lit_neq (x y : Z) : bool := negb (x =? y).
Definition Lit_lt (x y : Z) : bool := x <? y.
(** SolverTypes.h:155-156, [lit_Undef(-1,false)], [lit_Error(-1,true)] *)
Definition lit_Undef : Z := LitZ (-1) false.
Definition lit_Error : Z := LitZ (-1) true.

(** class lbool, SolverTypes.h:162-195; the byte [value] as [N]. *)
Local Open Scope N_scope.
Definition lb_True : N := 0.
Definition lb_False : N := 1.
Definition lb_Undef : N := 2.
(** SolverTypes.h:171, lbool(bool x) : value(!x) *)
Definition lb_of_bool (x : bool) : N := if x then 0 else 1.
(** C conversion bool -> int *)
Definition b2N (b : bool) : N := if b then 1 else 0.
(** C logical not of an integer *)
Definition cnot (n : N) : N := if N.eqb n 0 then 1 else 0.
(** SolverTypes.h:173-176, [operator==]; note the bit-and of the two masked values *)
Definition lb_eq (value b : N) : bool :=
  negb (N.eqb (N.lor (N.land (N.land b 2) (N.land value 2))
                     (N.land (cnot (N.land b 2)) (b2N (N.eqb value b)))) 0).
(** SolverTypes.h:177-179 *)
Definition lb_neq (value b : N) : bool := negb (lb_eq value b).
(** SolverTypes.h:180-182 *)
Definition lb_xor (value : N) (b : bool) : N :=
  if N.eqb value 2 then lb_Undef else N.land (N.lxor value (b2N b)) 255.
(** SolverTypes.h:184-188; [sel] is truncated to uint8_t *)
Definition lb_sel (value b : N) : N := N.land (N.lor (N.shiftl value 1) (N.shiftl b 3)) 255.
Definition lb_and (value b : N) : N := N.land (N.shiftr 0xF7F755F4 (lb_sel value b)) 3.
(** SolverTypes.h:190-194 *)
Definition lb_or (value b : N) : N := N.land (N.shiftr 0xFCFCF400 (lb_sel value b)) 3.
