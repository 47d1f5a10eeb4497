(** Specification for C49: histories of a solver with abstraction refinement. *)
Require Import List Arith Bool ZArith.
Require Import Verif.Base Verif.Outcome Verif.SolverModel Verif.SolverSpec Verif.PropSpec Verif.ApproxModel Verif.ApproxSpec Verif.ARModel.
Import ListNotations.

Inductive aop :=
| AInit (n : nat) (cs : list clause) (lemma : bool)
| AAssume (ls : list lit)
| ACallback (cb : option Z)
| ASolve (Os : nat -> oracle) (fuel k : nat).
(** [areach C ok F a]: a new solver over any conjectures reaches [a]; [F]: the clauses of the caller.
    The variables within one equivalence conjecture are different, and so are those of the backbones. *)
Inductive areach (C : cfg) (ok : aop -> Prop) : formula -> arsolver -> Prop :=
| ar_new_r eqs bs max hs : (forall c, In c eqs -> distinct_vars c) -> distinct_vars bs -> areach C ok [] (ar_new C eqs bs max hs)
| ar_init_r F a n cs lemma a' : areach C ok F a -> ok (AInit n cs lemma) -> Forall (clause_ok (Nat.max n (nvars (ar_in a)))) cs ->
    ar_init n cs lemma a = Ok a' -> areach C ok (F ++ cs) a'
| ar_assume_r F a ls : areach C ok F a -> ok (AAssume ls) -> (forall l, In l ls -> lvar l < nvars (ar_in a)) ->
    areach C ok F (ar_assume ls a)
| ar_callback_r F a cb : areach C ok F a -> ok (ACallback cb) -> areach C ok F (ar_callback cb a)
| ar_solve_r F a Os fuel k x a' : areach C ok F a -> ok (ASolve Os fuel k) -> ar_solve C Os fuel k a = Ok (x, a') -> areach C ok F a'.
Definition any_aop (o : aop) : Prop := True.
Definition problem_aop (o : aop) : Prop := match o with AInit _ _ lemma => lemma = true | _ => True end.
Definition loading_aop (o : aop) : Prop := match o with AInit _ _ lemma => lemma = true | ASolve _ _ _ => False | _ => True end.
