(** IPASIR sessions in terms of the integers passed to the interface. *)
Require Import List Arith Bool NArith ZArith.
Require Import Verif.Base Verif.Outcome Verif.SolverModel Verif.IpasirModel.
Import ListNotations.
Local Open Scope Z_scope.

(** truth under an assignment of the variables 1, 2, 3, ... *)
Definition zlit (a : Z -> bool) (l : Z) : Prop := if 0 <? l then a l = true else a (- l) = false.
Definition zclause (a : Z -> bool) (c : list Z) : Prop := exists l, In l c /\ zlit a l.
Definition zsat (a : Z -> bool) (F : list (list Z)) : Prop := forall c, In c F -> zclause a c.
(** no assignment satisfies the clauses and the assumptions *)
Definition zunsat (F : list (list Z)) (As : list Z) : Prop :=
  forall a, ~ (zsat a F /\ forall l, In l As -> zlit a l).

(** calls of the interface; [CSolve O fuel] is ipasir_solve with heuristics [O] *)
Inductive call :=
| CAdd (l : Z) | CAssume (l : Z) | CSolve (O : oracle) (fuel : nat) | CVal (l : Z) | CFailed (l : Z) | CLearn (max_length : Z).

(** what a session means: the completed clauses, the clause being added and the assumptions since
    the last solve *)
Definition meaning := (list (list Z) * list Z * list Z)%type.
Definition mstep (m : meaning) (c : call) : meaning :=
  let '(F, cl, As) := m in
  match c with
  | CAdd l => if l =? 0 then (F ++ [cl], [], As) else (F, cl ++ [l], As)
  | CAssume l => (F, cl, As ++ [l])
  | CSolve _ _ => (F, cl, [])
  | _ => (F, cl, As)
  end.
Definition session (cs : list call) : meaning := fold_left mstep cs ([], [], []).
Definition clauses (cs : list call) : list (list Z) := fst (fst (session cs)).
Definition assumptions (cs : list call) : list Z := snd (session cs).

(** Contract of the caller: literals are not 0, and assumptions are made about variables that occur
    in clauses completed before (needed: C22_unknown_assumption_refuted). *)
Definition occurs (F : list (list Z)) (v : Z) : Prop := exists c l, In c F /\ In l c /\ Z.abs l = v.
Inductive legal : list call -> Prop :=
| lg_nil : legal []
| lg_add cs l : legal cs -> legal (cs ++ [CAdd l])
| lg_assume cs l : legal cs -> l <> 0 -> legal (cs ++ [CAssume l])
| lg_solve cs O fuel : legal cs -> (forall l, In l (assumptions cs) -> occurs (clauses cs) (Z.abs l)) -> legal (cs ++ [CSolve O fuel])
| lg_val cs l : legal cs -> legal (cs ++ [CVal l])
| lg_failed cs l : legal cs -> legal (cs ++ [CFailed l])
| lg_learn cs m : legal cs -> legal (cs ++ [CLearn m]).

(** executing the calls *)
Definition istep (C : cfg) (s : ips) (c : call) : out ips :=
  match c with
  | CAdd l => Ok (ipasir_add l s)
  | CAssume l => Ok (ipasir_assume l s)
  | CSolve h fuel => '(_, s') <- ipasir_solve C h fuel s ;; Ok s'
  | CVal _ => Ok s
  | CFailed l => '(_, s') <- ipasir_failed l s ;; Ok s'
  | CLearn m => Ok (ipasir_set_learn m s)
  end.
Fixpoint irun (C : cfg) (s : ips) (cs : list call) : out ips :=
  match cs with [] => Ok s | c :: r => s' <- istep C s c ;; irun C s' r end.
(** [s] is reached by the legal calls [cs] *)
Definition ireach (C : cfg) (cs : list call) (s : ips) : Prop := legal cs /\ irun C (ipasir_init C) cs = Ok s.
