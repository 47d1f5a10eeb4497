(** Histories of operations on the trail, for the statements of C13 and C18. *)
Require Import List Arith Bool Verif.Base Verif.Outcome Verif.TrailModel.
Import ListNotations.

Inductive trail_op :=
| OpInit (n : nat)
| OpNewLevel
| OpDecide (l : lit)
| OpPropagate (l : lit) (from : cid)
| OpFact (l : lit)
| OpBacktrack (k : nat)
| OpReset.

(** executing one public operation of the trail *)
Definition trail_exec (o : trail_op) (t : trail_t) : out trail_t :=
  match o with
  | OpInit n => Ok (trail_init n t)
  | OpNewLevel => Ok (newDecisionLevel t)
  | OpDecide l => decide l t
  | OpPropagate l c => '(_, t') <- tpropagate l c t ;; Ok t'
  | OpFact l => '(_, t') <- fact l t ;; Ok t'
  | OpBacktrack k => Ok (backtrack k t)
  | OpReset => Ok (trail_reset t)
  end.

(** the callers' obligations: known variables, the assertions of Trail.h:252 and 273, and no
    propagation of a literal that is already true *)
Definition trail_legal (o : trail_op) (t : trail_t) : Prop :=
  match o with
  | OpDecide l => lvar l < nvt t /\ value t l = None
  | OpPropagate l _ => lvar l < nvt t /\ value t l <> Some true
  | OpFact l => lvar l < nvt t /\ dlevel t = 0
  | _ => True
  end.

(** states after a history of legal operations on a new trail *)
Inductive trail_reach : trail_t -> Prop :=
| tr_new : trail_reach trail_new
| tr_step t o t' : trail_reach t -> trail_legal o t -> trail_exec o t = Ok t' -> trail_reach t'.

(** [within k t t']: t' is reached from t by legal operations during which the decision level stays
    above k (and the trail is not reset) *)
Inductive within (k : nat) : trail_t -> trail_t -> Prop :=
| w_refl t : k < dlevel t -> within k t t
| w_step t t1 o t2 : within k t t1 -> trail_legal o t1 -> trail_exec o t1 = Ok t2 -> k < dlevel t2 ->
    within k t t2.
