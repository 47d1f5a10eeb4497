(** What a thread touches with its next step. *)
Require Import List Arith Bool Verif.ShareModel.
Import ListNotations.

(** [reads w t a p]: thread [t], doing [a] in [w], reads clauses in page [p] *)
Definition reads (w : world) (t : tid) (a : action) (p : page) : Prop :=
  match a with
  | AUse q => p = q
  | ACollect => In p (g_pages (w_g w))
  | ARealloc _ => g_phase (w_g w) = [] /\ In p (g_pages (w_g w))
  | _ => False
  end.
Definition is_freed (w : world) (p : page) : Prop := In p (g_freed (w_g w)).

(** thread [t] rebuilds the shared pages: between the test that everybody is ready and the end of reallocate *)
Definition rebuilding (w : world) (t : tid) : Prop := t_pc (w_t w t) = PFree \/ t_pc (w_t w t) = PRealloc.
(** thread [t] has read the shared pages and not said so yet *)
Definition collecting (w : world) (t : tid) : Prop := exists ps, t_pc (w_t w t) = PMark ps.
Definition overlap (w : world) : Prop := exists t u, rebuilding w t /\ collecting w u.

(** the states a schedule goes through *)
Fixpoint states (sch : list (tid * action)) (w : world) : list world :=
  match sch with
  | [] => [w]
  | (t, a) :: r => w :: match act t a w with Some w' => states r w' | None => [] end
  end.
