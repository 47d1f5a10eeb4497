(** Vocabulary for C24: the histories of a trail and the branching heuristic that watches it. *)
Require Import List Arith Bool.
Require Import Verif.Base Verif.Outcome Verif.TrailModel Verif.TrailSpec Verif.HeapModel Verif.HeapSpec Verif.BranchModel.
Import ListNotations.

(** What a caller may rely on, given the result of pickBranchLit in state [t]: a literal of an
    unassigned decision variable, or none and then every decision variable is assigned. *)
Definition good_pick (t : trail_t) (r : option lit) : Prop :=
  match r with
  | Some p => lvar p < nvt t /\ value t p = None /\ isDecisionVar (lvar p) t = true
  | None => forall v, v < nvt t -> isDecisionVar v t = true -> vvalue t v <> None
  end.

(** Phases of a solver with respect to its heuristic.
    [Stale]: variables were unassigned, added or made decision variables behind the back of the
    heuristic; it must be reset before it is asked.
    [Full]: it was reset and no decision was taken from it since.
    [Search]: decisions were taken from it, and the trail is shortened only after a conflict was
    reported to it. *)
Inductive phase := Stale | Full | Search.
Definition after_op (o : trail_op) (ph : phase) : phase :=
  match ph, o with
  | Full, OpInit _ => Stale
  | Search, (OpInit _ | OpBacktrack _ | OpReset) => Stale
  | _, _ => ph
  end.

Section Histories.
Variable A : arith.

Section VSIDS.
(** [ext]: activities may be set from outside (setActivity); [okamt]: the bump amounts in use *)
Variables (ext : bool) (okamt : (var -> F A -> F A) -> Prop) (d0 : F A).

(** [vs_reach ext okamt d0 ph t b]: trail [t] and heuristic [b], constructed with decay [d0], after
    a history that ends in phase [ph]. *)
Inductive vs_reach : phase -> trail_t -> vsids A -> Prop :=
| vr_new : vs_reach Stale trail_new (vs_new A d0)
| vr_clear ph t b b' : vs_reach ph t b -> vs_clear A b = Ok b' -> vs_reach Stale trail_new b'
| vr_trail ph t b o t' : vs_reach ph t b -> trail_legal o t -> trail_exec o t = Ok t' ->
    vs_reach (after_op o ph) t' b
| vr_assume ph t b ls : vs_reach ph t b -> vs_reach ph (setAssumptions ls t) b
| vr_flag ph t b v (x : bool) : vs_reach ph t b -> vs_reach (if x then Stale else ph) (setDecisionVar v x t) b
| vr_init ph t b occ b' : vs_reach ph t b -> vs_init A occ t b = Ok b' -> vs_reach Full t b'
| vr_reset ph t b b' : vs_reach ph t b -> nvt t <= length (vs_act A b) -> vs_reset A t b = Ok b' ->
    vs_reach Full t b'
| vr_activity ph t b v x b' : vs_reach ph t b -> ext = true -> vs_setActivity A v x b = Ok b' ->
    vs_reach ph t b'
| vr_polarity ph t b v x b' : vs_reach ph t b -> vs_setPolarity A v x b = Ok b' -> vs_reach ph t b'
(* the caller may change the sign of the decision (getSignAdvice) *)
| vr_pick ph t b p q b' t' : vs_reach ph t b -> ph <> Stale -> vs_pick A t b = Ok (Some p, b') ->
    lvar q = lvar p -> decide q (newDecisionLevel t) = Ok t' -> vs_reach Search t' b'
| vr_none ph t b b' : vs_reach ph t b -> ph <> Stale -> vs_pick A t b = Ok (None, b') -> vs_reach Search t b'
| vr_conflict ph t b amount step involved bl b' : vs_reach ph t b -> ph <> Stale -> okamt amount ->
    bl < dlevel t -> (forall c l, In c involved -> In l c -> lvar l < nvt t) ->
    vs_conflict A amount step false involved bl t b = Ok b' -> vs_reach Search (backtrack bl t) b'.
End VSIDS.

(** the same for LRB *)
Inductive lr_reach : phase -> trail_t -> lrb A -> Prop :=
| lr_r_new s : lr_reach Stale trail_new (lr_new A s)
| lr_r_clear ph t b b' : lr_reach ph t b -> lr_clear A b = Ok b' -> lr_reach Stale trail_new b'
| lr_r_trail ph t b o t' : lr_reach ph t b -> trail_legal o t -> trail_exec o t = Ok t' ->
    lr_reach (after_op o ph) t' b
| lr_r_assume ph t b ls : lr_reach ph t b -> lr_reach ph (setAssumptions ls t) b
| lr_r_flag ph t b v (x : bool) : lr_reach ph t b -> lr_reach (if x then Stale else ph) (setDecisionVar v x t) b
| lr_r_init ph t b occ b' : lr_reach ph t b -> lr_init A occ t b = Ok b' -> lr_reach Full t b'
| lr_r_reset ph t b b' : lr_reach ph t b -> nvt t <= length (lr_w A b) -> lr_reset A t b = Ok b' ->
    lr_reach Full t b'
| lr_r_pick ph t b p b' t' : lr_reach ph t b -> ph <> Stale -> lr_pick A t b = Ok (Some p, b') ->
    decide p (newDecisionLevel t) = Ok t' -> lr_reach Search t' b'
| lr_r_none ph t b b' : lr_reach ph t b -> ph <> Stale -> lr_pick A t b = Ok (None, b') -> lr_reach Search t b'
| lr_r_conflict ph t b involved bl b' : lr_reach ph t b -> ph <> Stale ->
    bl < dlevel t -> (forall c l, In c involved -> In l c -> lvar l < nvt t) ->
    lr_conflict A involved bl t b = Ok b' -> lr_reach Search (backtrack bl t) b'.

(** ** Order *)
(** The operations respect the order: [>] is a strict weak order, adding a positive number makes
    nothing smaller, scaling is monotone, and what is [pos] (increments) or [dec] (decay factors)
    stays so. *)
Record ordered (pos dec : F A -> Prop) : Prop := {
  gt_irrefl : forall x, f_gt A x x = false;
  gt_trans : forall x y z, f_gt A x y = true -> f_gt A y z = true -> f_gt A x z = true;
  gt_incomp : forall x y z, f_gt A x y = false -> f_gt A y z = false -> f_gt A x z = false;
  add_up : forall x y i, pos i -> f_gt A y x = false -> f_gt A y (f_add A x i) = false;
  scale_mono : forall x y, f_gt A x y = false -> f_gt A (f_scale A x) (f_scale A y) = false;
  pos_one : pos (f_one A);
  pos_scale : forall i, pos i -> pos (f_scale A i);
  pos_decay : forall i d, pos i -> dec d -> pos (f_decay A i d);
  dec_step : forall d, dec d -> dec (f_hundredth A d) }.
End Histories.

(** ** Implicit learning *)
(** Conjectures about a problem with [size] variables: no variable occurs twice, neither in a class
    nor in two classes nor in a class and as a backbone. *)
Definition good_conjectures (size : nat) (equivs : list (list lit)) (backbones : list lit) : Prop :=
  NoDup (map lvar (concat equivs ++ backbones)) /\
  forall l, In l (concat equivs ++ backbones) -> lvar l < size.

(** [p] contradicts the conjecture [c] once the literal [l] is true: [c] (up to complementing all of
    it) contains [l] and the complement of [p] *)
Definition contradicts (c : list lit) (l p : lit) : Prop :=
  (In l c /\ In (lneg p) c) \/ (In (lneg l) c /\ In p c).

(** [adv_reach m0 m]: the advice table [m] after decisions taken with the table [m0] *)
Inductive adv_reach (A : arith) (m0 : list advice) : list advice -> Prop :=
| ar_init : adv_reach A m0 m0
| ar_pick m g1 g2 t v ready bb r b' : adv_reach A m0 m ->
    rs_pick A g1 g2 t (mkRSIL A v m ready bb) = Ok (r, b') -> adv_reach A m0 (rs_adv A b').
