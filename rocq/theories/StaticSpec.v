(** The histories of database, static watch lists and trail that a solver goes through (as in PropSpec,
    with StaticPropagate in the place of Propagate). *)
Require Import List Arith Bool NArith.
Require Import Verif.Base Verif.CNFModel Verif.CNFSpec Verif.Outcome Verif.TrailModel Verif.DbModel Verif.PropModel
  Verif.PropSpec Verif.StaticModel.
Import ListNotations.

Inductive sreach : db -> sprop -> trail_t -> option cid -> Prop :=
| sr_init n cs d : Forall (clause_ok n) cs -> db_init n cs true db_new = Ok d ->
    sreach d (sprop_reset d) (trail_init n trail_new) None
(** a unit clause is asserted on level 0 *)
| sr_fact d s t l b t' : sreach d s t None -> dlevel t = 0 -> lvar l < nvt t -> fact l t = Ok (b, t') ->
    sreach d s t' None
(** a decision level is opened after propagation was completed *)
| sr_level d s t : sreach d s t None -> qh t = length (tr t) -> sreach d s (newDecisionLevel t) None
| sr_decide d s t l t' : sreach d s t None -> lvar l < nvt t -> value t l = None -> decide l t = Ok t' ->
    sreach d s t' None
| sr_propagate d s t k s' t' : sreach d s t None -> spropagate d s t = Ok (k, s', t') -> sreach d s' t' k
(** the LBD of clauses that took part in a conflict is re-estimated *)
| sr_reestimate d s t k cs : sreach d s t k ->
    (forall c, In c cs -> k = Some c \/ exists l, In l (tr t) /\ reason t (lvar l) = Some c) ->
    sreach (reestimate t cs d) s t k
| sr_backtrack d s t k lev : sreach d s t k -> lev < dlevel t -> sreach d s (backtrack lev t) None
(** a clause is learnt; all literals but the first are false, the second one on the current level *)
| sr_learn d s t x r lbd c d' b t' : sreach d s t None -> clause_ok (nvt t) (x :: r) ->
    value t x = None -> (forall m, In m r -> value t m = Some false) ->
    (forall y r', r = y :: r' -> level t (lvar y) = dlevel t) ->
    createClause (x :: r) lbd false d = Ok (c, d') -> tpropagate x c t = Ok (b, t') ->
    sreach d' (if 2 <? length (x :: r) then sattach d' c s else s) t' None
(** a unit clause is added to the database *)
| sr_unit d s t l lbd lem c d' : sreach d s t None -> lvar l < nvt t ->
    createClause [l] lbd lem d = Ok (c, d') -> sreach d' s t None
(** restart: clauses are removed, the database is reorganised and everything is set up again *)
| sr_restart d s t k cs : sreach d s t k ->
    let d' := reorganize (fold_left (fun d c => removeClause c d) cs d) in
    sreach d' (sprop_reset d') (trail_reset t) None
(** new variables and clauses arrive before a further solve *)
| sr_extend d s t k n cs d' : sreach d s t k -> Forall (clause_ok (max n (nvt t))) cs ->
    db_init n cs true d = Ok d' ->
    sreach d' (sprop_reset d') (trail_reset (trail_init n t)) None.

(** the watchers of clause [c] in a list *)
Definition watches_of (s : sprop) (c : cid) (q : lit) : list nat :=
  filter (fun i => cref (wat (smem s) i) =? c) (nth q (slists s) []).
