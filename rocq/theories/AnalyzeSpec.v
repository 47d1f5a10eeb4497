(** The states of the search loop of Solver.h:352-422 between restarts (specification for
    AnalyzeProps): conflicts are analysed, the learnt clause is stored and asserted. *)
Require Import List Arith Bool NArith.
Require Import Verif.Base Verif.CNFModel Verif.Outcome Verif.TrailModel Verif.DbModel Verif.PropModel Verif.PropSpec
  Verif.AnalyzeModel.
Import ListNotations.

(** [areach d w t k]: like [preach], but a decision level starts with its only decision, facts are
    unit clauses of the database and clauses are learnt by conflict analysis. *)
Inductive areach : db -> watches -> trail_t -> option cid -> Prop :=
| ar_init n cs d : Forall (clause_ok n) cs -> db_init n cs true db_new = Ok d ->
    areach d (prop_reset d) (trail_init n trail_new) None
(** Solver.h:201-205: a unit clause becomes a fact *)
| ar_fact d w t c l b t' : areach d w t None -> dlevel t = 0 -> In c (cls d) -> clits d c = [l] ->
    fact l t = Ok (b, t') -> areach d w t' None
(** Solver.h:214-219: a literal of level 0 becomes a unit clause *)
| ar_unit d w t l c d' : areach d w t None -> dlevel t = 0 -> value t l = Some true ->
    createClause [l] 0 false d = Ok (c, d') -> areach d' w t None
(** Solver.h:394-397: a level without decision for an assumption that is already true *)
| ar_level d w t : areach d w t None -> qh t = length (tr t) -> areach d w (newDecisionLevel t) None
| ar_decide d w t l t' : areach d w t None -> qh t = length (tr t) -> lvar l < nvt t -> value t l = None ->
    decide l (newDecisionLevel t) = Ok t' -> areach d w t' None
| ar_propagate d w t k d' w' t' : areach d w t None -> propagate d w t = Ok (k, d', w', t') ->
    areach d' w' t' k
(** Solver.h:361-384 *)
| ar_learn d w t c an d1 c' d' b t' : areach d w t (Some c) -> 0 < dlevel t ->
    handle_conflict d t c = Ok (an, d1) ->
    createClause (an_learnt an) (N.of_nat (an_lbd an)) false d1 = Ok (c', d') ->
    tpropagate (hd 0 (an_learnt an)) c' (backtrack (an_level an) t) = Ok (b, t') ->
    areach d' (if 2 <? length (an_learnt an) then attachClause d' c' w else w) t' None
| ar_restart d w t k cs : areach d w t k ->
    let d' := reorganize (fold_left (fun d c => removeClause c d) cs d) in
    areach d' (prop_reset d') (trail_reset t) None
| ar_extend d w t k n cs d' : areach d w t k -> Forall (clause_ok (max n (nvt t))) cs ->
    db_init n cs true d = Ok d' ->
    areach d' (prop_reset d') (trail_reset (trail_init n t)) None.
