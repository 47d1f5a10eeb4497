(** The histories of database, watch lists and trail that a solver goes through, and what a
    formula, an assignment and entailment are (specification for PropProps and AnalyzeProps). *)
Require Import List Arith Bool NArith.
Require Import Verif.Base Verif.CNFModel Verif.CNFSpec Verif.Outcome Verif.TrailModel Verif.DbModel Verif.PropModel.
Import ListNotations.

(** clauses over known variables without repeated variables, as CNFProblem::readClause stores them
    (C03) *)
Definition clause_ok (n : nat) (c : list lit) : Prop :=
  NoDup (map lvar c) /\ forall l, In l c -> lvar l < n.

(** the clauses of a database *)
Definition db_formula (d : db) : formula := map (clits d) (cls d).

(** [preach d w t k]: the state (clause database, watch lists, trail) can be reached;
    [k = Some c] if the last step was a propagation that returned the conflict [c]. *)
Inductive preach : db -> watches -> trail_t -> option cid -> Prop :=
| pr_init n cs d : Forall (clause_ok n) cs -> db_init n cs true db_new = Ok d ->
    preach d (prop_reset d) (trail_init n trail_new) None
(** a unit clause is asserted on level 0 *)
| pr_fact d w t l b t' : preach d w t None -> dlevel t = 0 -> lvar l < nvt t -> fact l t = Ok (b, t') ->
    preach d w t' None
(** a decision level is opened after propagation was completed *)
| pr_level d w t : preach d w t None -> qh t = length (tr t) -> preach d w (newDecisionLevel t) None
| pr_decide d w t l t' : preach d w t None -> lvar l < nvt t -> value t l = None -> decide l t = Ok t' ->
    preach d w t' None
| pr_propagate d w t k d' w' t' : preach d w t None -> propagate d w t = Ok (k, d', w', t') ->
    preach d' w' t' k
(** the LBD of clauses that took part in a conflict is re-estimated *)
| pr_reestimate d w t k cs : preach d w t k ->
    (forall c, In c cs -> k = Some c \/ exists l, In l (tr t) /\ reason t (lvar l) = Some c) ->
    preach (reestimate t cs d) w t k
| pr_backtrack d w t k lev : preach d w t k -> lev < dlevel t -> preach d w (backtrack lev t) None
(** a clause is learnt; all literals but the first are false, the second one on the current level *)
| pr_learn d w t x r lbd c d' b t' : preach d w t None -> clause_ok (nvt t) (x :: r) ->
    value t x = None -> (forall m, In m r -> value t m = Some false) ->
    (forall y r', r = y :: r' -> level t (lvar y) = dlevel t) ->
    createClause (x :: r) lbd false d = Ok (c, d') -> tpropagate x c t = Ok (b, t') ->
    preach d' (if 2 <? length (x :: r) then attachClause d' c w else w) t' None
(** a unit clause is added to the database *)
| pr_unit d w t l lbd lem c d' : preach d w t None -> lvar l < nvt t ->
    createClause [l] lbd lem d = Ok (c, d') -> preach d' w t None
(** restart: clauses are removed, the database is reorganised and everything is set up again *)
| pr_restart d w t k cs : preach d w t k ->
    let d' := reorganize (fold_left (fun d c => removeClause c d) cs d) in
    preach d' (prop_reset d') (trail_reset t) None
(** new variables and clauses arrive before a further solve *)
| pr_extend d w t k n cs d' : preach d w t k -> Forall (clause_ok (max n (nvt t))) cs ->
    db_init n cs true d = Ok d' ->
    preach d' (prop_reset d') (trail_reset (trail_init n t)) None.
