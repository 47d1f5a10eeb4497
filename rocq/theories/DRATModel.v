(** Model of the proof checker Candy::DRATChecker (src/candy/core/DRATChecker.cc:35-187) on parsed
    proof lines (parsing the file: DimacsModel.v).  Statistics and the certificate that the database of the checker
    writes itself are not modelled separately. *)
Require Import List Arith Bool NArith.
Require Import Verif.Base Verif.CNFModel Verif.Outcome Verif.TrailModel Verif.DbModel Verif.PropModel.
Import ListNotations.

(** DRATChecker.h:36-46 *)
Record chk := mkChk { k_d : db; k_t : trail_t; k_w : watches; k_occ : list (list cid); k_del : nat }.

(** occurences[lit].push_back(clause) for the literals of the clause (DRATChecker.cc:45-47) *)
Definition occ_add (d : db) (occ : list (list cid)) (c : cid) : list (list cid) :=
  fold_left (fun o l => push_at l c o) (clits d c) occ.
Definition occ_all (d : db) : list (list cid) := fold_left (occ_add d) (cls d) (repeat [] (2 * nv d)).

(** trail.fact(clause->first()) for unit clauses; the result is ignored (DRATChecker.cc:49-51) *)
Fixpoint chk_facts (d : db) (cs : list cid) (t : trail_t) : out trail_t :=
  match cs with
  | [] => Ok t
  | c :: r => match clits d c with
              | [l] => '(_, t1) <- fact l t ;; chk_facts d r t1
              | _ => chk_facts d r t
              end
  end.

(** DRATChecker.cc:37-53 for a problem with [n] variables and clauses [cs] *)
Definition chk_new (n : nat) (cs : list (list lit)) : out chk :=
  d <- db_init n cs true db_new ;;
  t <- chk_facts d (cls d) (trail_init (nv d) trail_new) ;;
  Ok (mkChk d t (prop_init d []) (occ_all d) 0).

(** DRATChecker.cc:113-122; [pv] is None for lit_Undef *)
Definition is_pivot (pv : option lit) (l : lit) : bool := match pv with Some p => l =? p | None => false end.
Fixpoint asymm_decide (pv : option lit) (ls : list lit) (t : trail_t) : out (bool * trail_t) :=
  match ls with
  | [] => Ok (false, t)
  | l :: r =>
    if is_pivot pv l then asymm_decide pv r t
    else if is_false (value t (lneg l)) then Ok (true, t)
    else if is_true (value t (lneg l)) then asymm_decide pv r t
    else t1 <- decide (lneg l) (newDecisionLevel t) ;; asymm_decide pv r t1
  end.
(** DRATChecker.cc:109-124 *)
Definition check_asymm (ls : list lit) (pv : option lit) (s : chk) : out (bool * chk) :=
  if empt (k_d s) then Ok (true, s)
  else
    '(b, t) <- asymm_decide pv ls (k_t s) ;;
    if b then Ok (true, mkChk (k_d s) t (k_w s) (k_occ s) (k_del s))
    else
      '(k, d, w, t1) <- propagate (k_d s) (k_w s) t ;;
      Ok (match k with Some _ => true | None => false end, mkChk d t1 w (k_occ s) (k_del s)).

Definition chk_backtrack (lev : nat) (s : chk) : chk :=
  mkChk (k_d s) (backtrack lev (k_t s)) (k_w s) (k_occ s) (k_del s).

(** DRATChecker.cc:135-139: the clauses with the negated pivot; [b] is the variable conflict *)
Fixpoint rat_clauses (lev : nat) (p : lit) (cs : list cid) (b : bool) (s : chk) : out (bool * chk) :=
  match cs with
  | [] => Ok (b, s)
  | c :: r =>
    if isDeleted (k_d s) c then rat_clauses lev p r b s
    else
      '(b1, s1) <- check_asymm (clits (k_d s) c) (Some (lneg p)) s ;;
      if b1 then rat_clauses lev p r true (chk_backtrack lev s1) else Ok (false, chk_backtrack lev s1)
  end.
(** DRATChecker.cc:132-140 *)
Fixpoint rat_pivots (lev : nat) (ps : list lit) (b : bool) (s : chk) : out (bool * chk) :=
  match ps with
  | [] => Ok (b, s)
  | p :: r =>
    if b then Ok (true, s)
    else '(b1, s1) <- rat_clauses lev p (nth (lneg p) (k_occ s) []) false s ;; rat_pivots lev r b1 s1
  end.

(** DRATChecker.cc:126-157.  A literal of an unknown variable indexes the arrays of the trail and
    the occurence lists behind their end. *)
Definition check_clause_add (ls : list lit) (s : chk) : out (bool * chk) :=
  if forallb (fun l => lvar l <? nv (k_d s)) ls then
    '(b, s1) <- check_asymm ls None s ;;
    '(b2, s2) <- rat_pivots (dlevel (k_t s1)) ls b s1 ;;
    let s3 := chk_backtrack 0 s2 in
    if b2 then
      '(c, d) <- createClause ls 0 false (k_d s3) ;;
      let w := if 2 <? length (clits d c) then attachClause d c (k_w s3) else k_w s3 in
      let occ := occ_add d (k_occ s3) c in
      match clits d c with
      | [l] =>
        '(ok, t) <- fact l (k_t s3) ;;
        Ok (true, mkChk (if ok then d else emptyClause d) t w occ (k_del s3))
      | _ => Ok (true, mkChk d (k_t s3) w occ (k_del s3))
      end
    else Ok (false, s3)
  else Err UB.

(** DRATChecker.cc:177-187 *)
Definition cleanup_deleted (s : chk) : chk :=
  let d := reorganize (k_d s) in mkChk d (k_t s) (prop_reset d) (occ_all d) (k_del s).

(** DRATChecker.cc:159-175 *)
Definition is_match (d : db) (ls : list lit) (c : cid) : bool :=
  (length ls =? length (clits d c)) && forallb (fun l => existsb (Nat.eqb l) (clits d c)) (tl ls).
Definition check_clause_remove (ls : list lit) (s : chk) : out chk :=
  match ls with
  | x :: _ :: _ =>
    if x <? length (k_occ s) then
      match find (is_match (k_d s) ls) (nth x (k_occ s) []) with
      | None => Ok s
      | Some c =>
        let d := removeClause c (k_d s) in
        let w := if 2 <? length (clits d c) then detachClause d c (k_w s) else k_w s in
        let s1 := mkChk d (k_t s) w (k_occ s) (S (k_del s)) in
        Ok (if length (cls d) <? k_del s1 * 10 then cleanup_deleted s1 else s1)
      end
    else Err UB
  | _ => Ok s
  end.

(** DRATChecker.cc:77-107 on parsed lines ([CAdd]/[CDel], DbModel.v) *)
Fixpoint check_lines (ls : list cline) (s : chk) : out bool :=
  match ls with
  | [] => Ok (empt (k_d s))
  | CDel c :: r => s1 <- check_clause_remove c s ;; check_lines r s1
  | CAdd c :: r => '(b, s1) <- check_clause_add c s ;; if b then check_lines r s1 else Ok false
  end.
(** DRATChecker.cc:61-69 *)
Definition check_proof (n : nat) (cs : list (list lit)) (proof : list cline) : out bool :=
  s <- chk_new n cs ;; if empt (k_d s) then Ok true else check_lines proof s.
