(** Model of Candy::Propagate (src/candy/systems/propagate/Propagate.h:56-194): binary watchers and
    two watched literals with blockers, clauses permuted in place. *)
Require Import List Arith Bool NArith.
Require Import Verif.Base Verif.CNFModel Verif.Outcome Verif.TrailModel Verif.DbModel.
Import ListNotations.

(** Propagate.h:56-63, 70: (clause, blocker) lists indexed by literal *)
Definition watches := list (list (cid * lit)).

(** Propagate.h:92-96 *)
Definition attachClause (d : db) (c : cid) (w : watches) : watches :=
  match clits d c with
  | x :: y :: _ => push_at (lneg y) (c, x) (push_at (lneg x) (c, y) w)
  | _ => w
  end.

(** Propagate.h:98-104 *)
Definition detachClause (d : db) (c : cid) (w : watches) : watches :=
  match clits d c with
  | x :: y :: _ => filter_at (lneg y) (not_clause c) (filter_at (lneg x) (not_clause c) w)
  | _ => w
  end.

(** Propagate.h:78-85; the vector is resized to Lit(nVars, true) = 2 nVars + 1 lists *)
Definition prop_init (d : db) (w : watches) : watches :=
  fold_left (fun w c => if 2 <? length (clits d c) then attachClause d c w else w) (cls d)
            (resize (2 * nv d + 1) [] w).
(** Propagate.h:87-90 *)
Definition prop_reset (d : db) : watches := prop_init d [].

(** Propagate.h:106-118 *)
Fixpoint prop_binary (ws : list (cid * lit)) (t : trail_t) : out (option cid * trail_t) :=
  match ws with
  | [] => Ok (None, t)
  | (c, o) :: r =>
    match value t o with
    | Some false => Ok (Some c, t)
    | None => '(_, t1) <- tpropagate o c t ;; prop_binary r t1
    | Some true => prop_binary r t
    end
  end.

(** Propagate.h:150-156: first position k >= 2 whose literal is not false, as an offset into the
    literals after the first two *)
Fixpoint find_watch (t : trail_t) (ls : list lit) : option nat :=
  match ls with
  | [] => None
  | l :: r => if is_false (value t l) then option_map S (find_watch t r) else Some 0
  end.

(** Propagate.h:131-175.  [ws] is the rest of the list being traversed, [kept] its compacted
    prefix; the result is (conflict, new list, clause objects, watches, trail).  Appending to the
    list that is being traversed would invalidate its iterators and is UB. *)
Fixpoint prop_watched (p : lit) (ws kept : list (cid * lit)) (a : list cobj) (w : watches)
  (t : trail_t) : out (option cid * list (cid * lit) * list cobj * watches * trail_t) :=
  match ws with
  | [] => Ok (None, kept, a, w, t)
  | (c, b) :: r =>
    if is_true (value t b) then prop_watched p r (kept ++ [(c, b)]) a w t
    else
      match lits (nth c a cnull) with
      | x :: y :: rest =>
        let '(f, s) := if x =? lneg p then (y, x) else (x, y) in
        let a1 := set_lits c (f :: s :: rest) a in
        if is_true (value t f) then prop_watched p r (kept ++ [(c, f)]) a1 w t
        else
          match find_watch t rest with
          | Some k =>
            let l := nth k rest 0 in
            if lneg l =? p then Err UB
            else prop_watched p r kept (set_lits c (f :: l :: set_nth k s rest) a1)
                              (push_at (lneg l) (c, f) w) t
          | None =>
            if is_false (value t f) then Ok (Some c, kept ++ (c, f) :: r, a1, w, t)
            else '(_, t1) <- tpropagate f c t ;; prop_watched p r (kept ++ [(c, f)]) a1 w t1
          end
      | _ => Err UB
      end
  end.

(** Propagate.h:177-193 *)
Fixpoint prop_loop (fuel : nat) (d : db) (w : watches) (t : trail_t) :
  out (option cid * db * watches * trail_t) :=
  match fuel with
  | 0 => Err Fuel
  | S f =>
    if qh t <? length (tr t) then
      let p := nth (qh t) (tr t) 0 in
      '(k, t1) <- prop_binary (nth p (bw d) []) (with_qh (S (qh t)) t) ;;
      match k with
      | Some c => Ok (Some c, d, w, t1)
      | None =>
        '(k2, ws, a, w1, t2) <- prop_watched p (nth p w []) [] (arena d) w t1 ;;
        let d2 := with_arena d a in
        let w2 := set_nth p ws w1 in
        match k2 with
        | Some c => Ok (Some c, d2, w2, t2)
        | None => prop_loop f d2 w2 t2
        end
      end
    else Ok (None, d, w, t)
  end.

Definition propagate (d : db) (w : watches) (t : trail_t) : out (option cid * db * watches * trail_t) :=
  prop_loop (S (nvt t)) d w t.
