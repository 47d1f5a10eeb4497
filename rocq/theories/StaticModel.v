(** Model of Candy::StaticPropagate (src/candy/systems/propagate/StaticPropagate.h:34-181): two watched
    literals kept in watcher objects, clauses are only read.  A pointer to a watcher is an index into
    the list of the watchers allocated since the last clear(). *)
Require Import List Arith Bool NArith.
Require Import Verif.Base Verif.CNFModel Verif.Outcome Verif.TrailModel Verif.DbModel Verif.PropModel.
Import ListNotations.

(** StaticPropagate.h:35-42 *)
Record watcher := mkW { cref : cid; watch0 : lit; watch1 : lit }.
Definition wnull : watcher := mkW 0 0 0.
Definition wat (m : list watcher) (i : nat) : watcher := nth i m wnull.

(** StaticPropagate.h:48-50: the watcher objects and, for each literal, the pointers to them *)
Record sprop := mkSP { smem : list watcher; slists : list (list nat) }.

(** StaticPropagate.h:79-84 *)
Definition sattach (d : db) (c : cid) (s : sprop) : sprop :=
  match clits d c with
  | x :: y :: _ =>
    let i := length (smem s) in
    mkSP (smem s ++ [mkW c x y]) (push_at (lneg y) i (push_at (lneg x) i (slists s)))
  | _ => s
  end.

(** StaticPropagate.h:88-98: the loop over the literals of the clause *)
Fixpoint sdetach_loop (c : cid) (ls : list lit) (s : sprop) : sprop :=
  match ls with
  | [] => s
  | l :: r =>
    match find (fun i => cref (wat (smem s) i) =? c) (nth (lneg l) (slists s) []) with
    | Some i =>
      let o := wat (smem s) i in
      let other j := negb (j =? i) in
      mkSP (smem s) (filter_at (lneg (watch1 o)) other (filter_at (lneg (watch0 o)) other (slists s)))
    | None => sdetach_loop c r s
    end
  end.
(** StaticPropagate.h:86-99 *)
Definition sdetach (d : db) (c : cid) (s : sprop) : sprop := sdetach_loop c (clits d c) s.

(** StaticPropagate.h:65-72; the vector is resized to Lit(nVars, true) = 2 nVars + 1 lists *)
Definition sprop_init (d : db) (s : sprop) : sprop :=
  fold_left (fun s c => if 2 <? length (clits d c) then sattach d c s else s) (cls d)
            (mkSP (smem s) (resize (2 * nv d + 1) [] (slists s))).
(** StaticPropagate.h:60-63 *)
Definition sprop_clear : sprop := mkSP [] [].
(** StaticPropagate.h:74-77 *)
Definition sprop_reset (d : db) : sprop := sprop_init d sprop_clear.

(** StaticPropagate.h:137-144: the first literal that is not [np], not [o] and not false *)
Definition sfind (t : trail_t) (np o : lit) (ls : list lit) : option lit :=
  find (fun l => negb (l =? np) && negb (l =? o) && negb (is_false (value t l))) ls.

(** StaticPropagate.h:126-162.  [ws] is the rest of the list being traversed, [kept] its compacted
    prefix; the result is (conflict, new list, watchers, lists, trail).  Appending to the list that is
    being traversed would invalidate its iterators and is UB. *)
Fixpoint sprop_watched (a : list cobj) (p : lit) (ws kept : list nat) (m : list watcher)
  (w : list (list nat)) (t : trail_t) : out (option cid * list nat * list watcher * list (list nat) * trail_t) :=
  match ws with
  | [] => Ok (None, kept, m, w, t)
  | i :: r =>
    let g := wat m i in
    let other := if watch0 g =? lneg p then watch1 g else watch0 g in
    if is_true (value t other) then sprop_watched a p r (kept ++ [i]) m w t
    else
      match sfind t (lneg p) other (lits (nth (cref g) a cnull)) with
      | Some l =>
        if lneg l =? p then Err UB
        else sprop_watched a p r kept (set_nth i (mkW (cref g) l other) m) (push_at (lneg l) i w) t
      | None =>
        if is_false (value t other) then Ok (Some (cref g), kept ++ i :: r, m, w, t)
        else '(_, t1) <- tpropagate other (cref g) t ;; sprop_watched a p r (kept ++ [i]) m w t1
      end
  end.

(** StaticPropagate.h:164-180; propagate_binary_clauses (101-113) is the one of Propagate.h *)
Fixpoint sprop_loop (fuel : nat) (d : db) (s : sprop) (t : trail_t) : out (option cid * sprop * trail_t) :=
  match fuel with
  | 0 => Err Fuel
  | S f =>
    if qh t <? length (tr t) then
      let p := nth (qh t) (tr t) 0 in
      '(k, t1) <- prop_binary (nth p (bw d) []) (with_qh (S (qh t)) t) ;;
      match k with
      | Some c => Ok (Some c, s, t1)
      | None =>
        '(k2, ws, m1, w1, t2) <- sprop_watched (arena d) p (nth p (slists s) []) [] (smem s) (slists s) t1 ;;
        let s2 := mkSP m1 (set_nth p ws w1) in
        match k2 with
        | Some c => Ok (Some c, s2, t2)
        | None => sprop_loop f d s2 t2
        end
      end
    else Ok (None, s, t)
  end.

Definition spropagate (d : db) (s : sprop) (t : trail_t) : out (option cid * sprop * trail_t) :=
  sprop_loop (S (nvt t)) d s t.
