(** Model of Candy::Trail (src/candy/core/Trail.h:60-335).

    Simplifications: the array [trail] together with [trail_size] is the list [tr] (the used
    prefix), the array capacity [variables] is [nvt]; statistics counters are dropped.  Reads of
    [assigns] and [vardata] are total with a default; TrailProofs keeps the invariant that all
    literals are in range. *)
Require Import List Arith Bool NArith Verif.Base Verif.CNFModel Verif.Outcome.
Import ListNotations.

(** a clause reference (Clause pointer) *)
Definition cid := nat.

(** Trail.h:73-86; [vd] holds (reason, level) *)
Record trail_t := mkTrail {
  nvt : nat;
  asg : list (option bool);
  vd : list (option cid * nat);
  tr : list lit;
  qh : nat;
  lim : list nat;
  dec : list bool;
  assum : list lit }.

(** Trail.h:61-66 *)
Definition trail_new : trail_t := mkTrail 0 [] [] [] 0 [] [] [].

Definition resize {A} (n : nat) (x : A) (l : list A) : list A := firstn n l ++ repeat x (n - length l).

(** Trail.h:92-101 *)
Definition trail_init (n : nat) (t : trail_t) : trail_t :=
  if nvt t <? n then
    mkTrail n (resize n None (asg t)) (resize n (None, 0) (vd t)) (tr t) (qh t) (lim t)
            (resize n true (dec t)) (assum t)
  else t.

(** Trail.h:114-120 *)
Definition trail_reset (t : trail_t) : trail_t :=
  mkTrail (nvt t) (map (fun _ => None) (asg t)) (map (fun _ => (None, 0)) (vd t)) [] 0 []
          (dec t) (assum t).

(** Trail.h:123-129 *)
Definition setDecisionVar (v : var) (b : bool) (t : trail_t) : trail_t :=
  mkTrail (nvt t) (asg t) (vd t) (tr t) (qh t) (lim t) (set_nth v b (dec t)) (assum t).
Definition isDecisionVar (v : var) (t : trail_t) : bool := nth v (dec t) true.

(** Trail.h:131-139.  The call init(variables) in the loop has no effect, so an assumption over an
    unknown variable is stored as it is. *)
Definition setAssumptions (ls : list lit) (t : trail_t) : trail_t :=
  mkTrail (nvt t) (asg t) (vd t) (tr t) (qh t) (lim t) (dec t) ls.

(** Trail.h:199-206 *)
Definition vvalue (t : trail_t) (v : var) : option bool := nth v (asg t) None.
Definition value (t : trail_t) (l : lit) : option bool :=
  option_map (fun b => xorb b (lsign l)) (vvalue t (lvar l)).
Definition is_true (o : option bool) : bool := match o with Some true => true | _ => false end.
Definition is_false (o : option bool) : bool := match o with Some false => true | _ => false end.
Definition is_undef (o : option bool) : bool := match o with None => true | _ => false end.
(** Trail.h:208-224 *)
Definition satisfies_any (t : trail_t) (ls : list lit) : bool := existsb (fun l => is_true (value t l)) ls.
Definition falsifies_all (t : trail_t) (ls : list lit) : bool := forallb (fun l => is_false (value t l)) ls.

(** Trail.h:227-238 *)
Definition reason (t : trail_t) (v : var) : option cid := fst (nth v (vd t) (None, 0)).
Definition level (t : trail_t) (v : var) : nat := snd (nth v (vd t) (None, 0)).
Definition dlevel (t : trail_t) : nat := length (lim t).

(** Trail.h:141-147 *)
Definition hasAssumptionsNotSet (t : trail_t) : bool := dlevel t <? length (assum t).
Definition nextAssumption (t : trail_t) : lit := nth (dlevel t) (assum t) 0.

(** Trail.h:241-243 *)
Definition newDecisionLevel (t : trail_t) : trail_t :=
  mkTrail (nvt t) (asg t) (vd t) (tr t) (qh t) (lim t ++ [length (tr t)]) (dec t) (assum t).

(** Trail.h:245-248; writing behind the end of the array is UB *)
Definition set_value (l : lit) (t : trail_t) : out trail_t :=
  if length (tr t) <? nvt t then
    Ok (mkTrail (nvt t) (set_nth (lvar l) (Some (negb (lsign l))) (asg t)) (vd t) (tr t ++ [l])
                (qh t) (lim t) (dec t) (assum t))
  else Err UB.

Definition set_vd (v : var) (x : option cid * nat) (t : trail_t) : trail_t :=
  mkTrail (nvt t) (asg t) (set_nth v x (vd t)) (tr t) (qh t) (lim t) (dec t) (assum t).

(** Trail.h:250-256 *)
Definition decide (l : lit) (t : trail_t) : out trail_t :=
  t1 <- set_value l t ;; Ok (set_vd (lvar l) (None, dlevel t) t1).

(** Trail.h:258-269; the result is the returned flag and the new trail *)
Definition tpropagate (l : lit) (from : cid) (t : trail_t) : out (bool * trail_t) :=
  if is_false (value t l) then Ok (false, t)
  else t1 <- set_value l t ;; Ok (true, set_vd (lvar l) (Some from, dlevel t) t1).

(** Trail.h:271-283 *)
Definition fact (l : lit) (t : trail_t) : out (bool * trail_t) :=
  if is_false (value t l) then Ok (false, t)
  else
    let t0 := set_vd (lvar l) (None, 0) t in
    if is_true (value t0 l) then Ok (true, t0)
    else t1 <- set_value l t0 ;; Ok (true, t1).

Definition unassign (ls : list lit) (a : list (option bool)) : list (option bool) :=
  fold_left (fun a l => set_nth (lvar l) None a) ls a.

(** Trail.h:285-294 *)
Definition backtrack (lev : nat) (t : trail_t) : trail_t :=
  if lev <? dlevel t then
    let k := nth lev (lim t) 0 in
    mkTrail (nvt t) (unassign (skipn k (tr t)) (asg t)) (vd t) (firstn k (tr t))
            (if lev =? 0 then 0 else k) (firstn lev (lim t)) (dec t) (assum t)
  else t.

Definition with_qh (q : nat) (t : trail_t) : trail_t :=
  mkTrail (nvt t) (asg t) (vd t) (tr t) q (lim t) (dec t) (assum t).

(** Sets of variables or levels kept in a Stamp (C09 proves that a Stamp is such a set). *)
Definition vset := nat -> bool.
Definition vempty : vset := fun _ => false.
Definition vadd (v : nat) (s : vset) : vset := fun x => if x =? v then true else s x.
Definition vdel (v : nat) (s : vset) : vset := fun x => if x =? v then false else s x.

(** Trail.h:300-315 *)
Fixpoint lbd_loop (t : trail_t) (ls : list lit) (s : vset) (n : nat) : nat :=
  match ls with
  | [] => n
  | l :: r => let k := level t (lvar l) in
              if s k then lbd_loop t r s n else lbd_loop t r (vadd k s) (S n)
  end.
Definition computeLBD (t : trail_t) (ls : list lit) : nat := lbd_loop t ls vempty 0.
