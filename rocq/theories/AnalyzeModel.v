(** Model of Candy::ConflictAnalysis (src/candy/systems/learning/ConflictAnalysis.h:55-293).
    Stamps are modelled by the sets they represent (C09). *)
Require Import List Arith Bool NArith.
Require Import Verif.Base Verif.CNFModel Verif.Outcome Verif.TrailModel Verif.DbModel.
Import ListNotations.

(** ConflictAnalysis.h:70-72 *)
Definition abstractLevel (t : trail_t) (v : var) : N := N.shiftl 1 (N.of_nat (level t v) mod 64).

(** ConflictAnalysis.h:86-101: the loop over the literals of one reason clause; [None] is the early
    exit with result false. *)
Fixpoint lr_lits (t : trail_t) (absl : N) (ls : list lit) (st : vset) (stack clear : list var) :
  option (vset * list var * list var) :=
  match ls with
  | [] => Some (st, stack, clear)
  | l :: r =>
    let v := lvar l in
    if negb (st v) && (0 <? level t v) then
      match reason t v with
      | Some _ =>
        if (N.land (abstractLevel t v) absl =? 0)%N then None
        else lr_lits t absl r (vadd v st) (v :: stack) (v :: clear)
      | None => None
      end
    else lr_lits t absl r st stack clear
  end.

(** ConflictAnalysis.h:76-105 litRedundant, main loop; [None] inside is "return false".  The undo
    of the stamps made since the call is done by returning to the stamps of the call. *)
Fixpoint lr_loop (fuel : nat) (d : db) (t : trail_t) (absl : N) (st : vset) (stack clear : list var) :
  out (option vset) :=
  match fuel with
  | 0 => Err Fuel
  | S f =>
    match stack with
    | [] => Ok (Some st)
    | v :: rest =>
      match reason t v with
      | None => Err UB
      | Some c =>
        match lr_lits t absl (clits d c) st rest clear with
        | None => Ok None
        | Some (st', stack', clear') => lr_loop f d t absl st' stack' clear'
        end
      end
    end
  end.
Definition litRedundant (d : db) (t : trail_t) (absl : N) (l : lit) (st : vset) : out (option vset) :=
  lr_loop (S (S (nvt t))) d t absl st [lvar l] [].

(** ConflictAnalysis.h:116-126: all literals but the first *)
Fixpoint min_loop (d : db) (t : trail_t) (absl : N) (ls : list lit) (st : vset) (acc : list lit) :
  out (list lit) :=
  match ls with
  | [] => Ok acc
  | l :: r =>
    match reason t (lvar l) with
    | None => min_loop d t absl r st (acc ++ [l])
    | Some _ =>
      o <- litRedundant d t absl l st ;;
      match o with
      | Some st' => min_loop d t absl r st' acc
      | None => min_loop d t absl r st (acc ++ [l])
      end
    end
  end.
(** ConflictAnalysis.h:107-128 *)
Definition minimization (d : db) (t : trail_t) (learnt : list lit) (st : vset) : out (list lit) :=
  match learnt with
  | [] => Ok []
  | l0 :: r =>
    let absl := fold_left (fun a l => N.lor a (abstractLevel t (lvar l))) r 0%N in
    min_loop d t absl r st [l0]
  end.

(** ConflictAnalysis.h:133-148 *)
Definition minimizationBinary (d : db) (t : trail_t) (learnt : list lit) : list lit :=
  match learnt with
  | [] => []
  | l0 :: r =>
    let st := fold_left (fun s (x : cid * lit) => if is_true (value t (snd x)) then vadd (lvar (snd x)) s else s)
                        (nth (lneg l0) (bw d) []) vempty in
    l0 :: filter (fun l => negb (st (lvar l))) r
  end.

(** ConflictAnalysis.h:177-189: literals of one clause; [asserted] is the literal resolved upon *)
Fixpoint an_lits (t : trail_t) (asserted : option lit) (ls : list lit) (learnt : list lit) (st : vset)
  (pathC : nat) : list lit * vset * nat :=
  match ls with
  | [] => (learnt, st, pathC)
  | l :: r =>
    let v := lvar l in
    if match asserted with Some a => a =? l | None => false end then an_lits t asserted r learnt st pathC
    else if st v then an_lits t asserted r learnt st pathC
    else
      let st' := vadd v st in
      if dlevel t <=? level t v then an_lits t asserted r learnt st' (S pathC)
      else if 0 <? level t v then an_lits t asserted r (learnt ++ [l]) st' pathC
      else an_lits t asserted r learnt st' pathC
  end.

(** ConflictAnalysis.h:192-194: the iterator is at trail position [i]-1 (i = 0: past the end) *)
Fixpoint scan (t : trail_t) (st : vset) (i : nat) : out nat :=
  match i with
  | 0 => Err UB
  | S j => if st (lvar (nth j (tr t) 0)) then Ok i else scan t st j
  end.

(** ConflictAnalysis.h:167-201.  Result: learnt clause (asserting literal first), stamps, involved
    clauses.  pathC may become -1 in the source when no literal of the current level occurs; the
    loop ends in both cases. *)
Fixpoint an_loop (fuel : nat) (d : db) (t : trail_t) (confl : option cid) (asserted : option lit)
  (learnt : list lit) (st : vset) (pathC i : nat) (inv : list cid) : out (list lit * vset * list cid) :=
  match fuel with
  | 0 => Err Fuel
  | S f =>
    match confl with
    | None => Err UB
    | Some c =>
      let '(learnt', st', pathC') := an_lits t asserted (clits d c) learnt st pathC in
      i' <- scan t st' i ;;
      let a := nth (pred i') (tr t) 0 in
      let st'' := vdel (lvar a) st' in
      if 1 <? pathC' then
        an_loop f d t (reason t (lvar a)) (Some a) learnt' st'' (pred pathC') i' (inv ++ [c])
      else Ok (lneg a :: learnt', st'', inv ++ [c])
    end
  end.

(** ConflictAnalysis.h:167-209 *)
Definition analyze (d : db) (t : trail_t) (confl : cid) : out (list lit * list cid) :=
  '(learnt, st, inv) <- an_loop (S (length (tr t))) d t (Some confl) None [] vempty 0 (length (tr t)) [] ;;
  m <- minimization d t learnt st ;;
  Ok (minimizationBinary d t m, inv).

(** ConflictAnalysis.h:237-245: move a literal of the highest level to position 1 *)
Fixpoint bt_swap (t : trail_t) (m : lit) (rest : list lit) : lit * list lit :=
  match rest with
  | [] => (m, [])
  | x :: r =>
    if level t (lvar m) <? level t (lvar x)
    then let '(m', r') := bt_swap t x r in (m', m :: r')
    else let '(m', r') := bt_swap t m r in (m', x :: r')
  end.

(** AnalysisResult, ClauseDatabase.h:37-55 *)
Record analysis := mkAn { an_learnt : list lit; an_involved : list cid; an_lbd : nat; an_level : nat }.

(** ConflictAnalysis.h:228-250 *)
Definition handle_conflict (d : db) (t : trail_t) (confl : cid) : out (analysis * db) :=
  '(learnt, inv) <- analyze d t confl ;;
  let lbd := computeLBD t learnt in
  let '(learnt', bt) :=
    match learnt with
    | l0 :: l1 :: r => let '(m, r') := bt_swap t l1 r in (l0 :: m :: r', level t (lvar m))
    | _ => (learnt, 0)
    end in
  Ok (mkAn learnt' inv lbd bt, reestimate t inv d).

(** ConflictAnalysis.h:267-281: trail positions n-1 .. trail_lim[0] *)
Fixpoint af_loop (d : db) (t : trail_t) (k : nat) (st : vset) (acc : list lit) : list lit :=
  match k with
  | 0 => acc
  | S i =>
    if i <? nth 0 (lim t) 0 then acc
    else
      let l := nth i (tr t) 0 in
      let x := lvar l in
      if st x then
        match reason t x with
        | None => af_loop d t i (vdel x st) (acc ++ [lneg l])
        | Some c =>
          let st' := fold_left (fun s m => if 0 <? level t (lvar m) then vadd (lvar m) s else s) (clits d c) st in
          af_loop d t i (vdel x st') acc
        end
      else af_loop d t i st acc
  end.
(** ConflictAnalysis.h:260-288 *)
Definition analyzeFinal (d : db) (t : trail_t) (p : lit) : list lit :=
  if 0 <? dlevel t then af_loop d t (length (tr t)) (vadd (lvar p) vempty) [p] else [p].
