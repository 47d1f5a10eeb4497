(** Model of the simplification engine: Candy::SubsumptionClause, SubsumptionClauseDatabase,
    Subsumption, VariableElimination and AsymmetricVariableReduction
    (src/candy/simplification/*.h).

    Wrappers (SubsumptionClause objects) are named by their index in [subs]; [None] is a wrapper
    whose clause pointer was set to null.  Dereferencing a null wrapper is UB.  The paged Memory that
    holds the wrappers is a list.  Accesses to the occurrence lists are total here; that all
    variables are in range is an invariant (SimpProofs). *)
Require Import List Arith Bool NArith.
Require Import Verif.Base Verif.CNFModel Verif.Outcome Verif.TrailModel Verif.DbModel Verif.PropModel.
Import ListNotations.

(** ** SubsumptionClause *)

(** SubsumptionClause.h:33-38; the word is below 2^64 since the shift is at most 63 *)
Definition abstraction (ls : list lit) : N :=
  fold_left (fun a l => N.lor a (N.shiftl 1 (N.of_nat (lvar l) mod 64))) ls 0%N.

(** the three kinds of results of subsumes: lit_Error, lit_Undef, a literal *)
Inductive sub_res := SError | SUndef | SLit (l : lit).

(** SubsumptionClause.h:128-138: search for c or ~c in the other clause; [ret] is [None] for
    lit_Undef; the result [None] is "return lit_Error" *)
Fixpoint sub_find (ret : option lit) (c : lit) (ds : list lit) : option (option lit) :=
  match ds with
  | [] => None
  | d :: r =>
    if c =? d then Some ret
    else match ret with
         | None => if c =? lneg d then Some (Some c) else sub_find ret c r
         | Some _ => sub_find ret c r
         end
  end.
Fixpoint sub_loop (ret : option lit) (cs ds : list lit) : sub_res :=
  match cs with
  | [] => match ret with None => SUndef | Some l => SLit l end
  | c :: r => match sub_find ret c ds with None => SError | Some ret' => sub_loop ret' r ds end
  end.
(** SubsumptionClause.h:124-145.  The abstraction of a wrapper is always that of its clause (it is
    recomputed by reset), so it is computed here from the literals.  a & ~b is [N.ldiff a b]. *)
Definition subsumes (cs ds : list lit) : sub_res :=
  if ((N.ldiff (abstraction cs) (abstraction ds) =? 0)%N && (length cs <=? length ds))
  then sub_loop None cs ds else SError.

(** ** SubsumptionClauseDatabase *)

(** SubsumptionClauseDatabase.h:38-39 *)
Record sdb := mkS { subs : list (option cid); occ : list (list nat) }.

(** SubsumptionClauseDatabase.h:41-45 *)
Definition add_occ (i : nat) (ls : list lit) (o : list (list nat)) : list (list nat) :=
  fold_left (fun o l => push_at (lvar l) i o) ls o.
Definition sub_add (c : cid) (ls : list lit) (s : sdb) : sdb :=
  mkS (subs s ++ [Some c]) (add_occ (length (subs s)) ls (occ s)).
(** SubsumptionClauseDatabase.h:54-62; finalize (64-67) leaves both vectors empty, so init always
    starts from empty ones *)
Definition sdb_init (d : db) : sdb :=
  fold_left (fun s c => sub_add c (clits d c) s) (cls d) (mkS [] (repeat [] (nv d))).
(** SubsumptionClauseDatabase.h:69-75; SubsumptionClause.h:92-94 *)
Definition wclause (s : sdb) (i : nat) : option cid := nth i (subs s) None.
Definition live (s : sdb) (i : nat) : bool := match wclause s i with Some _ => true | None => false end.
Definition sdb_cleanup (s : sdb) : sdb := mkS (subs s) (map (filter (live s)) (occ s)).
(** SubsumptionClauseDatabase.h:77-87 *)
Definition occs (s : sdb) (v : var) : list nat := nth v (occ s) [].
Definition numOcc (s : sdb) (v : var) : nat := length (occs s v).

(** SubsumptionClauseDatabase.h:99-106 *)
Definition sub_create (ls : list lit) (lbd : N) (d : db) (s : sdb) : out (nat * db * sdb) :=
  '(c, d1) <- createClause ls lbd false d ;;
  Ok (length (subs s), d1, sub_add c ls s).
(** SubsumptionClauseDatabase.h:108-111 *)
Definition sub_remove (i : nat) (d : db) (s : sdb) : out (db * sdb) :=
  match wclause s i with
  | None => Err UB
  | Some c => Ok (removeClause c d, mkS (set_nth i None (subs s)) (occ s))
  end.
(** SubsumptionClauseDatabase.h:113-118 *)
Definition sub_strengthen (i : nat) (l : lit) (d : db) (s : sdb) : out (db * sdb) :=
  match wclause s i with
  | None => Err UB
  | Some c =>
    '(c', d1) <- strengthenClause c l d ;;
    Ok (d1, mkS (set_nth i (Some c') (subs s)) (filter_at (lvar l) (fun j => negb (j =? i)) (occ s)))
  end.

Definition wlits (d : db) (s : sdb) (i : nat) : list lit :=
  match wclause s i with Some c => clits d c | None => [] end.

(** ** Subsumption *)

(** Subsumption.h:65-67 *)
Record scnt := mkCnt { nDuplicates : nat; nSubsumed : nat; nStrengthened : nat }.
Definition cnt0 : scnt := mkCnt 0 0 0.
(** Subsumption.h:95-97 *)
Definition sub_nTouched (n : scnt) : nat := nSubsumed n + nStrengthened n.

(** Subsumption.h:101-120, the loop over the copied occurrence list; the flag is the returned value *)
Fixpoint unit_loop (i : nat) (unit : lit) (os : list nat) (d : db) (s : sdb) : out (bool * db * sdb) :=
  match os with
  | [] => Ok (true, d, s)
  | o :: r =>
    if negb (o =? i) && live s o then
      if existsb (Nat.eqb unit) (wlits d s o) then
        '(d1, s1) <- sub_remove o d s ;; unit_loop i unit r d1 s1
      else if length (wlits d s o) =? 1 then Ok (false, d, s)
      else '(d1, s1) <- sub_strengthen o (lneg unit) d s ;; unit_loop i unit r d1 s1
    else unit_loop i unit r d s
  end.
Definition unit_resolution (i : nat) (d : db) (s : sdb) : out (bool * db * sdb) :=
  match wlits d s i with
  | [] => Err UB
  | unit :: _ => unit_loop i unit (occs s (lvar unit)) d s
  end.

(** std::min_element of Subsumption.h:126-128: the first literal with the least number of occurrences *)
Fixpoint min_occ (s : sdb) (best : lit) (ls : list lit) : lit :=
  match ls with
  | [] => best
  | l :: r => if numOcc s (lvar l) <? numOcc s (lvar best) then min_occ s l r else min_occ s best r
  end.

(** what the loop of Subsumption.h:132-166 ends with: completed, "return subsume(occurence)",
    "return false" *)
Inductive scan_end := ScDone | ScRec (o : nat) | ScFail.

Section Heuristics.
(** comparison of clause addresses, Subsumption.h:137 *)
Variable ptr_lt : db -> cid -> cid -> bool.

(** Subsumption.h:132-166.  [i0] is [subsumption_clause], [i] the wrapper [clause]. *)
Fixpoint sub_scan (i0 i : nat) (os : list nat) (d : db) (s : sdb) (n : scnt) :
  out (scan_end * db * sdb * scnt) :=
  match os with
  | [] => Ok (ScDone, d, s, n)
  | o :: r =>
    match (if o =? i then None else wclause s o) with
    | None => sub_scan i0 i r d s n
    | Some co =>
      match wclause s i with
      | None => Err UB
      | Some ci =>
        match subsumes (clits d ci) (clits d co) with
        | SError => sub_scan i0 i r d s n
        | SUndef =>
          if (length (clits d ci) =? length (clits d co)) &&
             ((cwt d ci <? cwt d co)%N || ((cwt d ci =? cwt d co)%N && ptr_lt d ci co))
          then
            '(d1, s1) <- sub_remove o d s ;;
            sub_scan i0 i r d1 s1 (mkCnt (S (nDuplicates n)) (nSubsumed n) (nStrengthened n))
          else
            let n1 := mkCnt (nDuplicates n) (S (nSubsumed n)) (nStrengthened n) in
            if isPersistent d co && isLearnt d ci then
              '(i1, d1, s1) <- sub_create (clits d ci) 0 d s ;;
              '(d2, s2) <- sub_remove i0 d1 s1 ;;
              '(d3, s3) <- sub_remove o d2 s2 ;;
              sub_scan i0 i1 r d3 s3 n1
            else
              '(d1, s1) <- sub_remove o d s ;;
              sub_scan i0 i r d1 s1 n1
        | SLit l =>
          let n1 := mkCnt (nDuplicates n) (nSubsumed n) (S (nStrengthened n)) in
          if 1 <? length (clits d co) then
            '(d1, s1) <- sub_strengthen o (lneg l) d s ;; Ok (ScRec o, d1, s1, n1)
          else Ok (ScFail, d, s, n1)
        end
      end
    end
  end.

(** Subsumption.h:122-169 *)
Fixpoint subsume_clause (fuel : nat) (i : nat) (d : db) (s : sdb) (n : scnt) : out (bool * db * sdb * scnt) :=
  match fuel with
  | 0 => Err Fuel
  | S f =>
    match wlits d s i with
    | [] => Err UB
    | l0 :: r =>
      let best := min_occ s l0 r in
      '(e, d1, s1, n1) <- sub_scan i i (occs s (lvar best)) d s n ;;
      match e with
      | ScDone => Ok (true, d1, s1, n1)
      | ScFail => Ok (false, d1, s1, n1)
      | ScRec o => subsume_clause f o d1 s1 n1
      end
    end
  end.

(** total number of literals of the wrapped clauses: bounds the recursion *)
Definition sub_size (d : db) (s : sdb) : nat :=
  fold_right (fun (o : option cid) a => match o with Some c => length (clits d c) + a | None => a end) 0 (subs s).

(** Subsumption.h:73-93; [is] are the wrappers the iteration visits *)
Fixpoint subsume_list (is : list nat) (d : db) (s : sdb) (n : scnt) : out (bool * db * sdb * scnt) :=
  match is with
  | [] => Ok (true, d, s, n)
  | i :: r =>
    match wclause s i with
    | None => subsume_list r d s n
    | Some c =>
      '(b, d1, s1, n1) <-
        (if length (clits d c) =? 1
         then '(b, d1, s1) <- unit_resolution i d s ;; Ok (b, d1, s1, n)
         else subsume_clause (S (sub_size d s)) i d s n) ;;
      if b then subsume_list r d1 s1 n1 else Ok (false, d1, s1, n1)
    end
  end.
(** the iteration runs over the wrappers that exist at its start: Memory.h:204-236 fixes the end of
    the page when the page is entered (all wrappers on one page of 32 MB) *)
Definition subsume_all (d : db) (s : sdb) : out (bool * db * sdb * scnt) :=
  subsume_list (seq 0 (length (subs s))) d s cnt0.
End Heuristics.

(** ** std::sort *)
(** The order of equivalent elements is not specified: [cand] is taken if it is a sorted
    permutation, so every outcome allowed by std::sort is covered. *)
Fixpoint ins_by (lt : nat -> nat -> bool) (x : nat) (l : list nat) : list nat :=
  match l with [] => [x] | y :: r => if lt y x then y :: ins_by lt x r else x :: l end.
Definition isort_by (lt : nat -> nat -> bool) (l : list nat) : list nat := fold_right (ins_by lt) [] l.
Fixpoint sorted_by (lt : nat -> nat -> bool) (l : list nat) : bool :=
  match l with
  | [] => true
  | x :: r => match r with [] => true | y :: _ => negb (lt y x) && sorted_by lt r end
  end.
Definition same_elems (l m : list nat) : bool :=
  forallb (fun x => count_occ Nat.eq_dec l x =? count_occ Nat.eq_dec m x) (l ++ m).
Definition std_sort (lt : nat -> nat -> bool) (cand l : list nat) : list nat :=
  if same_elems cand l && sorted_by lt cand then cand else isort_by lt l.

(** ** VariableElimination *)

(** VariableElimination.h:59-61: eliminated variables in order, their clauses, frozen flags *)
Record ve := mkVE { ev : list var; ec : list (list clause); fz : list bool }.
Definition ve_new : ve := mkVE [] [] [].

(** VariableElimination.h:263-292 *)
Fixpoint merge_q (v : var) (ps qs : list lit) (acc : list lit) : option (list lit) :=
  match qs with
  | [] => Some acc
  | q :: r =>
    if lvar q =? v then merge_q v ps r acc
    else match find (fun p => lvar p =? lvar q) ps with
         | None => merge_q v ps r (acc ++ [q])
         | Some p => if p =? lneg q then None else merge_q v ps r acc
         end
  end.
Definition merge (ps0 qs0 : list lit) (v : var) : option (list lit) :=
  let smallest := length ps0 <? length qs0 in
  let ps := if smallest then qs0 else ps0 in
  let qs := if smallest then ps0 else qs0 in
  match merge_q v ps qs [] with
  | None => None
  | Some acc => Some (acc ++ filter (fun p => negb (lvar p =? v)) ps)
  end.

(** VariableElimination.h:294-318 *)
Fixpoint merge_size_q (v : var) (ps qs : list lit) (n : nat) : option nat :=
  match qs with
  | [] => Some n
  | q :: r =>
    if lvar q =? v then merge_size_q v ps r n
    else match find (fun p => lvar p =? lvar q) ps with
         | None => merge_size_q v ps r (S n)
         | Some p => if p =? lneg q then None else merge_size_q v ps r n
         end
  end.
Definition merge_size (ps0 qs0 : list lit) (v : var) : option nat :=
  let smallest := length ps0 <? length qs0 in
  let ps := if smallest then qs0 else ps0 in
  let qs := if smallest then ps0 else qs0 in
  merge_size_q v ps qs (length ps - 1).

Inductive res_count := RcEmpty | RcStop | RcGo.
(** VariableElimination.h:218-230 *)
Fixpoint count_res (v : var) (bound lim n : nat) (prs : list (list lit * list lit)) : res_count :=
  match prs with
  | [] => RcGo
  | (p, q) :: r =>
    match merge_size p q v with
    | None => count_res v bound lim n r
    | Some 0 => RcEmpty
    | Some k => if (bound <? S n) || ((0 <? lim) && (lim <? k)) then RcStop else count_res v bound lim (S n) r
    end
  end.

(** VariableElimination.h:235-242 *)
Fixpoint create_res (v : var) (prs : list (nat * nat)) (d : db) (s : sdb) : out (db * sdb) :=
  match prs with
  | [] => Ok (d, s)
  | (p, q) :: r =>
    match wclause s p, wclause s q with
    | Some cp, Some cq =>
      match merge (clits d cp) (clits d cq) v with
      | None => create_res v r d s
      | Some ls =>
        '(_, d1, s1) <- sub_create ls (N.min (cwt d cp) (N.min (cwt d cq) (N.of_nat (length ls - 1) mod 65536))) d s ;;
        create_res v r d1 s1
      end
    | _, _ => Err UB
    end
  end.
(** VariableElimination.h:244-251 *)
Fixpoint remove_all (is : list nat) (d : db) (s : sdb) : out (db * sdb) :=
  match is with
  | [] => Ok (d, s)
  | i :: r => '(d1, s1) <- sub_remove i d s ;; remove_all r d1 s1
  end.

(** VariableElimination.h:211-261; the flag is the returned value, the number counts eliminations *)
Definition eliminate_var (lim : nat) (v : var) (pos neg : list nat) (d : db) (s : sdb) (e : ve) (t : trail_t) :
  out (bool * nat * db * sdb * ve * trail_t) :=
  if (length pos =? 0) && (length neg =? 0) then Ok (true, 0, d, s, e, t)
  else
    let prs := list_prod pos neg in
    match count_res v (length pos + length neg) lim 0 (map (fun x => (wlits d s (fst x), wlits d s (snd x))) prs) with
    | RcEmpty => Ok (false, 0, d, s, e, t)
    | RcStop => Ok (true, 0, d, s, e, t)
    | RcGo =>
      let saved := map (wlits d s) neg ++ map (wlits d s) pos in
      '(d1, s1) <- create_res v prs d s ;;
      '(d2, s2) <- remove_all pos d1 s1 ;;
      '(d3, s3) <- remove_all neg d2 s2 ;;
      Ok (true, 1, d3, s3, mkVE (ev e ++ [v]) (set_nth v (nth v (ec e) [] ++ saved) (ec e)) (fz e),
          setDecisionVar v false t)
    end.

(** VariableElimination.h:69-78, 95-103: grow the vectors; freeze the assumptions *)
Definition freeze (ls : list lit) (f : list bool) : list bool := fold_left (fun f l => set_nth (lvar l) true f) ls f.
Definition ve_grow (n : nat) (e : ve) : ve :=
  if length (fz e) <? n then mkVE (ev e) (resize n [] (ec e)) (resize n false (fz e)) else e.
Definition ve_init (t : trail_t) (e : ve) : ve :=
  let e1 := ve_grow (nvt t) e in mkVE (ev e1) (ec e1) (freeze (assum t) (fz e1)).

(** VariableElimination.h:131-137; the vector access is unchecked *)
Definition has_eliminated (e : ve) : bool := negb (length (ev e) =? 0).
Definition is_eliminated (e : ve) (v : var) : bool := negb (length (nth v (ec e) []) =? 0).

(** VariableElimination.h:114-129 *)
Definition undo_elimination (v : var) (e : ve) (t : trail_t) : list clause * ve * trail_t :=
  (nth v (ec e) [],
   mkVE (filter (fun x => negb (x =? v)) (ev e)) (set_nth v [] (ec e)) (fz e),
   setDecisionVar v true t).

(** VariableElimination.h:95-112; freezing an unknown variable is out of bounds *)
Fixpoint ve_reset_loop (ls : list lit) (e : ve) (t : trail_t) (acc : list clause) : out (list clause * ve * trail_t) :=
  match ls with
  | [] => Ok (acc, e, t)
  | l :: r =>
    if lvar l <? length (fz e) then
      let e1 := mkVE (ev e) (ec e) (set_nth (lvar l) true (fz e)) in
      if is_eliminated e1 (lvar l)
      then let '(cor, e2, t2) := undo_elimination (lvar l) e1 t in ve_reset_loop r e2 t2 (acc ++ cor)
      else ve_reset_loop r e1 t acc
    else Err UB
  end.
Definition ve_reset (e : ve) (t : trail_t) : out (list clause * ve * trail_t) :=
  ve_reset_loop (assum t) (ve_grow (nvt t) (mkVE (ev e) (ec e) (map (fun _ => false) (fz e)))) t [].

(** VariableElimination.h:139-165 *)
Fixpoint set_values (ls : list lit) (t : trail_t) : out trail_t :=
  match ls with [] => Ok t | l :: r => t1 <- set_value l t ;; set_values r t1 end.
Definition prop_elim_var (e : ve) (v : var) (t : trail_t) : out trail_t :=
  let mine := fun c : clause => filter (fun l => lvar l =? v) c in
  let first := match find (fun c => negb (satisfies_any t c)) (nth v (ec e) []) with
               | Some c => mine c | None => [] end in
  t1 <- set_values first t ;;
  match first with
  | [] => match nth v (ec e) [] with
          | [] => Err UB
          | c :: _ => set_values (map lneg (mine c)) t1
          end
  | _ => Ok t1
  end.
Fixpoint prop_elim_list (e : ve) (vs : list var) (t : trail_t) : out trail_t :=
  match vs with [] => Ok t | v :: r => t1 <- prop_elim_var e v t ;; prop_elim_list e r t1 end.
Definition propagate_eliminated (e : ve) (t : trail_t) : out trail_t := prop_elim_list e (rev (ev e)) t.

(** VariableElimination.h:187-207 *)
Fixpoint elim_vars (lim : nat) (vs : list var) (n : nat) (d : db) (s : sdb) (e : ve) (t : trail_t) :
  out (bool * nat * db * sdb * ve * trail_t) :=
  match vs with
  | [] => Ok (true, n, d, s, e, t)
  | v :: r =>
    if is_undef (vvalue t v) then
      let os := filter (live s) (occs s v) in
      let ispos := fun i => existsb (Nat.eqb (mkLit v false)) (wlits d s i) in
      '(b, k, d1, s1, e1, t1) <-
        eliminate_var lim v (filter ispos os) (filter (fun i => negb (ispos i)) os) d s e t ;;
      if b then elim_vars lim r (n + k) d1 s1 e1 t1 else Ok (false, n, d1, s1, e1, t1)
    else elim_vars lim r n d s e t
  end.
(** VariableElimination.h:171-208; [cand] is the order std::sort arrives at *)
Definition eliminate (active : bool) (lim : nat) (cand : list var) (d : db) (s : sdb) (e : ve) (t : trail_t) :
  out (bool * nat * db * sdb * ve * trail_t) :=
  let e1 := ve_init t e in
  if active then
    let vars := filter (fun v => negb (nth v (fz e1) false) && negb (is_eliminated e1 v)) (seq 0 (length (fz e1))) in
    elim_vars lim (std_sort (fun a b => numOcc s b <? numOcc s a) cand vars) 0 d s e1 t
  else Ok (true, 0, d, s, e1, t).

(** ** AsymmetricVariableReduction *)

(** AsymmetricVariableReduction.h:68-76: decide the negations; the literal is the last one skipped *)
Fixpoint asymm_decide (v : var) (ls : list lit) (l : option lit) (t : trail_t) : out (option lit * trail_t) :=
  match ls with
  | [] => Ok (l, t)
  | x :: r =>
    if negb (lvar x =? v) && is_undef (vvalue t (lvar x))
    then t1 <- decide (lneg x) t ;; asymm_decide v r l t1
    else asymm_decide v r (Some x) t
  end.
(** AsymmetricVariableReduction.h:62-93 *)
Fixpoint asymm_loop (v : var) (os : list nat) (n : nat) (d : db) (w : watches) (t : trail_t) (s : sdb) :
  out (bool * nat * db * watches * trail_t * sdb) :=
  match os with
  | [] => Ok (true, n, d, w, t, s)
  | i :: r =>
    if live s i && negb (satisfies_any t (wlits d s i)) then
      '(ol, t1) <- asymm_decide v (wlits d s i) None (newDecisionLevel t) ;;
      '(k, d2, w2, t2) <- propagate d w t1 ;;
      let t3 := backtrack 0 t2 in
      match k with
      | None => asymm_loop v r n d2 w2 t3 s
      | Some _ =>
        match ol with
        | None => Err UB
        | Some l =>
          if 1 <? length (wlits d2 s i) then
            '(d3, s3) <- sub_strengthen i l d2 s ;; asymm_loop v r (S n) d3 w2 t3 s3
          else Ok (false, S n, d2, w2, t3, s)
        end
      end
    else asymm_loop v r n d w t s
  end.
(** AsymmetricVariableReduction.h:110-127 *)
Fixpoint asymm_vars (vs : list var) (n : nat) (d : db) (w : watches) (t : trail_t) (s : sdb) :
  out (bool * nat * db * watches * trail_t * sdb) :=
  match vs with
  | [] => Ok (true, n, d, w, t, s)
  | v :: r =>
    if is_undef (vvalue t v) then
      '(b, n1, d1, w1, t1, s1) <- asymm_loop v (occs s v) n d w t s ;;
      if b then asymm_vars r n1 d1 w1 t1 s1 else Ok (false, n1, d1, w1, t1, s1)
    else asymm_vars r n d w t s
  end.
Definition asymm_reduce (active : bool) (d : db) (w : watches) (t : trail_t) (s : sdb) :
  out (bool * nat * db * watches * trail_t * sdb) :=
  if active then asymm_vars (seq 0 (nvt t)) 0 d w t s else Ok (true, 0, d, w, t, s).
