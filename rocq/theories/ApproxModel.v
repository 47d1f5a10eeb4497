(** Model of rsar/ApproximationState.cc and rsar/Refinement.cc: removable equivalence and backbone
    conjectures and their encoding as clauses with assumption literals. *)
Require Import List Arith Bool Lia.
Require Import Verif.Base Verif.Outcome.
Import ListNotations.

(** ApproximationState.h:41 [Implication] *)
Definition impl : Type := (lit * lit)%type.

(** ** std::map<Var, Implication> and std::set, sorted lists without repetitions *)
(** ApproximationState.cc:340-343 [std::map]: [m[k] = v], [find], [erase] *)
Fixpoint mput (k : var) (v : impl) (m : list (var * impl)) : list (var * impl) :=
  match m with
  | [] => [(k, v)]
  | (k', v') :: r => if k <? k' then (k, v) :: m else if k =? k' then (k, v) :: r else (k', v') :: mput k v r
  end.
Fixpoint mfind (k : var) (m : list (var * impl)) : option impl :=
  match m with [] => None | (k', v) :: r => if k =? k' then Some v else mfind k r end.
Definition mdel (k : var) (m : list (var * impl)) : list (var * impl) := filter (fun e => negb (k =? fst e)) m.
(** [m[k]] read by ApproximationState.cc:434-453.  C++ inserts a pair of undefined literals if the
    key is missing; the model stops with [UB] and the theorems show that this does not happen. *)
Definition mread (k : var) (m : list (var * impl)) : out impl := match mfind k m with Some v => Ok v | None => Err UB end.

(** std::set<Var>, std::set<Lit> (ApproximationState.cc:179, 182, 349): insert, find, erase *)
Fixpoint sput (k : nat) (s : list nat) : list nat :=
  match s with [] => [k] | k' :: r => if k <? k' then k :: s else if k =? k' then s else k' :: sput k r end.
Definition smem (k : nat) (s : list nat) : bool := existsb (Nat.eqb k) s.
Definition sdel (k : nat) (s : list nat) : list nat := filter (fun x => negb (k =? x)) s.

(** ** EquivalenceImplicationsImpl (ApproximationState.cc:298-485) *)
(** :340-349 m_implicationsByAnte, m_implicationsBySucc, m_implicationsCached, m_varRemovalWorkQueue *)
Record eqi := mkEqi { ei_ante : list (var * impl); ei_succ : list (var * impl); ei_list : list impl; ei_queue : list var }.

(** :374-377 addImplication *)
Definition addImplication (i : impl) (e : eqi) : eqi :=
  mkEqi (mput (lvar (fst i)) i (ei_ante e)) (mput (lvar (snd i)) i (ei_succ e)) (ei_list e) (ei_queue e).
(** :379-382 removeImplication *)
Definition removeImplication (e : eqi) (i : impl) : eqi :=
  mkEqi (mdel (lvar (fst i)) (ei_ante e)) (mdel (lvar (snd i)) (ei_succ e)) (ei_list e) (ei_queue e).
(** :384-389 updateCache *)
Definition updateCache (e : eqi) : eqi := mkEqi (ei_ante e) (ei_succ e) (map snd (ei_ante e)) (ei_queue e).
(** :391-393 addVariableRemovalToWorkQueue *)
Definition ei_mark (e : eqi) (v : var) : eqi := mkEqi (ei_ante e) (ei_succ e) (ei_list e) (sput v (ei_queue e)).

(** :366-368 the implications between consecutive literals *)
Fixpoint chain (ls : list lit) : list impl :=
  match ls with a :: (b :: _) as r => (a, b) :: chain r | _ => [] end.
(** :356-372 constructor; [conjecture.at(i)] is in bounds for the indices used *)
Definition ei_new (conj : list lit) : eqi :=
  let e0 := mkEqi [] [] [] [] in
  updateCache
    (match conj with
     | a :: _ :: _ => addImplication (last conj a, a) (fold_left (fun e i => addImplication i e) (chain conj) e0)
     | _ => e0
     end).

(** deque front().first and back().second (:442, 451, 463-464); the queue is never empty *)
Definition front_ante (q : list impl) : lit := match q with i :: _ => fst i | [] => 0 end.
Definition back_succ (q : list impl) : lit := match rev q with i :: _ => snd i | [] => 0 end.

(** :439-446 forward part; [fuel] bounds the iterations *)
Fixpoint forward (fuel : nat) (ante : list (var * impl)) (queue : list var) (first cur : var) (q : list impl) : out (list impl) :=
  match fuel with
  | 0 => Err Fuel
  | S k =>
    if negb (cur =? first) && smem cur queue && negb (front_ante q =? back_succ q)
    then i <- mread cur ante ;; forward k ante queue first (lvar (snd i)) (q ++ [i])
    else Ok q
  end.
(** :449-454 backward part *)
Fixpoint backward (fuel : nat) (succ : list (var * impl)) (queue : list var) (first cur : var) (q : list impl) : out (list impl) :=
  match fuel with
  | 0 => Err Fuel
  | S k =>
    if negb (cur =? first) && smem cur queue && negb (front_ante q =? back_succ q)
    then i <- mread cur succ ;; backward k succ queue first (lvar (fst i)) (i :: q)
    else Ok q
  end.

(** :424-481 one iteration of the loop of commitWorkQueue for the smallest queued variable; result:
    the new state, new implications and removed implications *)
Definition commit_step (e : eqi) (first : var) : out (eqi * list impl * list impl) :=
  match mfind first (ei_ante e) with
  | None => Ok (mkEqi (ei_ante e) (ei_succ e) (ei_list e) (sdel first (ei_queue e)), [], [])
  | Some a =>
    s <- mread first (ei_succ e) ;;
    q1 <- forward (S (length (ei_ante e))) (ei_ante e) (ei_queue e) first (lvar (snd a)) [s; a] ;;
    q2 <- backward (S (length (ei_succ e))) (ei_succ e) (ei_queue e) first (lvar (fst s)) q1 ;;
    let e1 := fold_left removeImplication q2 e in
    let na := front_ante q2 in
    let ns := back_succ q2 in
    let add := negb (na =? ns) && negb (smem (lvar na) (ei_queue e)) && negb (smem (lvar ns) (ei_queue e)) in
    let e2 := if add then addImplication (na, ns) e1 else e1 in
    let queue := fold_left (fun s i => sdel (lvar (snd i)) (sdel (lvar (fst i)) s)) q2 (ei_queue e) in
    Ok (mkEqi (ei_ante e2) (ei_succ e2) (ei_list e2) queue, if add then [(na, ns)] else [], q2)
  end.
(** :423-482 the loop *)
Fixpoint commit_loop (fuel : nat) (e : eqi) (new rem : list impl) : out (eqi * list impl * list impl) :=
  match ei_queue e with
  | [] => Ok (e, new, rem)
  | first :: _ =>
    match fuel with
    | 0 => Err Fuel
    | S k => ' (e', n, r) <- commit_step e first ;; commit_loop k e' (new ++ n) (rem ++ r)
    end
  end.
(** :415-485 commitWorkQueue *)
Definition ei_commit (e : eqi) : out (eqi * list impl * list impl) :=
  match ei_queue e with
  | [] => Ok (e, [], [])
  | _ => ' (e', n, r) <- commit_loop (length (ei_queue e)) e [] [] ;; Ok (updateCache e', n, r)
  end.

(** ** BackbonesImpl (ApproximationState.cc:153-249) *)
(** :176-182 m_backbonesCached, m_backbones, m_removalWorkQueue *)
Record bbs := mkBbs { bb_list : list lit; bb_set : list lit; bb_queue : list var }.
(** :189-198 constructor *)
Definition bb_new (ls : list lit) : bbs := mkBbs ls (fold_left (fun s l => sput l s) ls []) [].
(** :200-202 addVariableRemovalToWorkQueue *)
Definition bb_mark (b : bbs) (v : var) : bbs := mkBbs (bb_list b) (bb_set b) (sput v (bb_queue b)).
(** :228-239 one iteration of commitWorkQueue *)
Definition bb_step (st : list lit * list lit) (v : var) : list lit * list lit :=
  let cand := if smem (mkLit v false) (fst st) then mkLit v false else lneg (mkLit v false) in
  if smem cand (fst st) then (sdel cand (fst st), snd st ++ [cand]) else st.
(** :225-249 commitWorkQueue; result: the new state and the removed literals *)
Definition bb_commit (b : bbs) : bbs * list lit :=
  let st := fold_left bb_step (bb_queue b) (bb_set b, []) in
  (mkBbs (fst st) (fst st) [], snd st).

(** ** ApproximationStateImpl (ApproximationState.cc:533-620) *)
(** :552-558 m_equivalenceImplications, m_backbones *)
Record approx := mkApprox { as_eqs : list eqi; as_bbs : bbs }.
(** :580-589 constructor; the arguments are the equivalence and the backbone conjectures *)
Definition as_new (eqs : list (list lit)) (bs : list lit) : approx := mkApprox (map ei_new eqs) (bb_new bs).
(** :51-91 ApproximationDeltaImpl *)
Record delta := mkDelta { d_added : list impl; d_removed : list impl; d_bbs : list lit }.
Fixpoint commit_all (es : list eqi) : out (list eqi * list impl * list impl) :=
  match es with
  | [] => Ok ([], [], [])
  | e :: r =>
    ' (e', n, m) <- ei_commit e ;;
    ' (r', n', m') <- commit_all r ;;
    Ok (e' :: r', n ++ n', m ++ m')
  end.
(** :591-602 createDelta *)
Definition createDelta (s : approx) : out (approx * delta) :=
  ' (es, n, m) <- commit_all (as_eqs s) ;;
  let '(b, rb) := bb_commit (as_bbs s) in
  Ok (mkApprox es b, mkDelta n m rb).
(** :604-620 createInitializationDelta *)
Definition createInitializationDelta (s : approx) : out (approx * delta) :=
  ' (es, _, _) <- commit_all (as_eqs s) ;;
  let '(b, _) := bb_commit (as_bbs s) in
  Ok (mkApprox es b, mkDelta (flat_map ei_list es) [] []).

(** ** Encoding (Refinement.cc:264-294) *)
Definition activatedAssumptionLit (v : var) : lit := mkLit v false.   (** :264-266 *)
Definition deactivatedAssumptionLit (v : var) : lit := mkLit v true.  (** :268-270 *)
(** :272-274 *)
Definition encodeImplication (i : impl) (v : var) : clause := [lneg (fst i); snd i; deactivatedAssumptionLit v].
(** :276-278 *)
Definition encodeBackbone (l : lit) (v : var) : clause := [l; deactivatedAssumptionLit v].
(** :280-283; the clauses are not empty *)
Definition getAssumptionLit (c : clause) : lit := last c 0.
(** :285-290 *)
Definition getNonAssumptionLits (c : clause) : lit * lit := (nth 0 c 0, if length c =? 3 then nth 1 c 0 else nth 0 c 0).
Definition isActive (l : lit) : bool := negb (lsign l).               (** :292-294 *)

(** ** SimpleRefinementStrategy (Refinement.cc:104-255) *)
(** Refinement.cc:138-150; [rs_next] is the counter behind m_createVariable (ARSolver.h:66-68 createVariable); the
    two unordered_maps are association lists with the newest entry first *)
Record strategy := mkRs { rs_app : approx; rs_next : var; rs_lits : list lit; rs_impl : list (impl * nat); rs_bb : list (lit * nat) }.
(** :157-167 constructor; [next] is the first variable that createVariable returns *)
Definition rs_new (eqs : list (list lit)) (bs : list lit) (next : var) : strategy := mkRs (as_new eqs bs) next [] [] [].
(** :54-99 EncodedApproximationDeltaImpl: new clauses, assumption literals, number of enabled clauses *)
Record enc := mkEnc { n_clauses : list clause; n_assume : list lit; n_enabled : nat }.

(** what the heuristics mark in one step: variables of the backbones and, for each equivalence class,
    variables of the class (Heuristics.h markRemovals).  The heuristics can only call
    addVariableRemovalToWorkQueue, so a step is described by the variables they pass to it. *)
Record marks := mkMarks { mk_bb : list var; mk_eq : list (list var) }.
Fixpoint mark_all (es : list eqi) (ms : list (list var)) : list eqi :=
  match es with [] => [] | e :: r => fold_left ei_mark (hd [] ms) e :: mark_all r (tl ms) end.
(** :178-194 updateApproximationState *)
Definition updateApproximationState (m : marks) (s : approx) : approx :=
  mkApprox (mark_all (as_eqs s) (mk_eq m))
           (match bb_list (as_bbs s) with [] => as_bbs s | _ => fold_left bb_mark (mk_bb m) (as_bbs s) end).

Definition impl_eqb (i j : impl) : bool := (fst i =? fst j) && (snd i =? snd j).
(** [map[key]]: inserts 0 if the key is missing; the insertion is not modelled *)
Definition idx_impl (i : impl) (m : list (impl * nat)) : nat :=
  match find (fun e => impl_eqb i (fst e)) m with Some e => snd e | None => 0 end.
Definition idx_bb (l : lit) (m : list (lit * nat)) : nat :=
  match find (fun e => l =? fst e) m with Some e => snd e | None => 0 end.
(** :200-201, 207-208 m_assumptionLits[idx] = deactivatedAssumptionLit(m_assumptionLits[idx].var()) *)
Fixpoint deactivate (idx : nat) (ls : list lit) : out (list lit) :=
  match ls, idx with
  | [], _ => Err UB
  | l :: r, 0 => Ok (deactivatedAssumptionLit (lvar l) :: r)
  | l :: r, S k => r' <- deactivate k r ;; Ok (l :: r')
  end.
Fixpoint deactivate_all (idx : list nat) (ls : list lit) : out (list lit) :=
  match idx with [] => Ok ls | i :: r => ls' <- deactivate i ls ;; deactivate_all r ls' end.
(** :196-210 updateAssumptionLiterals *)
Definition updateAssumptionLiterals (d : delta) (s : strategy) : out strategy :=
  ls <- deactivate_all (map (fun l => idx_bb l (rs_bb s)) (d_bbs d) ++ map (fun i => idx_impl i (rs_impl s)) (d_removed d)) (rs_lits s) ;;
  Ok (mkRs (rs_app s) (rs_next s) ls (rs_impl s) (rs_bb s)).

(** :231-236 one iteration of encode, with addAssumptionVariable (:170-174) *)
Definition encode_one (st : strategy * list clause) (i : impl) : strategy * list clause :=
  let s := fst st in let v := rs_next s in
  (mkRs (rs_app s) (S v) (rs_lits s ++ [activatedAssumptionLit v]) ((i, length (rs_lits s)) :: rs_impl s) (rs_bb s),
   snd st ++ [encodeImplication i v]).
(** :219-223 one iteration of encodeInitial *)
Definition encode_bb (st : strategy * list clause) (l : lit) : strategy * list clause :=
  let s := fst st in let v := rs_next s in
  (mkRs (rs_app s) (S v) (rs_lits s ++ [activatedAssumptionLit v]) (rs_impl s) ((l, length (rs_lits s)) :: rs_bb s),
   snd st ++ [encodeBackbone l v]).
(** :77-86 constructor of EncodedApproximationDeltaImpl *)
Definition mk_enc (st : strategy * list clause) : enc :=
  mkEnc (snd st) (rs_lits (fst st)) (length (filter isActive (rs_lits (fst st)))).
(** :228-239 encode *)
Definition encode (d : delta) (s : strategy) : strategy * enc :=
  let st := fold_left encode_one (d_added d) (s, []) in (fst st, mk_enc st).
(** :214-226 encodeInitial *)
Definition encodeInitial (d : delta) (s : strategy) : strategy * enc :=
  let st := fold_left encode_one (d_added d) (s, []) in
  let st' := fold_left encode_bb (bb_list (as_bbs (rs_app s))) st in (fst st', mk_enc st').
Definition set_app (s : strategy) (a : approx) : strategy := mkRs a (rs_next s) (rs_lits s) (rs_impl s) (rs_bb s).
(** :244-248 init *)
Definition rs_init (m : marks) (s : strategy) : out (strategy * enc) :=
  ' (a, d) <- createInitializationDelta (updateApproximationState m (rs_app s)) ;;
  Ok (encodeInitial d (set_app s a)).
(** :250-255 refine *)
Definition rs_refine (m : marks) (s : strategy) : out (strategy * enc) :=
  ' (a, d) <- createDelta (updateApproximationState m (rs_app s)) ;;
  s' <- updateAssumptionLiterals d (set_app s a) ;;
  Ok (encode d s').
