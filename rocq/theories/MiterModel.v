(** Model of gates/MiterDetector.cc. *)
Require Import List Arith Bool.
Require Import Verif.Base Verif.Outcome Verif.GateModel Verif.HeurModel.
Import ListNotations.
Open Scope nat_scope.

(** MiterDetector.cc:71-76 pruneAt: what it returns *)
Definition not_mono (gs : list gate) (v : var) : bool := g_notMono (nth v gs gate_none).
(** :47-61 backtrack and collect, for the calls of the traversal in their order; [seen] is m_seenOuts, the result
    m_monotonousRegionBorder.  The set is cleared in finished (:78-80), when it is not needed any more. *)
Fixpoint border_run (gs : list gate) (es : list event) (seen border : list var) : out (list var) :=
  match es with
  | [] => Ok border
  | ECollect v :: r => o <- out_var gs v ;; border_run gs r (uput o seen) border
  | EBacktrack v :: r =>
    let isBorderGate := existsb (fun i => negb (existsb (Nat.eqb (lvar i)) seen)) (g_inp (nth v gs gate_none)) in
    border_run gs r seen (if isBorderGate then uput v border else border)
  | EInput _ :: r => border_run gs r seen border
  end.
(** m_seenNonmonotonous (:74): pruneAt is called for the gates of the root literals (GateDFSTraversal.h:96) and for the
    inputs of each visited gate that are gates not visited yet (:122-124); a gate that is pruned is never visited *)
Definition nonmono_gate (gs : list gate) (l : lit) : bool := defined gs (lvar l) && not_mono gs (lvar l).
Definition seen_nonmonotonous (gs : list gate) (root_lits : list lit) (es : list event) : bool :=
  existsb (nonmono_gate gs) root_lits ||
  existsb (fun e => match e with ECollect v => existsb (nonmono_gate gs) (g_inp (nth v gs gate_none)) | _ => false end) es.

(** :103-117 *)
Definition allGatesHaveTwoInputs (gs : list gate) (border : list var) : bool :=
  forallb (fun v => length (fold_left (fun s i => uput (lvar i) s) (g_inp (nth v gs gate_none)) []) =? 2) border.

(** :119-141 SignOccurence: (m_positive, m_negative); the sign true counts as positive *)
Definition occ := (bool * bool)%type.
Definition hasOccured (sign : bool) (o : occ) : bool := if sign then fst o else snd o.
Definition setOccured (sign : bool) (o : occ) : occ := if sign then (true, snd o) else (fst o, true).
(** :158-166; None: the function returns false *)
Fixpoint aig_lits (ls : list lit) (m : list (var * occ)) : option (list (var * occ)) :=
  match ls with
  | [] => Some m
  | l :: r =>
    let o := match aget (lvar l) m with Some o => o | None => (false, false) end in
    if hasOccured (lsign l) o then None else aig_lits r (aput (lvar l) (setOccured (lsign l) o) m)
  end.
(** :153-176 *)
Definition allGatesAreAIGXORsWithUniqueInputVars (gs : list gate) (border : list var) : bool :=
  match aig_lits (flat_map (fun v => g_inp (nth v gs gate_none)) border) [] with
  | None => false
  | Some m => forallb (fun kv => fst (snd kv) && snd (snd kv)) m
  end.

(** :187-204 *)
Definition isBinaryXORGate (cs : list clause) (g : gate) : bool :=
  match g_fwd g with
  | [c1; c2] => (length (cl cs c1) =? 3) && (length (cl cs c2) =? 3) && (length (fold_left (fun s l => uput l s) (cl cs c1 ++ cl cs c2) []) =? 5)
  | _ => false
  end.
(** :216-237 *)
Fixpoint xor_gates (cs : list clause) (gs : list gate) (border : list var) (seen : list var) : bool :=
  match border with
  | [] => true
  | v :: r =>
    let g := nth v gs gate_none in
    if negb (isBinaryXORGate cs g) then false
    else if existsb (fun i => existsb (Nat.eqb (lvar i)) seen) (g_inp g) then false
    else xor_gates cs gs r (fold_left (fun s i => uput (lvar i) s) (g_inp g) seen)
  end.
Definition allGatesAreBinaryXORsWithUniqueInputVars (cs : list clause) (gs : list gate) (border : list var) : bool := xor_gates cs gs border [].

(** :240-253; [order]: the order in which the set of gates (pointers in a hash table) is iterated *)
Definition hasPossiblyMiterStructure (order : list var -> list var) (cs : list clause) (gs : list gate) (root_lits : list lit) : out bool :=
  es <- traverseDFS (not_mono gs) gs root_lits ;;
  border <- border_run gs es [] [] ;;
  let b := order border in
  Ok (if (length b =? 0) || negb (seen_nonmonotonous gs root_lits es) || negb (allGatesHaveTwoInputs gs b) then false
      else allGatesAreAIGXORsWithUniqueInputVars gs b || allGatesAreBinaryXORsWithUniqueInputVars cs gs b).
