(** The recursive clause order: src/candy/randomsimulation/ClauseOrder.cc:145-270, 352-393. *)
Require Import List Arith Bool NArith.
Require Import Verif.Base Verif.Outcome Verif.CNFModel Verif.GateModel Verif.SimModel.
Import ListNotations.

(** The members that the recursion changes (ClauseOrder.cc:90-93, 234): seenOutputs; m_inputVariables, which has the same elements
    as seenInputs; the gates for which backtrack was called, in order; m_maxVar + 1 (m_maxVar starts with -1) *)
Record rst := mkR { r_seen : list var; r_ins : list var; r_order : list var; r_amount : nat }.
Definition rnew : rst := mkR [] [] [] 0.
Definition see (v : var) (s : rst) : rst := mkR (v :: r_seen s) (r_ins s) (r_order s) (r_amount s).
Definition push_in (v : var) (s : rst) : rst := mkR (r_seen s) (r_ins s ++ [v]) (r_order s) (r_amount s).
Definition push_out (v : var) (s : rst) : rst := mkR (r_seen s) (r_ins s) (r_order s ++ [v]) (r_amount s).
Definition raise (v : var) (s : rst) : rst := mkR (r_seen s) (r_ins s) (r_order s) (Nat.max (r_amount s) (S v)).
(** ClauseOrder.cc:252-265; [call] is the recursive call *)
Fixpoint rinputs (call : var -> rst -> out rst) (gs : list gate) (ins : list lit) (s : rst) : out rst :=
  match ins with
  | [] => Ok s
  | i :: r =>
    let v := lvar i in
    let s1 := raise v s in
    if defined gs v && negb (existsb (Nat.eqb v) (r_seen s1)) then s2 <- call v s1 ;; rinputs call gs r s2
    else if negb (existsb (Nat.eqb v) (r_seen s1)) && negb (existsb (Nat.eqb v) (r_ins s1)) then rinputs call gs r (push_in v s1)
    else rinputs call gs r s1
  end.
(** ClauseOrder.cc:246-270; the assertion is not compiled in.  [fuel] bounds the depth of the recursion. *)
Fixpoint rread (fuel : nat) (gs : list gate) (v : var) (s : rst) : out rst :=
  match fuel with
  | O => Err Fuel
  | S fuel => s' <- rinputs (rread fuel gs) gs (g_inp (nth v gs gate_none)) (see v s) ;; Ok (push_out v s')
  end.
(** ClauseOrder.cc:236-243: the literals of the root clauses; seenOutputs is not consulted *)
Fixpoint rroots (gs : list gate) (rl : list lit) (s : rst) : out rst :=
  match rl with
  | [] => Ok s
  | l :: r =>
    let s1 := raise (lvar l) s in
    s2 <- (if defined gs (lvar l) then rread (S (length gs)) gs (lvar l) s1 else Ok s1) ;;
    rroots gs r s2
  end.
(** ClauseOrder.cc:145-182: the effect of backtrack, in the order of the calls *)
Definition rsteps (enabled : option (list var)) (cs : list clause) (gs : list gate) (vs : list var) : list (lit * list clause) :=
  flat_map (fun v => let g := nth v gs gate_none in
    match g_out g with
    | Some o => if passes enabled gs g o then [(fst (used_side g o), map (cl cs) (snd (used_side g o)))] else []
    | None => []
    end) vs.
(** ClauseOrder.cc:380-393: the filter for gates that are not nested monotonically *)
Definition nonmono_filter (gs : list gate) (rl : list lit) : out (list var) :=
  o <- getTopoOrder gs rl ;; Ok (filter (fun v => g_notMono (nth v gs gate_none)) o).
(** ClauseOrder.cc:184-194, 227-244.  [filtered] says whether setGateFilter was called with this filter. *)
Definition readGatesRec (filtered : bool) (cs : list clause) (g : gproblem) (rl : list lit) : out order :=
  enabled <- (if filtered then e <- nonmono_filter (gates g) rl ;; Ok (Some e) else Ok None) ;;
  if gate_count g =? 0 then Ok (mkOrder [] [] 0)
  else s <- rroots (gates g) rl rnew ;; Ok (mkOrder (rsteps enabled cs (gates g) (r_order s)) (r_ins s) (r_amount s)).
