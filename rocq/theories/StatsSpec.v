(** What the output of the option gate-stats says (C68). *)
Require Import List Arith ZArith String Bool.
Require Import Verif.Base Verif.CNFModel Verif.DimacsSpec Verif.GateModel Verif.GateSpec Verif.MainModel.
Import ListNotations.
Open Scope list_scope.

(** the line "<name><k>" with the number k in decimal *)
Definition says (name : string) (k : nat) (t : list nat) : Prop := exists d, t = bytes name ++ d /\ number (Z.of_nat k) d.
(** the histogram that starts with the class number [i]: " <class>:<count>" for each class *)
Inductive classes : nat -> list nat -> list nat -> Prop :=
| cl_nil i : classes i [] []
| cl_cons i k h d e t : number (Z.of_nat i) d -> number (Z.of_nat k) e -> classes (S i) h t -> classes i (k :: h) (bytes " " ++ d ++ bytes ":" ++ e ++ t).
Definition draws (name : string) (h : list nat) (t : list nat) : Prop := exists u, t = bytes name ++ u /\ classes 0 h u.
(** the last class printed is not empty *)
Definition tidy (h : list nat) : Prop := h <> [] -> last h 0 <> 0.

(** a gate whose negated output is used, too *)
Definition needs_test (g : gproblem) (v : var) : Prop := defined (gates g) v = true /\ g_notMono (nth v (gates g) gate_none) = true.
(** [v] is defined by a gate of which the clauses pass the pattern test *)
Definition matches (cs : list clause) (g : gproblem) (v : var) : Prop :=
  exists o, g_out (nth v (gates g) gate_none) = Some o /\ patternCheck cs o (g_fwd (nth v (gates g) gate_none)) (g_bwd (nth v (gates g) gate_none)) = true.

(** The lines of the report about the clauses [p] and their gates [g]: the numbers of variables, of clauses, of clauses outside of the gates, of gates, of
    gates whose output is used in one polarity, of root clauses; the gates used in both polarities, by the test that accepted them: [pat] of them by their pattern (if the
    patterns are used), [sem] and [hol] by the two tests that call the solver; histograms of the conflicts of these calls, [h] of the tests that accepted, [u] of those that did not. *)
Definition reports (patterns : bool) (p : cnf) (g : gproblem) (lines : list (list nat)) : Prop :=
  exists l1 l2 l3 l4 l5 l6 l7 l8 l9 l10 l11 t nG nM pat sem hol h u,
    lines = [l1; l2; l3; l4; l5; l6; l7; l8; l9; l10; l11; bytes "c Runtime: " ++ t] /\
    says "c Variables: " (variables p) l1 /\ says "c Clauses: " (List.length (problem p)) l2 /\
    says "c RemainingClauses: " (List.length (remainder g)) l3 /\
    says "c Gates: " nG l4 /\ count_is (fun v => defined (gates g) v = true) nG /\
    says "c Monoton: " nM l5 /\ count_is (fun v => defined (gates g) v = true /\ g_notMono (nth v (gates g) gate_none) = false) nM /\
    says "c Roots: " (List.length (roots g)) l6 /\
    says "c StatsPatterns: " pat l7 /\ says "c StatsSemantic: " sem l8 /\ says "c StatsHolistic: " hol l9 /\
    count_is (needs_test g) (pat + sem + hol) /\ count_is (fun v => needs_test g v /\ patterns = true /\ matches (problem p) g v) pat /\
    draws "c HistoConflicts: " h l10 /\ draws "c HistoConflictsUnsuccessful: " u l11 /\ list_sum h = sem + hol /\ tidy h /\ tidy u.
