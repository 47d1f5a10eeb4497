(** Model of GateProblem::printGates (src/candy/gates/GateProblem.h:237-256): the listing of the gates. *)
Require Import List Arith NArith String Bool.
Require Import Verif.Base Verif.Outcome Verif.CNFModel Verif.DimacsModel Verif.MainModel Verif.GateModel.
Import ListNotations.
Open Scope list_scope.

(** GateProblem.h:34-42, the parts that are printed or followed; the clauses by value *)
Record pgate := mkPG { pg_out : option lit; pg_fwd : list clause; pg_bwd : list clause; pg_inp : list lit }.
(** SolverTypes.h:215-220: every literal is followed by a space *)
Definition clause_text (c : clause) : list nat := List.concat (map (fun l => print_lit l ++ [32]) c).
(** SolverTypes.h:222-227 and 247-249: a line for every clause, then an empty line *)
Definition formula_text (f : list clause) : list nat := List.concat (map (fun c => clause_text c ++ [10]) f) ++ [10].
(** GateProblem.h:248-252.  printf and std::cout write to the same stream; nothing in Candy switches their synchronisation off,
    so the output appears in the order of the calls. *)
Definition gate_text (o : lit) (g : pgate) : list nat :=
  bytes "Gate with output " ++ print_lit o ++ bytes " is defined by clauses " ++ formula_text (pg_fwd g) ++ formula_text (pg_bwd g).
(** GateProblem.h:243-255: [outputs] is the vector from position i on; an access outside an array is the outcome UB *)
Fixpoint print_loop (fuel : nat) (gs : list pgate) (done : list bool) (outputs : list lit) : out (list nat) :=
  match outputs with
  | [] => Ok []
  | l :: r =>
    match fuel with
    | O => Err Fuel
    | S fuel =>
      match nth_error gs (lvar l) with
      | None => Err UB
      | Some g =>
        match pg_out g with
        | None => print_loop fuel gs done r
        | Some o =>
          match nth_error done (lvar l) with
          | None => Err UB
          | Some true => print_loop fuel gs done r
          | Some false => t <- print_loop fuel gs (set_nth (lvar l) true done) (r ++ pg_inp g) ;; Ok (gate_text o g ++ t)
          end
        end
      end
    end
  end.
(** GateProblem.h:237-256: [n] is problem.nVars(), [rs] are the roots.  Every root literal and every input of a gate is looked at
    at most once, which gives the fuel. *)
Definition printGates (n : nat) (gs : list pgate) (rs : list clause) : out (list nat) :=
  print_loop (List.length (List.concat rs) + List.length (flat_map pg_inp gs)) gs (repeat false n) (List.concat rs).
(** the gates and roots that an analysis leaves *)
Definition pgates (cs : list clause) (g : gproblem) : list pgate :=
  map (fun gt => mkPG (g_out gt) (map (cl cs) (g_fwd gt)) (map (cl cs) (g_bwd gt)) (g_inp gt)) (gates g).
Definition proots (cs : list clause) (g : gproblem) : list clause := map (cl cs) (roots g).
(** GateProblem.h:268-289: one more gate, and its output is the only root.  The inputs are a set in the code: their order is that
    of the literals. *)
Definition pnormal (cs : list clause) (n : nat) (g : gproblem) : list pgate * list clause :=
  let top := map (cl cs) (roots g ++ remainder g) in
  (pgates cs g ++ [mkPG (Some (mkLit n false)) (map (fun c => c ++ [mkLit n true]) top) [] (unique Nat.eqb (sort (List.concat top)))], [[mkLit n false]]).
