(** Model of the program with one thread and the option minimize (src/candy/Main.cc:183-392): MainModel.v with the minimiser. *)
Require Import List Arith ZArith NArith String Ascii Bool.
Require Import Verif.Base Verif.Outcome Verif.OptModel Verif.CNFModel Verif.DimacsModel Verif.DbModel Verif.SolverModel Verif.RestartModel
  Verif.DRATModel Verif.MinModel Verif.MainModel.
Import ListNotations.
Open Scope list_scope.

(** Main.cc:328 *)
Definition size_line (ks : list lit) : list nat := bytes "c Minimized-Model-Size: " ++ dec (N.of_nat (List.length ks)).
(** Main.cc:333, SolverTypes.h:205-221: every literal is followed by a space *)
Definition kept_line (ks : list lit) : list nat := bytes "c Minimized-Model: " ++ List.concat (map (fun l => print_lit l ++ [32]) ks).
(** Solver.h:310: nobody sets the callback of the solver of the minimiser, it answers 0 *)
Definition uninterrupted (O : oracle) : oracle := mkOracle (fun _ => false) (o_restart O) (o_pick O) (o_ptr O) (o_vars O) (o_cands O).

Section MinMain.
(** What the minimiser meets: [MO k] are the choices inside the k-th call of its solver, [G] the options of the gate analyser, of which the
    table of the parser has its own (they matter with minimize-pruned and minimize-project only) *)
Variables (MO : nat -> oracle) (G : GateModel.config).
(** Main.cc:316-391; the lines "c Minimizing Model" and "c Minimizer-Runtime" make no claim about the result *)
Definition min_report (B : nat) (w : world) (os : list opt) (p : cnf) (name : string) (r : option bool) (m : model) (ls : list cline) (lines : list (list nat)) : ending :=
  match r with
  | Some true =>
    if get_bool os "minimize" then
      match mimimizeModel (cfg_of os) (fun k => uninterrupted (MO k)) G (w_fuel w) p m
              (get_bool os "minimize-pruned") (get_bool os "minimize-minimal") (get_bool os "minimize-project") with
      | Err UB => Crashes
      | Err _ => Silent
      | Ok mm =>
        let ks := getModelLiterals mm in
        self_test B w os p name r m ls (lines ++ [status_line r; size_line ks] ++ (if get_bool os "model" then [kept_line ks] else []))
      end
    else report B w os p name r m ls lines
  | _ => report B w os p name r m ls lines
  end.
(** Main.cc:227-241 *)
Definition min_run (B : nat) (w : world) (os : list opt) (p : cnf) (name : string) : ending :=
  if unmodelled os then Unmodelled
  else
    let C := cfg_of os in
    let lines := if get_bool os "use-lrb" then [lrb_line] else [] in
    match (s <- solver_init (variables p) (problem p) true (solver_new C) ;; rsolve C (w_oracle w) (w_block w) (w_fuel w) (rst_of os) s) with
    | Err UB => Crashes
    | Err _ => Silent
    | Ok (x, _, s) => min_report B w os p name (r_status x) (r_model x) (rev (cert (sv_d s))) lines
    end.
(** Main.cc:206-222 *)
Definition min_with_problem (B : nat) (w : world) (os : list opt) (p : cnf) : ending :=
  let limit := get_int os "test-limit" in
  let name := get_text os "certified-output" in
  match name, get_bool os "test-proof" with
  | Err _, true => Crashes
  | _, _ =>
    if (0 <? limit)%Z && (limit <? Z.of_nat (variables p))%Z then Exits 0 []
    else if get_bool os "gate-stats" then Unmodelled
    else match name with
         | Err _ => Crashes
         | Ok n => min_run B w os p (proof_name os n)
         end
  end.
(** Main.cc:187-204 *)
Definition min_program (B : nat) (w : world) (args : list string) : ending :=
  match parse_options true cli_options args with
  | Help => Exits 0 []
  | Unknown _ => Exits 1 []
  | Range => Exits 1 []
  | Done os kept =>
    match (match main_input (w_garbage w) args kept with
           | Stdin => Ok (Some (w_stdin w)) | File f => Ok (w_files w f) | NullName => Err UB end) with
    | Err _ => Crashes
    | Ok None => Exits 1 [w_what w]
    | Ok (Some text) =>
      match readDimacs B (w_junk w 0) text cnf_empty with
      | PThrow => Exits 1 [w_what w]
      | PUB => Crashes
      | PFuel => Silent
      | POk p => min_with_problem B w os p
      end
    end
  end.
End MinMain.
