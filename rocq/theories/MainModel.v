(** Model of the program with one thread (src/candy/Main.cc:183-392): command line, input, solver, output, self tests and exit code. *)
Require Import List Arith ZArith NArith String Ascii Bool.
Require Import Verif.Base Verif.Outcome Verif.OptModel Verif.CNFModel Verif.DimacsModel Verif.DbModel Verif.SolverModel Verif.RestartModel
  Verif.DRATModel Verif.DratFileModel Verif.DratTextModel.
Import ListNotations.
Open Scope list_scope.

(** the bytes of a text *)
Definition bytes (s : string) : list nat := map nat_of_ascii (list_ascii_of_string s).

(** ** Values of options (src/candy/utils/Options.h): the object with the given name *)
Definition lookup (os : list opt) (n : string) : option OptModel.value := option_map o_value (find (fun o => String.eqb (o_name o) n) os).
Definition get_bool (os : list opt) (n : string) : bool := match lookup os n with Some (VBool b) => b | _ => false end.
Definition get_int (os : list opt) (n : string) : Z := match lookup os n with Some (VInt z) => z | _ => 0%Z end.
Definition get_text (os : list opt) (n : string) : out string := match lookup os n with Some (VString b) => c_str b | _ => Ok EmptyString end.
(** conversion of int32_t to unsigned int *)
Definition u32 (z : Z) : N := Z.to_N (z mod 2 ^ 32).
(** What the constructor of the solver reads (Solver.h:307-308, ReduceDB.h:42-46, ClauseDatabase.h:87, VariableElimination.h:89-92).
    The option asymm is not in the table of the parser, its value is false (CLIOptions.cc:100). *)
Definition cfg_of (os : list opt) : cfg :=
  mkCfg (get_bool os "pre") (u32 (get_int os "inprocessing")) (get_bool os "elim") false (N.to_nat (u32 (get_int os "cl-lim")))
        (get_bool os "recalculate-lbd") (u32 (get_int os "persistentLBD")) (get_bool os "keep-median-lbd")
        (u32 (get_int os "firstReduceDB")) (u32 (get_int os "incReduceDB")).
(** Restart.h:47-48: the lengths of the queues *)
Definition rst_of (os : list opt) : rst := rst_new (N.to_nat (u32 (get_int os "szLBDQueue"))) (N.to_nat (u32 (get_int os "szTrailQueue"))).

(** ** What the program meets *)
(** [w_garbage]: the uninitialised variable of parseOptions (OptModel.v); [w_files]: the files before the run (decompressed), [None] if a file
    cannot be opened; [w_writable]: the files that can be opened for writing; [w_junk k]: what is in the k-th input buffer before
    it is filled; [w_what]: the text of an exception; [w_oracle], [w_block], [w_fuel]: the choices inside the solver (SolverModel.v,
    RestartModel.v) *)
Record world := mkWorld {
  w_garbage : Z; w_files : string -> option (list nat); w_stdin : list nat; w_writable : string -> bool;
  w_junk : nat -> list nat; w_what : list nat; w_oracle : oracle; w_block : N -> bool; w_fuel : nat }.

(** How the program ends.  [Exits]: the exit code and the lines on the standard output, without the comments that make no claim
    about the result ("c ..." lines of statistics and options).  [Crashes]: undefined behaviour.  [Throws]: an uncaught exception.
    [Silent]: the model has no answer (a loop bound of the model, a clause of more than 65535 literals). [Unmodelled]: another
    mode of the program. *)
Inductive ending := Exits (code : Z) (lines : list (list nat)) | Crashes | Throws | Silent | Unmodelled.

(** Main.cc:316 *)
Definition status_line (r : option bool) : list nat :=
  match r with Some true => bytes "s SATISFIABLE" | Some false => bytes "s UNSATISFIABLE" | None => bytes "s INDETERMINATE" end.
(** Main.cc:389, 391 *)
Definition exit_code (r : option bool) : Z := match r with Some true => 10 | Some false => 20 | None => 0 end.
(** Main.cc:336-340, CandySolverResult.h:81-91: lit_Undef has the number -2 and is printed as 0; a read behind the model is undefined *)
Definition print_value (o : option lit) : list nat := match o with Some l => print_lit l | None => [48] end.
Fixpoint print_values (m : model) (vs : list var) : option (list nat) :=
  match vs with
  | [] => Some (bytes " 0")
  | v :: r => match CNFModel.value m v with
              | None => None
              | Some o => option_map (fun t => 32 :: print_value o ++ t) (print_values m r)
              end
  end.
Definition value_line (m : model) (n : nat) : option (list nat) := option_map (cons 118) (print_values m (seq 0 n)).

Definition model_verified := bytes "c Result verified by model checker".
Definition model_refused := bytes "c Result could not be verified by model checker".
Definition proof_verified := bytes "c Result verified by proof checker".
Definition proof_refused := bytes "c Result could not be verified by proof checker".
Definition lrb_line := bytes "Building Solver of Type Solver<Propagate, ConflictAnalysis, LRB>".

(** Main.cc:206-208 *)
Definition proof_name (os : list opt) (n : string) : string :=
  if get_bool os "test-proof" && String.eqb n "" then "proof.drat"%string else n.
(** Certificate.h:49-55: an empty name is not opened; Main.cc:370-373 the file afterwards *)
Definition proof_file (w : world) (name : string) (ls : list cline) : option (list nat) :=
  if negb (String.eqb name "") && w_writable w name then Some (print_proof ls) else w_files w name.

(** Main.cc:356-391; assertions are switched off *)
Definition self_test (B : nat) (w : world) (os : list opt) (p : cnf) (name : string) (r : option bool) (m : model) (ls : list cline) (lines : list (list nat)) : ending :=
  match r with
  | Some true =>
    if get_bool os "test-model" then
      match checkResult (problem p) m with
      | None => Crashes
      | Some true => Exits 0 (lines ++ [model_verified])
      | Some false => Exits 1 (lines ++ [model_refused])
      end
    else Exits (exit_code r) lines
  | Some false =>
    if get_bool os "test-proof" then
      match proof_file w name ls with
      | None => Throws
      | Some text =>
        match check_proof_file B (w_junk w 1) text (variables p) (problem p) with
        | POk (Ok true) => Exits 0 (lines ++ [proof_verified])
        | POk (Ok false) => Exits 1 (lines ++ [proof_refused])
        | POk (Err UB) => Crashes
        | POk (Err _) => Silent
        | PThrow => Throws
        | PUB => Crashes
        | PFuel => Silent
        end
      end
    else Exits (exit_code r) lines
  | None => Exits (exit_code r) lines
  end.
(** Main.cc:316-341 *)
Definition report (B : nat) (w : world) (os : list opt) (p : cnf) (name : string) (r : option bool) (m : model) (ls : list cline) (lines : list (list nat)) : ending :=
  let lines := lines ++ [status_line r] in
  match r with
  | Some true =>
    if get_bool os "minimize" then Unmodelled
    else if get_bool os "model" then
      match value_line m (variables p) with
      | None => Crashes
      | Some v => self_test B w os p name r m ls (lines ++ [v])
      end
    else self_test B w os p name r m ls lines
  | _ => self_test B w os p name r m ls lines
  end.
(** Main.cc:227-241, CandyBuilder.cc:57-139: static propagation, and the branching heuristics RSIL and VSIDSC, which LRB overrules, are
    not modelled, neither is abstraction refinement (ARModel.v); what LRB and VSIDS choose is in the oracle *)
Definition unmodelled (os : list opt) : bool :=
  negb (get_int os "threads" =? 1)%Z || get_bool os "rsar-enable" || get_bool os "static-propagate" ||
  (negb (get_bool os "use-lrb") && (get_bool os "rsil-enable" || get_bool os "use-vsidsc")).
Definition run (B : nat) (w : world) (os : list opt) (p : cnf) (name : string) : ending :=
  if unmodelled os then Unmodelled
  else
    let C := cfg_of os in
    let lines := if get_bool os "use-lrb" then [lrb_line] else [] in
    match (s <- solver_init (variables p) (problem p) true (solver_new C) ;; rsolve C (w_oracle w) (w_block w) (w_fuel w) (rst_of os) s) with
    | Err UB => Crashes
    | Err _ => Silent
    | Ok (x, _, s) => report B w os p name (r_status x) (r_model x) (rev (cert (sv_d s))) lines
    end.
(** Main.cc:206-222; the name of the proof file is read here for the self test, else in the constructor of the solver; the
    number of variables is below 2^31 *)
Definition with_problem (B : nat) (w : world) (os : list opt) (p : cnf) : ending :=
  let limit := get_int os "test-limit" in
  let name := get_text os "certified-output" in
  match name, get_bool os "test-proof" with
  | Err _, true => Crashes
  | _, _ =>
    if (0 <? limit)%Z && (limit <? Z.of_nat (variables p))%Z then Exits 0 []
    else if get_bool os "gate-stats" then Unmodelled
    else match name with
         | Err _ => Crashes
         | Ok n => run B w os p (proof_name os n)
         end
  end.
(** Main.cc:187-204; the message of a parser error has a line of its own *)
Definition program (B : nat) (w : world) (args : list string) : ending :=
  match parse_options true cli_options args with
  | Help => Exits 0 []
  | Unknown _ => Exits 1 []
  | Range => Exits 1 []
  | Done os kept =>
    match (match main_input (w_garbage w) args kept with
           | Stdin => Ok (Some (w_stdin w)) | File f => Ok (w_files w f) | NullName => Err UB end) with
    | Err _ => Crashes
    | Ok None => Exits 1 [w_what w]
    | Ok (Some text) =>
      match readDimacs B (w_junk w 0) text cnf_empty with
      | PThrow => Exits 1 [w_what w]
      | PUB => Crashes
      | PFuel => Silent
      | POk p => with_problem B w os p
      end
    end
  end.
