(** Model of the fuzzing program fuzz_ipasir (src/candy/FuzzIpasir.cc). *)
Require Import List Arith ZArith NArith String Bool.
Require Import Verif.Base Verif.Outcome Verif.OptModel Verif.CNFModel Verif.DimacsModel Verif.SolverModel Verif.DRATModel Verif.DratFileModel Verif.IpasirModel Verif.MainModel.
Import ListNotations.
Open Scope list_scope.

(** FuzzIpasir.cc:13-15 *)
Definition c2i (l : lit) : Z := ((Z.of_nat (lvar l) + 1) * (if lsign l then -1 else 1))%Z.
(** FuzzIpasir.cc:17-18: the object [certificate] empties the file before main starts, if it can be opened for writing.
    Nobody writes to this object afterwards: the solver has a certificate of its own, for the name in the option
    certified-output (ClauseDatabase.h:89), which is empty as the program reads no options, and which is not opened (Certificate.h:49-55). *)
Definition cert_name : string := "cert.drat".
Definition fuzz_file (w : world) (f : string) : option (list nat) :=
  if String.eqb f cert_name && w_writable w f then Some [] else w_files w f.
(** CandyBuilder.cc:57-139: the options keep their default values *)
Definition fuzz_cfg : cfg := cfg_of cli_options.
(** FuzzIpasir.cc:42-47 *)
Definition fuzz_add (s : ips) (c : clause) : ips := ipasir_add 0 (fold_left (fun s l => ipasir_add (c2i l) s) c s).
(** FuzzIpasir.cc:40-54: the literals of the first clause are the assumptions *)
Definition fuzz_load (p : cnf) : ips :=
  fold_left (fun s l => ipasir_assume (c2i l) s) (hd [] (problem p)) (fold_left fuzz_add (problem p) (ipasir_init fuzz_cfg)).
(** FuzzIpasir.cc:58-65 *)
Definition fuzz_model (n : nat) (s : ips) : model :=
  fold_left (fun m v => setModelValue m (mkLit v (negb (0 <? ipasir_val (Z.of_nat v + 1) s)%Z))) (seq 0 n) [].
(** FuzzIpasir.cc:79-83 *)
Fixpoint fuzz_failed (ls : list lit) (s : ips) (p : cnf) : out cnf :=
  match ls with
  | [] => Ok p
  | l :: r => '(b, s) <- ipasir_failed (c2i l) s ;; fuzz_failed r s (if b : bool then readClause p [l] else p)
  end.
(** FuzzIpasir.cc:56-97; assertions are switched off *)
Definition fuzz_answer (B : nat) (w : world) (p : cnf) (r : Z) (s : ips) : ending :=
  if (r =? 10)%Z then
    match checkResult (problem p) (fuzz_model (variables p) s) with
    | None => Crashes
    | Some true => Exits 0 [model_verified]
    | Some false => Exits 1 [model_refused]
    end
  else if (r =? 20)%Z then
    match fuzz_failed (hd [] (problem p)) s p with
    | Err UB => Crashes
    | Err _ => Silent
    | Ok q =>
      match fuzz_file w cert_name with
      | None => Throws
      | Some text =>
        match check_proof_file B (w_junk w 1) text (variables q) (problem q) with
        | POk (Ok true) => Exits 0 [proof_verified]
        | POk (Ok false) => Exits 1 [proof_refused]
        | POk (Err UB) => Crashes
        | POk (Err _) => Silent
        | PThrow => Throws
        | PUB => Crashes
        | PFuel => Silent
        end
      end
    end
  else Exits 0 [].
(** FuzzIpasir.cc:20-98; [args] without the name of the program.  The lines of the output are those about the result, and the text of a
    parser error *)
Definition fuzz_main (B : nat) (w : world) (args : list string) : ending :=
  match args with
  | [] => Exits 0 []
  | f :: _ =>
    match fuzz_file w f with
    | None => Exits 1 [w_what w]
    | Some text =>
      match readDimacs B (w_junk w 0) text cnf_empty with
      | PThrow => Exits 1 [w_what w]
      | PUB => Crashes
      | PFuel => Silent
      | POk p =>
        if ((100 <? variables p) || (List.length (problem p) =? 0))%nat then Exits 0 []
        else match ipasir_solve fuzz_cfg (w_oracle w) (w_fuel w) (fuzz_load p) with
             | Err UB => Crashes
             | Err _ => Silent
             | Ok (r, s) => fuzz_answer B w p r s
             end
      end
    end
  end.
