(** Model of the command line: Option and its subclasses (src/candy/utils/Options.h), parseOptions
    (src/candy/utils/Options.cc:35-60), the option table (src/candy/frontend/CLIOptions.cc:26-138) and the choice of
    the input in main (src/candy/Main.cc:187-203). *)
Require Import List Arith ZArith String Ascii Bool Verif.Outcome.
Import ListNotations.
Open Scope string_scope.

(** strstr of the C library: the position of the first occurrence *)
Fixpoint strstr (s p : string) : option nat :=
  if prefix p s then Some 0 else match s with EmptyString => None | String _ r => option_map S (strstr r p) end.

(** isspace of the C locale *)
Definition isspace (c : ascii) : bool := let n := nat_of_ascii c in ((n =? 32) || ((9 <=? n) && (n <=? 13)))%nat.
Definition digit (c : ascii) : option Z := let n := nat_of_ascii c in if ((48 <=? n) && (n <=? 57))%nat then Some (Z.of_nat (n - 48)%nat) else None.
Fixpoint skip_space (s : string) : string :=
  match s with String c r => if isspace c then skip_space r else s | EmptyString => s end.
(** the number of the leading digits; 0 without digits *)
Fixpoint number (acc : Z) (s : string) : Z :=
  match s with String c r => match digit c with Some d => number (acc * 10 + d)%Z r | None => acc end | EmptyString => acc end.
(** strtol and strtoll with base 10 and 64 bits: white space, a sign, digits; the result is clamped; without digits it is 0.
    The pointer written to [end] is never null. *)
Definition strtol (s : string) : Z :=
  let s := skip_space s in
  let z := match s with
    | String c r => if ascii_dec c "-"%char then Z.opp (number 0 r) else if ascii_dec c "+"%char then number 0 r else number 0 s
    | EmptyString => 0%Z end in
  Z.max (- 2 ^ 63)%Z (Z.min (2 ^ 63 - 1)%Z z).
(** conversion of a long to int32_t: modulo 2^32 *)
Definition int32 (z : Z) : Z := ((z + 2 ^ 31) mod 2 ^ 32 - 2 ^ 31)%Z.

(** Values.  A double is represented by the text that strtod reads: the arithmetic of doubles is not modelled.  A string is the
    array of 256 characters of the option (Options.h:332). *)
Inductive value := VBool (b : bool) | VInt (z : Z) | VDouble (text : string) | VString (buffer : list ascii).
(** Kinds with the range of an integer option (Options.h:105-109).  The range of a double option is not modelled: its test
    [tmp > range.end && tmp < range.begin] holds for no double, since begin <= end for all options of the table.  There is no
    Int64Option in the table. *)
Inductive kind := KBool | KInt (lo hi : Z) | KDouble | KString.
Record opt := mkOpt { o_name : string; o_kind : kind; o_value : value }.
Definition set_value (v : value) (o : opt) : opt := mkOpt (o_name o) (o_kind o) v.

(** strncpy with size [n]: copies up to [n] characters and fills the rest with zeros (Options.h:350-353) *)
Fixpoint strncpy (n : nat) (s : string) : list ascii :=
  match n with 0 => [] | S n => match s with EmptyString => zero :: strncpy n EmptyString | String c r => c :: strncpy n r end end.
(** reading the array as a C string: a memory error when there is no zero in it *)
Fixpoint c_str (b : list ascii) : out string :=
  match b with [] => Err UB | c :: r => if ascii_dec c zero then Ok EmptyString else x <- c_str r ;; Ok (String c x) end.

Inductive parsed := PNo | PYes (v : value) | PExit.

(** [span == str] *)
Definition at_start (s p : string) : bool := match strstr s p with Some 0 => true | _ => false end.
Definition rest (n : nat) (s : string) : string := substring n (length s - n)%nat s.

(** Option::parse of the four classes (Options.h:146-165, 205-224, 339-348, 388-403) *)
Definition parse_opt (o : opt) (str : string) : parsed :=
  match o_kind o with
  | KBool =>
    let yes := "-" ++ o_name o in let no := "-no-" ++ o_name o in
    if at_start str yes && (length str =? length yes)%nat then PYes (VBool true)
    else if at_start str no && (length str =? length no)%nat then PYes (VBool false) else PNo
  | KInt lo hi =>
    let pattern := "-" ++ o_name o ++ "=" in
    if at_start str pattern then
      let tmp := int32 (strtol (rest (length pattern) str)) in
      if (hi <? tmp)%Z && (tmp <? lo)%Z then PExit else PYes (VInt tmp)
    else PNo
  | KDouble =>
    let pattern := "-" ++ o_name o ++ "=" in
    if at_start str pattern then PYes (VDouble (rest (length pattern) str)) else PNo
  | KString =>
    let pattern := "-" ++ o_name o ++ "=" in
    if at_start str pattern then PYes (VString (strncpy 256 (rest (length pattern) str))) else PNo
  end.

(** the loop over the options (Options.cc:45-47): the first option that parses the argument takes it *)
Inductive taken := TNo | TYes (os : list opt) | TExit.
Fixpoint parse_arg (os : list opt) (str : string) : taken :=
  match os with
  | [] => TNo
  | o :: r =>
    match parse_opt o str with
    | PYes v => TYes (set_value v o :: r)
    | PExit => TExit
    | PNo => match parse_arg r str with TNo => TNo | TExit => TExit | TYes r' => TYes (o :: r') end
    end
  end.

(** How parseOptions ends: it returns, it prints the help and exits with 0, it exits with 1 for an unknown flag or a value out of
    range. *)
Inductive ended := Done (os : list opt) (kept : list string) | Help | Unknown (arg : string) | Range.
(** the loop over the arguments (Options.cc:37-58); [kept] are the arguments moved to the front, argv[1] up to argv[j-1] *)
Fixpoint parse_loop (strict : bool) (os : list opt) (kept : list string) (args : list string) : ended :=
  match args with
  | [] => Done os kept
  | a :: r =>
    match strstr a "--help" with
    | Some _ => Help
    | None =>
      match parse_arg os a with
      | TYes os' => parse_loop strict os' kept r
      | TExit => Range
      | TNo => if strict && match a with String c _ => if ascii_dec c "-"%char then true else false | EmptyString => false end then Unknown a
               else parse_loop strict os (kept ++ [a])%list r
      end
    end
  end.
Definition parse_options (strict : bool) (os : list opt) (args : list string) : ended := parse_loop strict os [] args.

(** [argc -= (i - j)] (Options.cc:59).  The [i] of this line is the variable declared at Options.cc:36, not the one of the loop:
    it has no value yet, [garbage] is what it happens to hold.  The loop leaves j = 1 + number of kept arguments. *)
Definition argc_after (garbage : Z) (args kept : list string) : Z :=
  ((1 + Z.of_nat (List.length args)) - (garbage - (1 + Z.of_nat (List.length kept))))%Z.
(** argv[1] and the following entries afterwards: the kept arguments overwrite the front (Options.cc:54) *)
Definition argv_after (args kept : list string) : list string := (kept ++ skipn (List.length kept) args)%list.

(** what main reads (Main.cc:191-199): standard input, the file argv[1]; argv[argc] is a null pointer *)
Inductive input := Stdin | File (name : string) | NullName.
Definition main_input (garbage : Z) (args kept : list string) : input :=
  if (argc_after garbage args kept =? 1)%Z then Stdin
  else match argv_after args kept with a :: _ => File a | [] => NullName end.

(** CLIOptions.cc:26-138, in the order of the definitions; a disabled option (asymm) is not in the list (Options.h:80-88) *)
Definition imax := (2 ^ 31 - 1)%Z.
Definition smax := (2 ^ 15 - 1)%Z.
Definition opt_bool (n : string) (b : bool) := mkOpt n KBool (VBool b).
Definition opt_int (n : string) (v lo hi : Z) := mkOpt n (KInt lo hi) (VInt v).
Definition opt_dbl (n v : string) := mkOpt n KDouble (VDouble v).
Definition opt_str (n v : string) := mkOpt n KString (VString (strncpy 256 v)).
Definition cli_options : list opt := [
  opt_int "threads" 1 1 16; opt_int "thread-initialization-delay" 10000 10 imax; opt_bool "static-propagate" false;
  opt_bool "static-database" false; opt_int "static_database_size_bound" 6 0 smax;
  opt_int "persistentLBD" 3 0 127; opt_bool "recalculate-lbd" true; opt_bool "keep-median-lbd" false;
  opt_int "firstReduceDB" 3000 0 smax; opt_int "incReduceDB" 1300 0 smax;
  opt_bool "minimize" false; opt_bool "minimize-pruned" false; opt_bool "minimize-minimal" false; opt_bool "minimize-project" false;
  opt_bool "test-model" false; opt_bool "test-proof" false; opt_int "test-limit" 0 0 1000;
  opt_int "verb" 1 0 2; opt_bool "model" false; opt_str "certified-output" ""; opt_bool "gate-stats" false;
  opt_int "memory-limit" imax 0 imax; opt_int "time-limit" imax 0 imax;
  opt_dbl "K" "0.8"; opt_dbl "R" "1.4"; opt_int "szLBDQueue" 50 10 smax; opt_int "szTrailQueue" 5000 10 smax;
  opt_dbl "var-decay" "0.8"; opt_dbl "max-var-decay" "0.95"; opt_bool "extra-bump" false;
  opt_bool "use-vsidsc" false; opt_int "vsidsc-mult" 1 1 smax; opt_bool "vsidsc-bump" true; opt_bool "vsidsc-lwcc" false;
  opt_dbl "vsidsc-sample-size" "1.0"; opt_dbl "vsidsc-sample-size-decay" "1.0"; opt_dbl "vsidsc-dbsize-recalc" "0.0"; opt_bool "vsidsc-debug" false;
  opt_bool "use-lrb" false; opt_dbl "lrb-step-size" "0.4"; opt_dbl "lrb-min-step-size" "0.06";
  opt_bool "sort-variables" false; opt_bool "pre" true; opt_int "inprocessing" 0 (- 2 ^ 31) imax;
  opt_str "sonification-host" "127.0.0.1"; opt_int "sonification-port" 7000 1 99999; opt_int "sonification-delay" 0 0 smax;
  opt_int "cl-lim" 20 0 imax; opt_bool "elim" true;
  opt_int "gate-recognition-method" 10 0 30; opt_int "gate-tries" 0 0 imax; opt_int "gate-timeout" 0 0 imax;
  opt_int "rs-rounds" 1048576 1 imax; opt_bool "rs-abort-by-rrat" false; opt_dbl "rs-rrat" "0.01"; opt_int "rs-max-conj-size" 0 0 imax;
  opt_bool "rs-remove-backbone-conj" false; opt_bool "rs-only-nonmono-gates" false; opt_int "rs-time-limit" (-1) (-1) imax;
  opt_bool "rsil-enable" false; opt_str "rsil-mode" "unrestricted"; opt_int "advice-size" 3 2 3; opt_int "rsil-van-halflife" (2 ^ 24) 1 imax;
  opt_int "rsil-imp-budgets" (2 ^ 20) 1 imax; opt_int "rsil-filter-by-input-dependencies" 0 0 imax; opt_bool "rsil-filter-only-backbone" false;
  opt_dbl "rsil-min-gate-frac" "0.1"; opt_bool "rsil-only-miters" false;
  opt_bool "rsar-enable" false; opt_int "rsar-max-refinements" 10 1 imax; opt_str "rsar-heur-idc" ""; opt_int "rsar-min-gatecount" 100 1 imax ].
