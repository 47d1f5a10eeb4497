(** C51: the command line. *)
Require Import List Arith ZArith Lia String Ascii Bool Verif.Outcome Verif.OptModel Verif.OptSpec Verif.OptProofs.
Import ListNotations.
Open Scope string_scope.

(** ** What is true *)
(** When every argument is a file name or gives some option a value, then the program runs with the option values asked for: an
    option that is given a value has the last one, the others have their defaults.  The other arguments stay, in their order. *)
Theorem C51_values : forall args, (forall a, In a args -> good cli_options a) ->
  exists os, parse_options true cli_options args = Done os (filter (fun a => negb (flag a)) args) /\
  forall k o, nth_error cli_options k = Some o -> exists o', nth_error os k = Some o' /\ o_name o' = o_name o /\
    ((forall b w, In b args -> ~ gives (o_name o) (o_kind o) b w) -> shows (o_value o') = shows (o_value o)) /\
    (forall a1 a a2 v, args = (a1 ++ a :: a2)%list -> gives (o_name o) (o_kind o) a v -> (forall b w, In b a2 -> ~ gives (o_name o) (o_kind o) b w) ->
      shows (o_value o') = Ok v).
Proof. exact cli_values. Qed.
Print Assumptions C51_values.

(** The default of every integer option lies in its documented range, and the range in that of a 32-bit integer. *)
Definition int_ok (o : opt) : bool := match o_kind o, o_value o with KInt lo hi, VInt z => ((- 2 ^ 31 <=? lo) && (lo <=? z) && (z <=? hi) && (hi <? 2 ^ 31))%Z | KInt _ _, _ => false | _, _ => true end.
Theorem C51_defaults : forall o lo hi, In o cli_options -> o_kind o = KInt lo hi -> exists z, o_value o = VInt z /\ (- 2 ^ 31 <= lo <= z /\ z <= hi < 2 ^ 31)%Z.
Proof.
  intros o lo hi H K. assert (E : forallb int_ok cli_options = true) by (vm_compute; reflexivity). rewrite forallb_forall in E. specialize (E o H). unfold int_ok in E. rewrite K in E.
  destruct (o_value o); try discriminate. exists z. split; [reflexivity|]. apply andb_prop in E. destruct E as (E & E4). apply andb_prop in E. destruct E as (E & E3). apply andb_prop in E. destruct E as (E1 & E2).
  apply Z.leb_le in E1, E2, E3. apply Z.ltb_lt in E4. lia.
Qed.
Print Assumptions C51_defaults.

(** no argument is written for two options *)
Theorem C51_unambiguous : forall i j o o' a, nth_error cli_options i = Some o -> nth_error cli_options j = Some o' ->
  names (o_name o) (o_kind o) a -> names (o_name o') (o_kind o') a -> i = j.
Proof. exact cli_one. Qed.
Print Assumptions C51_unambiguous.

(** the first flag that is written for no option ends the program with an error message about it *)
Theorem C51_unknown_flag : forall args a r, (forall b, In b args -> good cli_options b) -> flag a = true -> ~ asks_help a ->
  (forall o, In o cli_options -> ~ names (o_name o) (o_kind o) a) -> parse_options true cli_options (args ++ a :: r) = Unknown a.
Proof. exact unknown_flag. Qed.
Print Assumptions C51_unknown_flag.

Theorem C51_help : forall args a r, (forall b, In b args -> good cli_options b) -> asks_help a -> parse_options true cli_options (args ++ a :: r) = Help.
Proof. exact help_arg. Qed.
Print Assumptions C51_help.

(** The input: the first argument that is no flag, or the standard input when there is none.  What is read depends on an uninitialised
    variable; these are exactly the values of it for which the right input is read.  The number of arguments, argc, is one of them. *)
Theorem C51_stdin : forall garbage args, wanted args = Stdin ->
  (main_input garbage args (filter (fun a => negb (flag a)) args) = wanted args <-> garbage = (1 + Z.of_nat (List.length args))%Z).
Proof.
  intros g args H. rewrite H. apply input_stdin. unfold wanted in H. destruct (filter _ args); [reflexivity|discriminate].
Qed.
Print Assumptions C51_stdin.
Theorem C51_file : forall garbage args f, wanted args = File f ->
  (main_input garbage args (filter (fun a => negb (flag a)) args) = wanted args <->
   garbage <> (1 + Z.of_nat (List.length args) + Z.of_nat (List.length (filter (fun a => negb (flag a)) args)))%Z).
Proof.
  intros g args f H. rewrite H. unfold wanted in H. destruct (filter (fun a => negb (flag a)) args) as [|x r] eqn:E; [discriminate|]. injection H as ->.
  rewrite <- E. rewrite (input_file g args f r E). rewrite E. cbn [List.length]. split; lia.
Qed.
Print Assumptions C51_file.

(** Full statement: the program reads the input the command line asks for.  Proved: so it does when the uninitialised variable happens to hold
    the number of arguments.  The rest is false, see C51_stdin_refuted. *)
Theorem C51_input_partial : forall args, (forall a, In a args -> good cli_options a) ->
  exists os kept, parse_options true cli_options args = Done os kept /\ main_input (1 + Z.of_nat (List.length args)) args kept = wanted args.
Proof.
  intros args H. destruct (C51_values args H) as (os & E & _). exists os. eexists. split; [exact E|].
  destruct (wanted args) as [|f|] eqn:W.
  - rewrite <- W. apply C51_stdin; auto.
  - rewrite <- W. apply (C51_file _ args f W). unfold wanted in W. destruct (filter _ args); [discriminate|]. cbn [List.length]. lia.
  - unfold wanted in W. destruct (filter _ args); discriminate.
Qed.
Print Assumptions C51_input_partial.

(** a command line with options of every kind; one option is given twice *)
Definition e_args : list string := ["-verb=0"; "-model"; "problem.cnf"; "-K=0.7"; "-no-pre"; "-certified-output=proof.txt"; "-verb=2"; "-rs-time-limit=-1"].
Lemma no_help a : strstr a "--help" = None -> ~ asks_help a.
Proof. apply help_spec. Qed.
Ltac in_table := vm_compute; repeat ((left; reflexivity) || right).
Ltac dec := lazymatch goal with
  | |- digits (String ?c "") _ => let d := eval vm_compute in (nat_of_ascii c - 48)%nat in apply (digits_one d); lia end.
Example C51_case : (forall a, In a e_args -> good cli_options a) /\ wanted e_args = File "problem.cnf" /\
  gives "verb" (KInt 0 2) "-verb=2" (SInt 2) /\ In (opt_int "verb" 1 0 2) cli_options.
Proof.
  assert (V : forall d, d < 3 -> gives "verb" (KInt 0 2) ("-verb=" ++ String (ascii_of_nat (48 + d)) "") (SInt (Z.of_nat d))).
  { intros d Hd. apply (gives_int "verb" 0 2). - apply decimal_pos, digits_one. lia. - lia. - lia. }
  split; [|split; [reflexivity|split; [exact (V 2 (le_n _))|in_table]]].
  intros a H. unfold e_args in H. cbn [In] in H. split.
  - apply no_help. repeat (destruct H as [<-|H]; [vm_compute; reflexivity|]). destruct H.
  - destruct H as [<-|H]; [right; exists (opt_int "verb" 1 0 2); eexists; split; [in_table|exact (V 0 (le_S _ _ (le_S _ _ (le_n _))))]|].
    destruct H as [<-|H]; [right; exists (opt_bool "model" false); eexists; split; [in_table|exact (gives_yes "model")]|].
    destruct H as [<-|H]; [left; reflexivity|].
    destruct H as [<-|H]; [right; exists (opt_dbl "K" "0.8"); eexists; split; [in_table|exact (gives_double "K" "0.7")]|].
    destruct H as [<-|H]; [right; exists (opt_bool "pre" true); eexists; split; [in_table|exact (gives_no "pre")]|].
    destruct H as [<-|H]; [right; exists (opt_str "certified-output" ""); eexists; split; [in_table|apply (gives_string "certified-output" "proof.txt")]|].
    { apply cstringb_ok. reflexivity. } { cbn. lia. }
    destruct H as [<-|H]; [right; exists (opt_int "verb" 1 0 2); eexists; split; [in_table|exact (V 2 (le_n _))]|].
    destruct H as [<-|H]; [right; exists (opt_int "rs-time-limit" (-1) (-1) imax); eexists; split; [in_table|]|destruct H].
    apply (gives_int "rs-time-limit" (-1) imax "-1" (-1)). { apply (decimal_neg "1" 1). apply (digits_one 1). lia. } { unfold imax. lia. } { lia. }
Qed.
Print Assumptions C51_case.
Example C51_unknown_case : flag "-asymm" = true /\ ~ asks_help "-asymm" /\ forall o, In o cli_options -> ~ names (o_name o) (o_kind o) "-asymm".
Proof.
  split; [reflexivity|]. split; [apply no_help; reflexivity|]. intros o Ho K. apply parse_names in K. apply K.
  assert (H : forallb (fun o => match parse_opt o "-asymm" with PNo => true | _ => false end) cli_options = true) by (vm_compute; reflexivity).
  rewrite forallb_forall in H. specialize (H o Ho). destruct (parse_opt o "-asymm"); [reflexivity|discriminate..].
Qed.
Example C51_stdin_case : wanted ["-model"; "-verb=0"] = Stdin. Proof. reflexivity. Qed.

(** ** What is false *)
(** No value is ever rejected as out of range: the documented ranges are not enforced. *)
Theorem C51_range_refuted : (forall args, parse_options true cli_options args <> Range) /\
  exists o text z os o', In o cli_options /\ o_kind o = KInt 1 16 /\ decimal text z /\ (z < 1)%Z /\
  parse_options true cli_options ["-" ++ o_name o ++ "=" ++ text] = Done os [] /\ In o' os /\ o_name o' = o_name o /\ shows (o_value o') = Ok (SInt z).
Proof.
  split; [exact cli_range|]. exists (opt_int "threads" 1 1 16), "0", 0%Z. eexists. exists (mkOpt "threads" (KInt 1 16) (VInt 0)).
  split; [in_table|]. split; [reflexivity|]. split; [apply decimal_pos; apply (digits_one 0); lia|]. split; [lia|]. split; [vm_compute; reflexivity|].
  split; [left; reflexivity|]. split; reflexivity.
Qed.
Print Assumptions C51_range_refuted.

(** A value that is no number is taken for 0, a number of more than 32 bits for another number. *)
Theorem C51_number_refuted : exists os1 os2 o1 o2, In (opt_int "threads" 1 1 16) cli_options /\
  parse_options true cli_options ["-threads=four"] = Done os1 [] /\ nth_error os1 0 = Some o1 /\ o_name o1 = "threads" /\ shows (o_value o1) = Ok (SInt 0) /\
  parse_options true cli_options ["-threads=4294967298"] = Done os2 [] /\ nth_error os2 0 = Some o2 /\ o_name o2 = "threads" /\ shows (o_value o2) = Ok (SInt 2).
Proof.
  eexists. eexists. eexists. eexists. split; [in_table|]. split; [vm_compute; reflexivity|]. split; [reflexivity|]. split; [reflexivity|]. split; [reflexivity|].
  split; [vm_compute; reflexivity|]. split; [reflexivity|]. split; reflexivity.
Qed.
Print Assumptions C51_number_refuted.

(** A text of 256 or more characters is stored without its end: reading the option reads beyond the array. *)
Theorem C51_long_text_refuted : forall n old text, cstring text -> 256 <= length text ->
  exists w, parse_opt (mkOpt n KString old) ("-" ++ n ++ "=" ++ text) = PYes w /\ shows w = Err UB.
Proof. exact long_string. Qed.
Print Assumptions C51_long_text_refuted.
Fixpoint many (n : nat) : string := match n with 0 => "" | S n => String "a"%char (many n) end.
Example C51_long_text_case : cstring (many 256) /\ 256 <= length (many 256).
Proof. split; [apply cstringb_ok; vm_compute; reflexivity|vm_compute; lia]. Qed.

(** A file whose name contains "--help" cannot be read. *)
Theorem C51_file_name_refuted : exists f, flag f = false /\ wanted [f] = File f /\ parse_options true cli_options [f] = Help.
Proof. exists "my--help.cnf". split; [reflexivity|]. split; [reflexivity|]. vm_compute. reflexivity. Qed.
Print Assumptions C51_file_name_refuted.

(** Without a file name, and for every value of the uninitialised variable but one, the program does not read the standard input: without
    arguments it uses a null pointer as the file name, otherwise it takes its first flag for the file name. *)
Theorem C51_stdin_refuted : forall garbage args, (forall a, In a args -> flag a = true) -> garbage <> (1 + Z.of_nat (List.length args))%Z ->
  main_input garbage args (filter (fun a => negb (flag a)) args) = match args with a :: _ => File a | [] => NullName end.
Proof.
  intros g args H Hg. assert (E : filter (fun a => negb (flag a)) args = []).
  { clear Hg. induction args as [|a r IH]; [reflexivity|]. cbn [filter]. rewrite (H a (or_introl eq_refl)). cbn [negb]. apply IH. intros b Hb. apply H. right. exact Hb. }
  rewrite E. unfold main_input, argc_after, argv_after. cbn [List.length app skipn].
  destruct (Z.eqb_spec (1 + Z.of_nat (List.length args) - (g - (1 + Z.of_nat 0))) 1); [lia|reflexivity].
Qed.
Print Assumptions C51_stdin_refuted.
