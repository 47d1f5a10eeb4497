(** What the arguments of the program mean (C51), as the help text shows them. *)
Require Import List ZArith String Ascii Verif.Outcome Verif.OptModel.
Import ListNotations.
Open Scope string_scope.

(** decimal numerals *)
Inductive digits : string -> Z -> Prop :=
| digits_one d : d < 10 -> digits (String (ascii_of_nat (48 + d)) "") (Z.of_nat d)
| digits_more s z d : digits s z -> d < 10 -> digits (s ++ String (ascii_of_nat (48 + d)) "") (10 * z + Z.of_nat d).
Inductive decimal : string -> Z -> Prop :=
| decimal_pos s z : digits s z -> decimal s z
| decimal_neg s z : digits s z -> decimal ("-" ++ s) (- z).

(** the value of an option as the program sees it; the text of a string option is read from its array *)
Inductive shown := SBool (b : bool) | SInt (z : Z) | SDouble (text : string) | SString (text : string).
Definition shows (v : value) : out shown :=
  match v with VBool b => Ok (SBool b) | VInt z => Ok (SInt z) | VDouble t => Ok (SDouble t) | VString b => t <- c_str b ;; Ok (SString t) end.

(** a C string has no zero in it *)
Definition cstring (s : string) : Prop := forall a b, s <> a ++ String zero b.

(** [gives n k a v]: the argument [a] gives the option with name [n] and kind [k] the value [v] *)
Inductive gives (n : string) : kind -> string -> shown -> Prop :=
| gives_yes : gives n KBool ("-" ++ n) (SBool true)
| gives_no : gives n KBool ("-no-" ++ n) (SBool false)
| gives_int lo hi text z : decimal text z -> (lo <= z <= hi)%Z -> (- 2 ^ 31 <= z < 2 ^ 31)%Z -> gives n (KInt lo hi) ("-" ++ n ++ "=" ++ text) (SInt z)
| gives_double text : gives n KDouble ("-" ++ n ++ "=" ++ text) (SDouble text)
| gives_string text : cstring text -> length text < 256 -> gives n KString ("-" ++ n ++ "=" ++ text) (SString text).

(** an argument that is a flag *)
Definition flag (a : string) : bool := match a with String c _ => if ascii_dec c "-"%char then true else false | EmptyString => false end.
Definition asks_help (a : string) : Prop := exists s t, a = s ++ "--help" ++ t.
(** an argument that is no flag, or gives a value to some option *)
Definition good (os : list opt) (a : string) : Prop :=
  ~ asks_help a /\ (flag a = false \/ exists o v, In o os /\ gives (o_name o) (o_kind o) a v).
(** an argument written for the option with name [n] and kind [k], with any text as its value *)
Definition names (n : string) (k : kind) (a : string) : Prop :=
  match k with KBool => a = "-" ++ n \/ a = "-no-" ++ n | _ => exists text, a = "-" ++ n ++ "=" ++ text end.
(** the input that the command line asks for: the first argument that is no flag, or the standard input *)
Definition wanted (args : list string) : input := match filter (fun a => negb (flag a)) args with a :: _ => File a | [] => Stdin end.
