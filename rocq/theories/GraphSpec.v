(** Specification for C60-C62: graphs as neighbour lists, walks, shortest paths, betweenness, components. *)
From Coq Require Import List Arith Bool QArith Relations.
Import ListNotations.
From Verif Require Import Base.
Open Scope nat_scope.

(** All walks of length [k] from [s] to [t], as lists of nodes from [s] to [t]. *)
Fixpoint walks (adj : nat -> list nat) (k s t : nat) : list (list nat) :=
  match k with
  | 0 => if s =? t then [[s]] else []
  | S k' => flat_map (fun u => map (cons s) (walks adj k' u t)) (adj s)
  end.

(** The first list in a list of lists that is not empty. *)
Fixpoint firstNonempty {A} (ls : list (list A)) : list A :=
  match ls with
  | [] => []
  | [] :: r => firstNonempty r
  | l :: _ => l
  end.

(** All shortest walks from [s] to [t] in a graph of [n] nodes; none if [t] cannot be reached. *)
Definition shortest (n : nat) (adj : nat -> list nat) (s t : nat) : list (list nat) :=
  firstNonempty (map (fun k => walks adj k s t) (seq 0 n)).

(** The fraction of the shortest walks from [s] to [t] that pass through [v]; 0 if there are none. *)
Definition share (n : nat) (adj : nat -> list nat) (s t v : nat) : Q :=
  let l := shortest n adj s t in
  (inject_Z (Z.of_nat (length (filter (existsb (Nat.eqb v)) l))) / inject_Z (Z.of_nat (length l)))%Q.

Definition qsum (l : list Q) : Q := fold_right Qplus 0%Q l.

(** Betweenness of [v] with respect to a list of sources: the sum of the shares over all sources [s] and
    all targets [t], both different from [v]. *)
Definition betweenness (n : nat) (adj : nat -> list nat) (srcs : list nat) (v : nat) : Q :=
  qsum (map (fun s => if s =? v then 0%Q
                      else qsum (map (fun t => if t =? v then 0%Q else share n adj s t v) (seq 0 n))) srcs).

(** Neighbour lists of a simple undirected graph on the nodes [0 .. n-1]. *)
Record simple (n : nat) (adj : nat -> list nat) : Prop := mkSimple {
  si_range : forall u v, u < n -> In v (adj u) -> v < n;
  si_nodup : forall u, u < n -> NoDup (adj u);
  si_sym : forall u v, u < n -> In v (adj u) -> In u (adj v)
}.

(** Every two different nodes with a common neighbour are neighbours: all components are complete. *)
Definition cliques (n : nat) (adj : nat -> list nat) : Prop :=
  forall u v w, u < n -> In v (adj u) -> In w (adj v) -> u <> w -> In w (adj u).

(** Two nodes are connected. *)
Definition connected (adj : nat -> list nat) : nat -> nat -> Prop :=
  clos_refl_trans nat (fun u v => In v (adj u)).

(** Two positions of a clause that is not deleted hold the variables [x] and [y]. *)
Definition together (cls : list (bool * clause)) (x y : var) : Prop :=
  exists c i j, In (false, c) cls /\ i <> j /\
    nth_error (map lvar c) i = Some x /\ nth_error (map lvar c) j = Some y.

(** The variable occurs in a clause with at least two literals that is not deleted. *)
Definition linked (cls : list (bool * clause)) (x : var) : Prop :=
  exists c, In (false, c) cls /\ 2 <= length c /\ In x (map lvar c).

(** A list holds the values [B] of the nodes divided by the largest of them, or nothing but "not a
    number" if all values are 0. *)
Definition normalised (n : nat) (B : nat -> Q) (l : list (option Q)) : Prop :=
  length l = n /\
  (((forall v, v < n -> (B v == 0)%Q) /\ (forall v, v < n -> nth_error l v = Some None)) \/
   (exists m, m < n /\ (0 < B m)%Q /\ (forall v, v < n -> (B v <= B m)%Q) /\
      forall v, v < n -> exists q, nth_error l v = Some (Some q) /\ (q == B v / B m)%Q)).

(** The nodes [0 .. n-1] with the names [lab] and the neighbours [adj] are the variables that occur with
    others, joined when they occur together. *)
Record interaction (cls : list (bool * clause)) (n : nat) (lab : nat -> var) (adj : nat -> list nat) : Prop := mkInteraction {
  in_inj : forall i j, i < n -> j < n -> lab i = lab j -> i = j;
  in_onto : forall x, linked cls x <-> exists i, i < n /\ lab i = x;
  in_adj : forall i j, i < n -> j < n -> (In j (adj i) <-> together cls (lab i) (lab j));
  in_simple : simple n adj
}.

(** The edges of an undirected graph without loops, each once. *)
Definition edgePairs (n : nat) (adj : nat -> list nat) : list (nat * nat) :=
  filter (fun p => (fst p <? snd p) && existsb (Nat.eqb (snd p)) (adj (fst p))) (list_prod (seq 0 n) (seq 0 n)).

(** The clauses that may stand in the database: not empty, variables in range. *)
Definition usable (nvars : nat) (cls : list (bool * clause)) : Prop :=
  forall c, In (false, c) cls -> c <> [] /\ forall l, In l c -> lvar l < nvars.

(** No clause repeats a variable. *)
Definition plain (cls : list (bool * clause)) : Prop :=
  forall c, In (false, c) cls -> NoDup (map lvar c).

(** The members of a list of nodes are one connected component. *)
Definition component (n : nat) (adj : nat -> list nat) (C : list nat) : Prop :=
  NoDup C /\ (forall u, In u C -> u < n) /\ C <> [] /\
  forall u v, In u C -> v < n -> (In v C <-> connected adj u v).

(** The value of an activity after a bump by [inc]: the plain bump adds [inc], the weighted one
    [inc * (1 + centrality * factor)]; [None] is not a number. *)
Definition bumpValue (weighted : bool) (factor : nat) (ce a : option Q) (inc : Q) : option Q :=
  match weighted, ce, a with
  | false, _, Some a => Some (a + inc)%Q
  | true, Some c, Some a => Some (a + (1 + c * inject_Z (Z.of_nat factor)) * inc)%Q
  | _, _, _ => None
  end.

(** The value of the activity of [x] after the bumps [xs] of variables. *)
Definition bumpedTo (weighted : bool) (factor : nat) (ce : option Q) (xs : list (nat * Q)) (x : nat) (a : option Q) : option Q :=
  fold_left (fun a yi => if fst yi =? x then bumpValue weighted factor ce a (snd yi) else a) xs a.
