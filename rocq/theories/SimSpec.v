(** Specification vocabulary for random simulation. *)
Require Import List Arith Bool NArith.
Require Import Verif.Base Verif.Outcome Verif.CNFModel Verif.GateModel Verif.SimModel.
Import ListNotations.

(** vectors of K words of 64 bits *)
Definition wf_vec (K : nat) (x : list N) : Prop := length x = K /\ forall w, In w x -> (w < 2 ^ 64)%N.
Definition wf_vectors (K size : nat) (vs : list (list N)) : Prop := length vs = size /\ forall x, In x vs -> wf_vec K x.

(** the j-th of the 64 K assignments that the vectors of one step stand for: a set bit means false *)
Definition sim_assignment (vs : list (list N)) (j : nat) : assignment :=
  fun v => negb (N.testbit (nth (j / 64) (nth v vs []) 0%N) (N.of_nat (j mod 64))).
(** the assignments simulated in a sequence of steps *)
Definition simulated (K : nat) (hist : list (list (list N))) (a : assignment) : Prop :=
  exists vs j, In vs hist /\ j < 64 * K /\ forall v, a v = sim_assignment vs j v.
Definition always (K : nat) (hist : list (list (list N))) (l : lit) : Prop := forall a, simulated K hist a -> lit_val a l = true.
Definition alike (K : nat) (hist : list (list (list N))) (l m : lit) : Prop := forall a, simulated K hist a -> lit_val a l = lit_val a m.

(** the values of the literal in the assignments of one step, 64 of them in each word *)
Definition values (vs : list (list N)) (l : lit) : list N :=
  if lsign l then nth (lvar l) vs [] else map (fun w => N.lxor w (2 ^ 64 - 1)) (nth (lvar l) vs []).
(** The fingerprint by which the program compares literals: a 64-bit hash of the values, where the first step enters twice. *)
Definition fingerprint (hist : list (list (list N))) (l : lit) : N :=
  match hist with
  | [] => 0%N
  | vs :: hist' => fold_left (fun g w => rnd (N.lxor g w)) (tl (values vs l) ++ values vs l ++ flat_map (fun vs' => values vs' l) hist')
                     (rnd (hd 0%N (values vs l)))
  end.
(** no two of the literals whose values differ in some assignment have the same fingerprint, at any time *)
Definition no_collisions (K : nat) (outs : list var) (hist : list (list (list N))) : Prop :=
  forall h h' l m, hist = h ++ h' -> h <> [] -> In (lvar l) outs -> In (lvar m) outs ->
    fingerprint h l = fingerprint h m -> alike K h l m.
(** outputs that the partition can represent, in the range of the vectors *)
Definition wf_outputs (outs : list var) (size : nat) : Prop :=
  NoDup outs /\ forall v, In v outs -> v < size /\ (N.of_nat v < 2 ^ 28)%N.

(** where a gate is evaluated on its backward clauses, these mention only its output and its inputs *)
Definition backward_covered (cs : list clause) (gs : list gate) : Prop :=
  forall v c l o, g_notMono (nth v gs gate_none) = false -> length (g_bwd (nth v gs gate_none)) < length (g_fwd (nth v gs gate_none)) ->
    g_out (nth v gs gate_none) = Some o -> In c (g_bwd (nth v gs gate_none)) -> In l (cl cs c) ->
    lvar l = lvar o \/ exists i, In i (g_inp (nth v gs gate_none)) /\ lvar i = lvar l.
