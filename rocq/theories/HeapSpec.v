(** Vocabulary for C11: what a client of the priority queue may do, and what set it then holds. *)
Require Import List Arith Bool Verif.HeapModel.
Import ListNotations.

(** A comparator is a strict weak order ("x precedes y"); e.g. comparison of activities. *)
Record strict_weak_order (lt : nat -> nat -> bool) : Prop := {
  irreflexive : forall x, lt x x = false;
  transitive : forall x y z, lt x y = true -> lt y z = true -> lt x z = true;
  incomparable_transitive : forall x y z, lt x y = false -> lt y z = false -> lt x z = false }.

(** The priority of [n], and of nothing else, changes. *)
Definition only_priority_of (n : nat) (lt lt' : nat -> nat -> bool) : Prop :=
  forall x y, x <> n -> y <> n -> lt' x y = lt x y.

(** [uses cap lt S h]: [h] is reached by a client that respects the documented preconditions; the
    comparator currently in force is [lt], [S] is the set of elements the client has put in and
    not removed, [cap] the size given to grow.  A client changes one priority at a time and then
    calls decrease / increase / update for it, or changes priorities without changing the order
    (rescaling), or rebuilds after arbitrary changes. *)
Inductive uses : nat -> (nat -> nat -> bool) -> (nat -> Prop) -> heap_t -> Prop :=
| use_new lt : strict_weak_order lt -> uses 0 lt (fun _ => False) (mkHeap [] [])
| use_grow cap lt S h n : uses cap lt S h -> uses (max n cap) lt S (hgrow n h)
| use_insert cap lt S h n h' : uses cap lt S h -> n < cap -> ~ S n ->
    hinsert lt n h = Some h' -> uses cap lt (fun y => y = n \/ S y) h'
| use_decrease cap lt S h n lt' h' : uses cap lt S h -> S n -> strict_weak_order lt' ->
    only_priority_of n lt lt' -> (forall y, lt y n = false -> lt' y n = false) ->
    decrease lt' n h = Some h' -> uses cap lt' S h'
| use_increase cap lt S h n lt' h' : uses cap lt S h -> S n -> strict_weak_order lt' ->
    only_priority_of n lt lt' -> (forall y, lt n y = false -> lt' n y = false) ->
    increase lt' n h = Some h' -> uses cap lt' S h'
| use_update cap lt S h n lt' h' : uses cap lt S h -> n < cap -> strict_weak_order lt' ->
    only_priority_of n lt lt' ->
    hupdate lt' n h = Some h' -> uses cap lt' (fun y => y = n \/ S y) h'
| use_rescale cap lt S h lt' : uses cap lt S h -> strict_weak_order lt' ->
    (forall x y, S x -> S y -> lt x y = false -> lt' x y = false) -> uses cap lt' S h
| use_removeMin cap lt S h x h' : uses cap lt S h ->
    removeMin lt h = Some (x, h') -> uses cap lt (fun y => S y /\ y <> x) h'
| use_build cap lt S h lt' ns h' : uses cap lt S h -> strict_weak_order lt' ->
    NoDup ns -> (forall x, In x ns -> x < cap) ->
    hbuild lt' ns h = Some h' -> uses cap lt' (fun y => In y ns) h'
| use_clear cap lt S h h' : uses cap lt S h -> hclear h = Some h' -> uses cap lt (fun _ => False) h'.
