(** What C25 says about reduce(); the databases are those of [SimpSpec.dreach]. *)
Require Import List Arith Bool NArith.
Require Import Verif.Base Verif.Outcome Verif.TrailModel Verif.DbModel.
Import ListNotations.

(** clauses above the limit *)
Definition over_limit (persist : N) (d : db) : list cid :=
  filter (fun c => (persist <? cwt d c)%N && negb (isDeleted d c)) (cls d).
(** clauses that [d] has and [d'] does not *)
Definition removed (d d' : db) : list cid := filter (fun c => negb (isDeleted d c) && isDeleted d' c) (cls d).
(** reason of an assigned variable *)
Definition locked (d : db) (t : trail_t) (c : cid) : Prop :=
  exists l, In l (clits d c) /\ value t l = Some true /\ reason t (lvar l) = Some c.
