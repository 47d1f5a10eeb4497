(** Model of Candy::ReduceDB (src/candy/systems/ReduceDB.h:28-109). *)
Require Import List Arith Bool NArith.
Require Import Verif.Base Verif.Outcome Verif.TrailModel Verif.DbModel Verif.SimpModel.
Import ListNotations.

(** ReduceDB.h:65-69 *)
Definition reducible (persist : N) (d : db) (c : cid) : bool := (persist <? cwt d c)%N && negb (isDeleted d c).
Definition red_candidates (persist : N) (d : db) : list cid := filter (reducible persist d) (cls d).

(** ReduceDB.h:71-83; [cand] is the order std::sort arrives at *)
Fixpoint skip_equal (d : db) (w : N) (cs : list cid) : list cid :=
  match cs with
  | c :: r => if (cwt d c =? w)%N then skip_equal d w r else cs
  | [] => []
  end.
Definition red_victims (persist : N) (median : bool) (cand : list cid) (d : db) : list cid :=
  let ls := std_sort (fun a b => (cwt d a <? cwt d b)%N) cand (red_candidates persist d) in
  if 1 <? length ls then
    let rest := skipn (length ls / 2) ls in
    if median then match rest with c :: _ => skip_equal d (cwt d c) rest | [] => [] end else rest
  else [].

(** ReduceDB.h:62-92; the flag says whether nReduceCalls_ is incremented *)
Definition reduce (persist : N) (median : bool) (cand : list cid) (d : db) : bool * db :=
  (1 <? length (red_candidates persist d),
   fold_left (fun d c => removeClause c d) (red_victims persist median cand d) d).

(** ReduceDB.h:94-102: (triggered, new nbclausesbeforereduce); size_t times unsigned int, the product
    is assumed not to exceed 64 bits *)
Definition trigger_reduce (calls nb inc nconf : N) : bool * N :=
  if (calls * nb <=? nconf)%N then (true, (nb + inc)%N) else (false, nb).
