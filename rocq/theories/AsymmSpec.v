(** Specification for AsymmProps: clause databases after rounds of subsumption and asymmetric
    variable reduction. *)
Require Import List Arith Bool NArith.
Require Import Verif.Base Verif.Outcome Verif.TrailModel Verif.DbModel Verif.PropModel Verif.SimpModel.
Import ListNotations.

(** [reduced d0 w0 t0 d w t s]: starting with the clauses of [d0], the watch lists [w0] and the
    trail [t0], rounds of subsumption and asymmetric variable reduction, in any order, have led to
    the clauses of [d], the watch lists [w] and the trail [t]. *)
Inductive reduced (d0 : db) (w0 : watches) (t0 : trail_t) : db -> watches -> trail_t -> sdb -> Prop :=
| rd_start : reduced d0 w0 t0 d0 w0 t0 (sdb_init d0)
| rd_subsume ptr is d w t s d' s' cnt : reduced d0 w0 t0 d w t s ->
    subsume_list ptr is d s cnt0 = Ok (true, d', s', cnt) -> reduced d0 w0 t0 d' w t s'
| rd_cleanup d w t s : reduced d0 w0 t0 d w t s -> reduced d0 w0 t0 d w t (sdb_cleanup s)
| rd_asymm active d w t s k d' w' t' s' : reduced d0 w0 t0 d w t s ->
    asymm_reduce active d w t s = Ok (true, k, d', w', t', s') -> reduced d0 w0 t0 d' w' t' s'.
