(** C47, C48: approximations made of equivalence and backbone conjectures. *)
Require Import List Arith Bool Permutation.
Require Import Verif.Base Verif.Outcome Verif.ApproxModel Verif.ApproxSpec Verif.ApproxMore Verif.ApproxRun.
Import ListNotations.

(** ** C47 *)
(** after any history of marks and commits, which never fails, the implications of a class are those
    of the cycle through the literals that are left *)
Theorem C47_implications : forall ls h, distinct_vars ls ->
  exists e, ei_run h (ei_new ls) = Ok e /\ Permutation (ei_list e) (ring (remaining h ls)).
Proof. exact class_list. Qed.
Print Assumptions C47_implications.

Theorem C47_meaning : forall ls h e a, distinct_vars ls -> ei_run h (ei_new ls) = Ok e ->
  ((forall i, In i (ei_list e) -> impl_holds a i) <-> all_equal a (remaining h ls)).
Proof. exact class_meaning. Qed.
Print Assumptions C47_meaning.

(** a commit reports exactly the implications that appear and disappear, and no more new ones than removed ones *)
Theorem C47_delta : forall ls h e, distinct_vars ls -> ei_run h (ei_new ls) = Ok e ->
  exists e' new removed, ei_commit e = Ok (e', new, removed) /\
    Permutation (ei_list e ++ new) (ei_list e' ++ removed) /\ length new <= length removed /\
    (forall i, In i removed -> In i (ei_list e) /\ ~ In i (ei_list e')) /\
    (forall i, In i new -> In i (ei_list e') /\ ~ In i (ei_list e)).
Proof. exact class_delta. Qed.
Print Assumptions C47_delta.

Theorem C47_backbones : forall ls h, distinct_vars ls -> Permutation (bb_list (bb_run h (bb_new ls))) (remaining h ls).
Proof. exact backbones_list. Qed.
Print Assumptions C47_backbones.

Theorem C47_backbone_delta : forall ls h, distinct_vars ls ->
  Permutation (bb_list (bb_run h (bb_new ls)))
    (bb_list (fst (bb_commit (bb_run h (bb_new ls)))) ++ snd (bb_commit (bb_run h (bb_new ls)))).
Proof. exact backbones_delta. Qed.
Print Assumptions C47_backbone_delta.

(** five literals; variables 1 and 2 are removed together, then variable 4 *)
Definition a_class : list lit := [0; 3; 4; 7; 8].
Definition a_hist : list cop := [CMark 2; CMark 1; CMark 9; CCommit; CMark 4; CCommit].
Example C47_case : distinct_vars a_class /\ remaining a_hist a_class = [0; 7] /\
  match ei_run a_hist (ei_new a_class) with Ok e => ei_list e = [(0, 7); (7, 0)] | Err _ => False end /\
  match ei_run (firstn 4 a_hist) (ei_new a_class) with Ok e => ei_list e = [(0, 7); (7, 8); (8, 0)] | Err _ => False end /\
  bb_list (bb_run a_hist (bb_new a_class)) = [0; 7].
Proof.
  split; [unfold distinct_vars, a_class; cbn; repeat (constructor; [cbn; intuition discriminate|]); constructor|]. vm_compute. auto.
Qed.

(** two opposite backbones of one variable: only the positive one is removed *)
Theorem C47_opposite_backbones_refuted : exists ls h, Permutation (bb_list (bb_run h (bb_new ls))) (remaining h ls) -> False.
Proof. exists [2; 3], [CMark 1; CCommit]. vm_compute. intros H. apply Permutation_length in H. discriminate. Qed.
Print Assumptions C47_opposite_backbones_refuted.

(** ** C48 *)
(** init and any number of refinements succeed *)
Theorem C48_defined : forall eqs bs next m0 ms, conj_ok eqs bs next ->
  exists s cs n, rs_run m0 ms (rs_new eqs bs next) = Ok (s, cs, n).
Proof. exact strategy_defined. Qed.
Print Assumptions C48_defined.

(** the assumption literals switch on exactly the current approximation *)
Theorem C48_sound : forall eqs bs next m0 ms s cs n a, conj_ok eqs bs next -> rs_run m0 ms (rs_new eqs bs next) = Ok (s, cs, n) ->
  sat a cs -> (forall l, In l (n_assume n) -> lit_holds a l) -> approximation eqs bs (m0 :: ms) a.
Proof. exact strategy_sound. Qed.
Print Assumptions C48_sound.

Theorem C48_complete : forall eqs bs next m0 ms s cs n a, conj_ok eqs bs next -> rs_run m0 ms (rs_new eqs bs next) = Ok (s, cs, n) ->
  approximation eqs bs (m0 :: ms) a -> exists b, agree_below next b a /\ sat b cs /\ (forall l, In l (n_assume n) -> lit_holds b l).
Proof. exact strategy_complete. Qed.
Print Assumptions C48_complete.

(** without the assumptions the clauses exclude no assignment of the problem *)
Theorem C48_harmless : forall eqs bs next m0 ms s cs n a, conj_ok eqs bs next -> rs_run m0 ms (rs_new eqs bs next) = Ok (s, cs, n) ->
  exists b, agree_below next b a /\ sat b cs.
Proof. exact strategy_harmless. Qed.
Print Assumptions C48_harmless.

(** there is one assumption literal per clause made so far, over consecutive new variables, and the
    clause ends with the negative literal of its variable *)
Theorem C48_assumptions : forall eqs bs next m0 ms s cs n, conj_ok eqs bs next -> rs_run m0 ms (rs_new eqs bs next) = Ok (s, cs, n) ->
  map lvar (n_assume n) = seq next (length cs) /\ rs_next s = next + length cs.
Proof. exact strategy_vars. Qed.
Print Assumptions C48_assumptions.

Theorem C48_guards : forall eqs bs next m0 ms s cs n, conj_ok eqs bs next -> rs_run m0 ms (rs_new eqs bs next) = Ok (s, cs, n) ->
  forall k c, nth_error cs k = Some c -> exists c', c = c' ++ [mkLit (next + k) true].
Proof. exact strategy_guard. Qed.
Print Assumptions C48_guards.

(** the reported number of enabled clauses is that of the current implications and backbones *)
Theorem C48_enabled : forall eqs bs next m0 ms s cs n, conj_ok eqs bs next -> rs_run m0 ms (rs_new eqs bs next) = Ok (s, cs, n) ->
  n_enabled n = length (flat_map ring (current eqs (m0 :: ms))) + length (keep (gone_bb (m0 :: ms)) bs).
Proof. exact strategy_enabled. Qed.
Print Assumptions C48_enabled.

(** two classes and two backbones; one refinement removes variables 1 and 6, the next 3 and 7 *)
Definition s_eqs : list (list lit) := [[0; 3; 4; 7]; [8; 11]].
Definition s_bs : list lit := [13; 14].
Definition s_marks : list marks := [mkMarks [6] [[1]; []]; mkMarks [7] [[3]; []]].
Definition s_run := rs_run (mkMarks [] []) s_marks (rs_new s_eqs s_bs 10).
Example C48_case : conj_ok s_eqs s_bs 10 /\
  match s_run with
  | Ok (s, cs, n) => length cs = 10 /\ n_assume n = [21; 23; 25; 27; 28; 30; 33; 35; 36; 38] /\ n_enabled n = 4 /\ n_clauses n = [[5; 0; 39]] /\
      nth_error cs 8 = Some [1; 4; 37]
  | Err _ => False
  end.
Proof.
  split; [|vm_compute; auto 10]. split; [|split].
  - unfold distinct_vars, s_eqs; cbn; repeat (constructor; [cbn; intuition discriminate|]); constructor.
  - unfold distinct_vars, s_bs; cbn; repeat (constructor; [cbn; intuition discriminate|]); constructor.
  - intros l Hl. cbn in Hl. repeat (destruct Hl as [<-|Hl]; [apply Nat.ltb_lt; reflexivity|]). destruct Hl.
Qed.
