(** Random simulation: complete runs, and concrete cases. *)
Require Import List Arith Bool NArith Lia ZifyBool ZifyNat ZifyN.
Require Import Verif.Base Verif.Outcome Verif.CNFModel Verif.GateModel Verif.GateSpec Verif.GateProofs Verif.GateMore Verif.BranchSpec.
Require Import Verif.SimModel Verif.SimSpec Verif.SimWords Verif.SimPart Verif.SimHist Verif.SimProp.
Import ListNotations.

Definition outputs (ord : order) : list var := map (fun s => lvar (fst s)) (o_steps ord).
Section R.
Variables (cfg : config) (p : cnf) (g : gproblem).
Hypothesis WF : wf_problem (variables p) (problem p).
Hypothesis HA : analyze cfg p = Ok g.
Lemma order_correct : exists ord, readGates None (problem p) (gates g) (root_lits p g) = Ok ord /\
  NoDup (outputs ord) /\ (forall v, In v (outputs ord) <-> reachable (fun _ => false) (gates g) (root_lits p g) v) /\
  NoDup (o_inputs ord) /\ (forall v, In v (o_inputs ord) <-> defined (gates g) v = false /\ exists u, reachable (fun _ => false) (gates g) (root_lits p g) u /\ exists i, In i (g_inp (nth u (gates g) gate_none)) /\ lvar i = v) /\
  (forall v, In v (outputs ord) \/ In v (o_inputs ord) -> v < o_amount ord).
Proof.
  destruct (order_ok cfg p g WF HA) as (ord & order & E & ND & HR & _ & HS & I1 & I2 & B1 & B2). exists ord. split; auto.
  assert (EO : outputs ord = order). { unfold outputs. rewrite HS. apply (steps_vars cfg p g WF HA). intros v Hv. apply (reach_defined p g), HR. auto. }
  rewrite EO. split; auto. split; auto. split; auto. split; auto. intros v [H|H]; auto.
Qed.
Lemma run_correct K sched ord fills init : 1 <= K -> backward_covered (problem p) (gates g) -> readGates None (problem p) (gates g) (root_lits p g) = Ok ord ->
  wf_vectors K (o_amount ord) init -> fills <> [] -> (forall f v, In f fills -> In v (o_inputs ord) -> wf_vec K (f v)) -> (N.of_nat (o_amount ord) <= 2 ^ 28)%N ->
  (forall hist, sim_steps K ord fills init = Ok hist -> no_collisions K (outputs ord) hist) ->
  exists hist cls bbs, run K sched ord fills init = Ok (hist, (cls, bbs)) /\ length hist = length fills /\
    (forall a v, simulated K hist a -> In v (outputs ord) -> holds (problem p) a (gate_clauses (nth v (gates g) gate_none))) /\
    (forall l, In l bbs <-> In (lvar l) (outputs ord) /\ always K hist l) /\
    (forall l m, In (lvar l) (outputs ord) -> In (lvar m) (outputs ord) -> lvar l <> lvar m ->
       (alike K hist l m <-> (exists c, In c cls /\ ((In l c /\ In m c) \/ (In (lneg l) c /\ In (lneg m) c))) \/
                             (In l bbs /\ In m bbs) \/ (In (lneg l) bbs /\ In (lneg m) bbs))) /\
    (forall c, In c cls -> 2 <= length c /\ forall l, In l c -> In (lvar l) (outputs ord) /\ ~ always K hist l /\ ~ always K hist (lneg l)) /\
    good_conjectures (o_amount ord) cls bbs.
Proof.
  intros HK HC E WI HF HW H28 NC. destruct (sim_steps_ok cfg p g WF HA K HC ord E fills init WI HW) as (hist & E1 & W1 & F1 & S1). specialize (NC hist E1).
  destruct order_correct as (ord' & E' & O1 & O2 & O3 & O4 & O5). rewrite E in E'. injection E' as <-.
  assert (LEN : length fills = length hist) by (clear - F1; induction F1; cbn [length]; auto).
  destruct (partition_correct K (o_amount ord) (outputs ord) sched hist HK) as (st & cls & bbs & P1 & P2 & P3 & P4 & P5 & P6); auto.
  { intros ->. destruct fills; [contradiction|discriminate]. }
  { split; auto. intros v Hv. assert (v < o_amount ord) by auto. split; auto. lia. }
  exists hist, cls, bbs. split; [|split; [auto|split; [intros a v Ha Hv; apply S1; auto; apply O2; auto|split; [auto|split; [auto|split; auto]]]]].
  unfold run. rewrite E1. cbn [bind]. fold (outputs ord). rewrite P1. destruct st as (r, ps). cbn [snd] in P2. cbn [bind]. rewrite P2. auto.
Qed.
End R.

(** ** checking that there are no collisions *)
Fixpoint prefixes {A} (l : list A) : list (list A) := match l with [] => [] | x :: l' => [x] :: map (cons x) (prefixes l') end.
Lemma prefixes_in {A} (l : list A) : forall h h', l = h ++ h' -> h <> [] -> In h (prefixes l).
Proof.
  induction l as [|x l IH]; intros h h' E Hh; destruct h as [|y h]; try contradiction; [discriminate|]. injection E as <- E. cbn [prefixes]. destruct h as [|z h]; [left; auto|]. right. apply in_map. apply (IH _ h'); auto. discriminate.
Qed.
Definition vec_eqb (x y : list N) : bool := (length x =? length y) && forallb (fun q => N.eqb (fst q) (snd q)) (combine x y).
Lemma vec_eqb_eq x : forall y, vec_eqb x y = true -> x = y.
Proof.
  induction x as [|w x IH]; intros [|w' y] H; try discriminate; auto. unfold vec_eqb in H. cbn [length combine forallb fst snd] in H. apply andb_true_iff in H. destruct H as (H1 & H2). apply andb_true_iff in H2. destruct H2 as (H2 & H3). apply N.eqb_eq in H2. f_equal; auto. apply IH. unfold vec_eqb. rewrite H3, andb_true_r. auto.
Qed.
Definition lits_of (outs : list var) : list lit := flat_map (fun v => [mkLit v false; mkLit v true]) outs.
Lemma lits_in outs l : In (lvar l) outs -> In l (lits_of outs).
Proof. intros H. apply in_flat_map. exists (lvar l). split; auto. pose proof (lit_eta l) as E. destruct (lsign l); [right; left|left]; symmetry; exact E. Qed.
Definition vec_okb (K : nat) (x : list N) : bool := (length x =? K) && forallb (fun w => N.ltb w (2 ^ 64)) x.
Definition vectors_okb (K size : nat) (vs : list (list N)) : bool := (length vs =? size) && forallb (vec_okb K) vs.
Lemma vectors_okb_ok K size vs : vectors_okb K size vs = true -> wf_vectors K size vs.
Proof.
  intros H. apply andb_true_iff in H. destruct H as (H1 & H2). split; [apply Nat.eqb_eq; auto|]. intros x Hx. rewrite forallb_forall in H2. specialize (H2 x Hx). apply andb_true_iff in H2. destruct H2 as (H2 & H3). split; [apply Nat.eqb_eq; auto|]. rewrite forallb_forall in H3. intros w Hw. apply N.ltb_lt. auto.
Qed.
Definition nc_check (outs : list var) (hist : list (list (list N))) : bool :=
  forallb (fun h => forallb (fun l => forallb (fun m => implb (N.eqb (fingerprint h l) (fingerprint h m)) (forallb (fun vs => vec_eqb (values vs l) (values vs m)) h)) (lits_of outs)) (lits_of outs)) (prefixes hist).
Lemma nc_check_ok K size outs hist : (forall vs, In vs hist -> wf_vectors K size vs) -> (forall v, In v outs -> v < size) -> nc_check outs hist = true -> no_collisions K outs hist.
Proof.
  intros HW HO H h h' l m E Hh Hl Hm EF. unfold nc_check in H. rewrite forallb_forall in H. specialize (H h (prefixes_in _ _ _ E Hh)). rewrite forallb_forall in H. specialize (H l (lits_in _ _ Hl)). rewrite forallb_forall in H. specialize (H m (lits_in _ _ Hm)). rewrite EF, N.eqb_refl in H. cbn [implb] in H.
  apply (alike_values K size); auto; [intros vs Hv; apply HW; rewrite E; apply in_or_app; auto|]. intros vs Hv. rewrite forallb_forall in H. apply vec_eqb_eq. auto.
Qed.
Lemma alike_check K size hist l m : (forall vs, In vs hist -> wf_vectors K size vs) -> lvar l < size -> lvar m < size -> forallb (fun vs => vec_eqb (values vs l) (values vs m)) hist = true -> alike K hist l m.
Proof. intros HW Hl Hm H. apply (alike_values K size); auto. intros vs Hv. rewrite forallb_forall in H. apply vec_eqb_eq. auto. Qed.

(** ** a run: o = a and b, a = x and y, b = x and y, with o required *)
Definition scase : list clause := [[0]; [1; 2]; [1; 4]; [0; 3; 5]; [3; 6]; [3; 8]; [2; 7; 9]; [5; 6]; [5; 8]; [4; 7; 9]].
Definition plain_cfg : config := mkCfg 1 true false false (fun _ => false) (fun _ _ => false).
Definition sfills : list (var -> vec) := [(fun v => if v =? 3 then [12345; 77]%N else [987654321; 5]%N); (fun v => if v =? 3 then [1; 0]%N else [3; 18446744073709551615]%N)].
Definition get {A} (d : A) (x : out A) : A := match x with Ok a => a | Err _ => d end.
Definition scase_g : gproblem := get (gp_new 0) (analyze plain_cfg (mkCnf scase 5)).
Definition scase_ord : order := get (mkOrder [] [] 0) (readGates None scase (gates scase_g) (root_lits (mkCnf scase 5) scase_g)).
Definition coveredb (cs : list clause) (gs : list gate) : bool :=
  forallb (fun g => match g_out g with None => true | Some o => forallb (fun c => forallb (fun l => (lvar l =? lvar o) || existsb (fun i => lvar i =? lvar l) (g_inp g)) (cl cs c)) (g_bwd g) end) gs.
Lemma coveredb_ok cs gs : coveredb cs gs = true -> backward_covered cs gs.
Proof.
  intros H v c l o _ _ EO Hc Hl. unfold coveredb in H. rewrite forallb_forall in H. destruct (nth_in_or_default v gs gate_none) as [Hi|Hi]; [|rewrite Hi in EO; discriminate]. specialize (H _ Hi). rewrite EO in H. rewrite forallb_forall in H. specialize (H c Hc). rewrite forallb_forall in H. specialize (H l Hl). apply orb_true_iff in H. destruct H as [H|H]; [left; apply Nat.eqb_eq; auto|right]. apply existsb_exists in H. destruct H as (i & H1 & H2). exists i. split; auto. apply Nat.eqb_eq. auto.
Qed.
Definition shist : list (list (list N)) :=
  [[[987658425; 77]; [987658425; 77]; [987658425; 77]; [12345; 77]; [987654321; 5]];
   [[3; 18446744073709551615]; [3; 18446744073709551615]; [3; 18446744073709551615]; [1; 0]; [3; 18446744073709551615]]]%N.
Lemma scase_ok : wf_problem 5 scase /\ analyze plain_cfg (mkCnf scase 5) = Ok scase_g /\ backward_covered scase (gates scase_g) /\
  readGates None scase (gates scase_g) (root_lits (mkCnf scase 5) scase_g) = Ok scase_ord /\ outputs scase_ord = [2; 1; 0] /\ o_inputs scase_ord = [3; 4] /\ o_amount scase_ord = 5 /\
  wf_vectors 2 5 (repeat [0; 0]%N 5) /\ (forall f v, In f sfills -> wf_vec 2 (f v)) /\
  sim_steps 2 scase_ord sfills (repeat [0; 0]%N 5) = Ok shist /\ no_collisions 2 [2; 1; 0] shist /\
  run 2 log_sched scase_ord sfills (repeat [0; 0]%N 5) = Ok (shist, ([[5; 3; 1]], [])).
Proof.
  assert (WV : forall vs, In vs shist -> wf_vectors 2 5 vs) by (intros vs [<-|[<-|[]]]; apply vectors_okb_ok; vm_compute; reflexivity).
  split; [apply wf_check; vm_compute; reflexivity|]. split; [vm_compute; reflexivity|]. split; [apply coveredb_ok; vm_compute; reflexivity|]. split; [vm_compute; reflexivity|]. split; [vm_compute; reflexivity|]. split; [vm_compute; reflexivity|]. split; [vm_compute; reflexivity|].
  split; [apply vectors_okb_ok; vm_compute; reflexivity|]. split. { intros f v [<-|[<-|[]]]; destruct (v =? 3); (split; [reflexivity|intros w [<-|[<-|[]]]; reflexivity]). }
  split; [vm_compute; reflexivity|]. split; [|vm_compute; reflexivity]. apply (nc_check_ok 2 5 [2; 1; 0] shist WV); [intros v [<-|[<-|[<-|[]]]]; lia|vm_compute; reflexivity].
Qed.

(** ** colliding fingerprints *)
(** variables 0 and 1 have the same values, 2 is always true; the words of the second step make the fingerprint of 0 and 1 that of 2 *)
Definition first_word : N := 5%N.
Definition chosen_word : N := Eval vm_compute in N.lxor (fingerprint [[[first_word]]] 1) (fingerprint [[[0%N]]] 1).
Definition chist : list (list (list N)) := [[[first_word]; [first_word]; [0%N]]; [[chosen_word]; [chosen_word]; [0%N]]].
Lemma collision_refuted : exists K size outs hist ps, 1 <= K /\ hist <> [] /\ (forall vs, In vs hist -> wf_vectors K size vs) /\ wf_outputs outs size /\
  updates log_sched outs (0, []) hist = Ok ps /\ In 0 outs /\ In 1 outs /\ alike K hist (mkLit 0 false) (mkLit 1 false) /\ getConjectures outs (snd ps) = Ok ([], [mkLit 2 false]).
Proof.
  exists 1, 3, [0; 1; 2], chist. assert (WV : forall vs, In vs chist -> wf_vectors 1 3 vs) by (intros vs [<-|[<-|[]]]; apply vectors_okb_ok; vm_compute; reflexivity).
  eexists. split; [lia|]. split; [discriminate|]. split; [exact WV|]. split; [split; [repeat constructor; cbn; intuition lia|intros v [<-|[<-|[<-|[]]]]; (split; [lia|reflexivity])]|]. split; [vm_compute; reflexivity|]. split; [cbn; auto|]. split; [cbn; auto|]. split; [|vm_compute; reflexivity].
  apply (alike_check 1 3 chist _ _ WV); [cbn; lia|cbn; lia|vm_compute; reflexivity].
Qed.
(** the same word in all three steps of two variables: after the third step the fingerprint of a literal is that of its negation *)
Definition w1 : N := 29595930%N.
Definition w2 : N := 8126665119148901607%N.
Definition uhist : list (list (list N)) := [[[w1]; [w1]]; [[w2]; [w2]]; [[1%N]; [1%N]]].
Lemma self_collision_refuted : exists K size outs hist, 1 <= K /\ hist <> [] /\ (forall vs, In vs hist -> wf_vectors K size vs) /\ wf_outputs outs size /\
  updates log_sched outs (0, []) hist = Err UB.
Proof.
  exists 1, 2, [0; 1], uhist. split; [lia|]. split; [discriminate|]. split; [intros vs [<-|[<-|[<-|[]]]]; apply vectors_okb_ok; vm_compute; reflexivity|]. split; [split; [repeat constructor; cbn; intuition lia|intros v [<-|[<-|[]]]; (split; [lia|reflexivity])]|]. vm_compute. reflexivity.
Qed.

(** ** a monotone gate whose shorter, backward half mentions a variable that is no input *)
Definition ocase : list clause := [[0]; [1; 2]; [1; 4]; [0; 3; 5; 6]].
Lemma outside_refuted : exists p g ord, wf_problem (variables p) (problem p) /\ analyze plain_cfg p = Ok g /\ readGates None (problem p) (gates g) (root_lits p g) = Ok ord /\
  forall K fills init, 1 <= K -> fills <> [] -> wf_vectors K (o_amount ord) init -> (forall f v, In f fills -> wf_vec K (f v)) -> sim_steps K ord fills init = Err UB.
Proof.
  exists (mkCnf ocase 4), (get (gp_new 0) (analyze plain_cfg (mkCnf ocase 4))), (mkOrder [(0, [[0; 3; 5; 6]])] [1; 2] 3). split; [apply wf_check; vm_compute; reflexivity|]. split; [vm_compute; reflexivity|]. split; [vm_compute; reflexivity|].
  intros K fills init HK HF (HL & HI) HW. cbn [o_amount] in HL. destruct fills as [|f fills]; [contradiction|]. destruct init as [|x0 [|x1 [|x2 [|x3 init]]]]; try discriminate.
  cbn [sim_steps]. unfold sim_step. cbn [o_inputs o_steps randomize]. unfold vset. cbn [length Nat.ltb Nat.leb set_nth bind propagate propagate_gate gate_vec clause_vec lvar Nat.div2 Nat.eqb]. reflexivity.
Qed.
(** ** with a gate filter nothing is simulated *)
Lemma filter_refuted : exists p g, wf_problem (variables p) (problem p) /\ analyze plain_cfg p = Ok g /\ (exists v, reachable (fun _ => false) (gates g) (root_lits p g) v) /\
  exists ord, readGates (Some []) (problem p) (gates g) (root_lits p g) = Ok ord /\ o_steps ord = [].
Proof.
  exists (mkCnf scase 5), scase_g. destruct scase_ok as (W & A & _). split; [exact W|]. split; [exact A|]. split; [exists 0|eexists; split; vm_compute; reflexivity].
  change 0 with (lvar 0) at 2. apply r_root; vm_compute; auto.
Qed.
