(** The recursive clause order: complete statements, and concrete cases. *)
Require Import List Arith Bool NArith Lia ZifyBool ZifyNat ZifyN.
Require Import Verif.Base Verif.Outcome Verif.CNFModel Verif.GateModel Verif.GateSpec Verif.GateProofs Verif.GateMore Verif.DfsProofs Verif.BranchSpec.
Require Import Verif.SimModel Verif.SimSpec Verif.SimWords Verif.SimPart Verif.SimHist Verif.SimProp Verif.SimCases Verif.RecModel Verif.RecSpec Verif.RecProofs Verif.RecSim.
Import ListNotations.

Section R.
Variables (cfg : config) (p : cnf) (g : gproblem).
Hypothesis WF : wf_problem (variables p) (problem p).
Hypothesis HA : analyze cfg p = Ok g.
Let rl := root_lits p g.
Let gs := gates g.
Let np : var -> bool := fun _ => false.
Lemma no_gates : gate_count g = 0 -> forall v, defined gs v = false.
Proof.
  intros E v. destruct (counts_ok cfg p g WF HA) as ((l & _ & HI & HL) & _). rewrite E in HL. destruct l; [|discriminate]. destruct (defined gs v) eqn:ED; auto. destruct (proj2 (HI v) ED).
Qed.
Lemma reach_is_defined v : reachable np gs rl v -> defined gs v = true.
Proof. intros H. apply (reach_defined p g). exact H. Qed.
(** the filter *)
Definition en_of (filtered : bool) (en : option (list var)) : Prop :=
  match en with
  | None => filtered = false
  | Some l => filtered = true /\ forall v, In v l <-> reachable np gs rl v /\ g_notMono (nth v gs gate_none) = true
  end.
Lemma filter_ok (filtered : bool) : exists en : option (list var), (if filtered then e <- nonmono_filter gs rl ;; Ok (Some e) else Ok None) = Ok en /\ en_of filtered en.
Proof.
  destruct filtered; [|exists None; split; reflexivity]. destruct (dfs_ok np gs rl) as (es & E & (B1 & B2 & B3) & _). unfold nonmono_filter, getTopoOrder. fold np. rewrite E. cbn [bind]. eexists. split; [reflexivity|]. split; auto. intros v. rewrite filter_In. split; intros (H & H'); split; auto; apply B2; auto.
Qed.
Lemma passing_ok filtered en v : en_of filtered en -> reachable np gs rl v -> (passing g en v <-> selected filtered gs rl v).
Proof.
  intros HE HR. pose proof (reach_is_defined v HR) as HD. unfold defined in HD. fold gs in HD. destruct (g_out (nth v gs gate_none)) as [o|] eqn:EO; [|discriminate].
  destruct (gates_left_total cfg p g v o WF HA EO) as (EV & _). unfold passing. fold gs. split.
  - intros (o' & EO' & EP). rewrite EO in EO'. injection EO' as <-. split; auto. intros EF. destruct en as [l|]; [|cbn in HE; congruence]. destruct HE as (_ & HE). unfold passes in EP. apply andb_true_iff in EP. destruct EP as (P1 & P2).
    apply existsb_exists in P1. destruct P1 as (x & Hx & Ex). apply Nat.eqb_eq in Ex. rewrite EV in Ex. subst x. apply HE. auto.
  - intros (_ & HS). exists o. split; auto. destruct en as [l|]; [|reflexivity]. destruct HE as (EF & HE). pose proof (HS EF) as N1. assert (N2 : forall i, In i (g_inp (nth v gs gate_none)) -> defined gs (lvar i) = true -> g_notMono (nth (lvar i) gs gate_none) = true) by (intros i Hi Di; apply (notmono_below cfg p g v i); auto). unfold passes. apply andb_true_iff. split.
    + apply existsb_exists. exists v. rewrite EV, Nat.eqb_refl. split; auto. apply HE. auto.
    + apply forallb_forall. intros i Hi. destruct (defined gs (lvar i)) eqn:Di; auto. cbn [andb]. rewrite negb_involutive. apply existsb_exists. exists (lvar i). rewrite Nat.eqb_refl. split; auto. apply HE. split; [|auto].
      apply (r_child _ _ _ v); auto. split; auto. split; [reflexivity|]. exists i. auto.
Qed.
(** the shape of every result *)
Lemma rec_shape filtered : exists en, en_of filtered en /\ forall ord, readGatesRec filtered (problem p) g rl = Ok ord ->
  (gate_count g = 0 /\ ord = mkOrder [] [] 0) \/ exists st, roots_read gs rl st /\ ord = mkOrder (flat_map (rstep p g en) (r_order st)) (r_ins st) (r_amount st).
Proof.
  destruct (filter_ok filtered) as (en & E & HE). exists en. split; auto. intros ord H. unfold readGatesRec in H. fold gs in H. rewrite E in H. cbn [bind] in H. destruct (Nat.eqb_spec (gate_count g) 0) as [E0|N0]; [left; split; congruence|].
  destruct (rec_ok gs (proj1 (analyze_acyclic cfg p g WF HA) np) rl) as (st & ER & HR). rewrite ER in H. cbn [bind] in H. injection H as <-. right. exists st. split; auto.
Qed.
Lemma rec_total filtered : exists ord, readGatesRec filtered (problem p) g rl = Ok ord.
Proof.
  destruct (filter_ok filtered) as (en & E & HE). unfold readGatesRec. fold gs. rewrite E. cbn [bind]. destruct (gate_count g =? 0); [eauto|].
  destruct (rec_ok gs (proj1 (analyze_acyclic cfg p g WF HA) np) rl) as (st & ER & HR). rewrite ER. cbn [bind]. eauto.
Qed.
Lemma none_reachable : gate_count g = 0 -> forall v, ~ reachable np gs rl v.
Proof. intros E v H. apply reach_is_defined in H. rewrite no_gates in H by auto. discriminate. Qed.
Lemma steps_nodup en l : NoDup l -> NoDup (map ov (flat_map (rstep p g en) l)).
Proof.
  induction 1 as [|v l HN ND IH]; cbn [flat_map map]; [constructor|]. rewrite map_app. destruct (rstep p g en v) as [|s r] eqn:ES; [exact IH|].
  destruct (rstep_in cfg p g WF HA en v s) as (E1 & _); [rewrite ES; left; auto|]. rewrite ES in E1. injection E1 as ->. cbn [map app]. constructor; auto.
  rewrite (rstep_var cfg p g WF HA en v s) by (rewrite ES; left; auto). rewrite (rsteps_vars cfg p g WF HA). tauto.
Qed.
Lemma steps_all l : (forall v, In v l -> defined gs v = true) -> map ov (flat_map (rstep p g None) l) = l.
Proof.
  induction l as [|v l IH]; intros HD; auto. cbn [flat_map]. rewrite map_app, IH by (intros u Hu; apply HD; right; auto). pose proof (HD v (or_introl eq_refl)) as D. unfold defined in D. unfold rstep at 1. fold gs. destruct (g_out (nth v gs gate_none)) as [o|] eqn:EO; [|discriminate]. cbn [passes map app]. f_equal. unfold ov. cbn [fst]. rewrite used_var. apply (gates_left_total cfg p g v o WF HA EO).
Qed.
Lemma map_app_inv {A B} (f : A -> B) : forall l x v y, map f l = x ++ v :: y -> exists a s b, l = a ++ s :: b /\ map f a = x /\ f s = v.
Proof.
  induction l as [|t l IH]; intros x v y E; [destruct x; discriminate|]. destruct x as [|u x]; cbn [map app] in E; injection E as E1 E2; [exists [], t, l; auto|]. destruct (IH x v y E2) as (a & s & b & -> & <- & <-). exists (t :: a), s, b. cbn [map app]. rewrite E1. auto.
Qed.
Lemma rec_order filtered : exists ord, readGatesRec filtered (problem p) g rl = Ok ord /\
  (forall v, In v (outputs ord) <-> selected filtered gs rl v) /\
  (forall a v b c, outputs ord = a ++ v :: b -> child np gs v c -> In c a) /\
  NoDup (o_inputs ord) /\ (forall v, In v (o_inputs ord) <-> defined gs v = false /\ exists u, reachable np gs rl u /\ exists i, In i (g_inp (nth u gs gate_none)) /\ lvar i = v) /\
  (forall v, reachable np gs rl v \/ In v (o_inputs ord) -> v < o_amount ord) /\
  (roots_apart gs rl -> NoDup (outputs ord)) /\ (filtered = false -> NoDup (outputs ord) -> roots_apart gs rl).
Proof.
  destruct (rec_total filtered) as (ord & E). exists ord. split; auto. destruct (rec_shape filtered) as (en & HE & HS). destruct (HS ord E) as [(E0 & ->)|(st & HR & ->)]; unfold outputs; cbn [o_steps o_inputs o_amount map].
  - pose proof (none_reachable E0) as NR. pose proof (no_gates E0) as ND. split; [intros v; split; [intros []|intros (H & _); destruct (NR v H)]|]. split; [intros a v b c H; destruct a; discriminate|]. split; [constructor|].
    split; [intros v; split; [intros []|intros (_ & u & H & _); destruct (NR u H)]|]. split; [intros v [H|[]]; destruct (NR v H)|]. split; [intros _; constructor|]. intros _ _ a l b _ H. rewrite ND in H. discriminate.
  - change (fun s : lit * list clause => lvar (fst s)) with ov. assert (OS : forall v, In v (map ov (flat_map (rstep p g en) (r_order st))) <-> selected filtered gs rl v).
    { intros v. rewrite (rsteps_vars cfg p g WF HA), (t_reach _ _ _ HR). split; [intros (H1 & H2); apply (passing_ok filtered en); auto|]. intros H. split; [exact (proj1 H)|apply (passing_ok filtered en); auto; exact (proj1 H)]. }
    split; [exact OS|]. split.
    { intros a v b c EX HC. assert (Hv : selected filtered gs rl v) by (apply OS; rewrite EX; apply in_or_app; right; left; auto). assert (Hc : In c (map ov (flat_map (rstep p g en) (r_order st)))).
      { apply OS. destruct Hv as (V1 & V2). split; [apply (r_child _ _ _ v); auto|]. intros EF. destruct HC as (D & _ & i & Hi & <-). apply (notmono_below cfg p g v i); auto. }
      apply map_app_inv in EX. destruct EX as (x & s & y & EX & <- & Ev). destruct (rsteps_split cfg p g WF HA en _ _ _ _ EX) as (a' & v' & b' & F1 & F2 & F3 & _).
      assert (v' = v) by (rewrite <- Ev; symmetry; apply (rstep_var cfg p g WF HA en); rewrite F2; left; auto). subst v'. rewrite F3, (rsteps_vars cfg p g WF HA). split; [apply (t_sort _ _ _ HR a' v b' c F1 HC)|]. apply (rsteps_vars cfg p g WF HA) in Hc. tauto. }
    split; [apply (t_ndy _ _ _ HR)|]. split.
    { intros v. rewrite (t_ins _ _ _ HR). split; intros (H1 & u & H2 & H3); split; auto; exists u; split; auto; apply in_inputs; auto. }
    split; [intros v [H|H]; apply (t_ax _ _ _ HR); auto; left; apply (t_reach _ _ _ HR); auto|].
    split; [intros H; apply steps_nodup, (t_once _ _ _ HR); exact H|]. intros EF ND. subst filtered. destruct en as [l|]; [destruct HE; discriminate|]. rewrite steps_all in ND by (intros v Hv; apply reach_is_defined, (t_reach _ _ _ HR); auto). exact (proj1 (t_once _ _ _ HR) ND).
Qed.
Lemma rec_sim filtered K : backward_covered (problem p) gs -> forall ord, readGatesRec filtered (problem p) g rl = Ok ord ->
  forall fills init, wf_vectors K (o_amount ord) init -> (forall fill v, In fill fills -> In v (o_inputs ord) -> wf_vec K (fill v)) ->
  exists hist, sim_steps K ord fills init = Ok hist /\ (forall vs, In vs hist -> wf_vectors K (o_amount ord) vs) /\
    Forall2 (fun (fill : var -> vec) vs => forall v, In v (o_inputs ord) -> nth v vs [] = fill v) fills hist /\
    (forall a v, simulated K hist a -> selected filtered gs rl v -> holds (problem p) a (gate_clauses (nth v gs gate_none))).
Proof.
  intros HC ord E fills init HW HF. destruct (rec_order filtered) as (ord' & E' & OS & _). rewrite E in E'. injection E' as <-. destruct (rec_shape filtered) as (en & HE & HS). destruct (HS ord E) as [(E0 & ->)|(st & HR & ->)].
  - pose proof (none_reachable E0) as NR. cbn [o_inputs o_amount] in *. clear E HS OS HF. revert init HW. induction fills as [|f fills IH]; intros init HW; cbn [sim_steps].
    + exists []. split; auto. split; [intros vs []|]. split; [constructor|]. intros a v (x & j & [] & _).
    + unfold sim_step. cbn [o_inputs o_steps randomize propagate bind]. destruct (IH init HW) as (h & E2 & W2 & N2 & S2). rewrite E2. cbn [bind]. exists (init :: h). split; auto. split; [intros vs [<-|Hv]; auto|]. split; [constructor; auto; intros v []|]. intros a v _ (H & _). destruct (NR v H).
  - destruct (rec_steps_ok cfg p g WF HA en st HR K HC fills init HW HF) as (hist & E1 & W1 & F1 & S1). exists hist. split; auto. split; auto. split; auto. intros a v Ha Hv. apply (S1 a v Ha). apply OS. auto.
Qed.
Lemma rec_run filtered K sched ord fills init : 1 <= K -> backward_covered (problem p) gs -> readGatesRec filtered (problem p) g rl = Ok ord -> roots_apart gs rl ->
  wf_vectors K (o_amount ord) init -> fills <> [] -> (forall f v, In f fills -> In v (o_inputs ord) -> wf_vec K (f v)) -> (N.of_nat (o_amount ord) <= 2 ^ 28)%N ->
  (forall hist, sim_steps K ord fills init = Ok hist -> no_collisions K (outputs ord) hist) ->
  exists hist cls bbs, run K sched ord fills init = Ok (hist, (cls, bbs)) /\ length hist = length fills /\
    (forall a v, simulated K hist a -> In v (outputs ord) -> holds (problem p) a (gate_clauses (nth v gs gate_none))) /\
    (forall l, In l bbs <-> In (lvar l) (outputs ord) /\ always K hist l) /\
    (forall l m, In (lvar l) (outputs ord) -> In (lvar m) (outputs ord) -> lvar l <> lvar m ->
       (alike K hist l m <-> (exists c, In c cls /\ ((In l c /\ In m c) \/ (In (lneg l) c /\ In (lneg m) c))) \/
                             (In l bbs /\ In m bbs) \/ (In (lneg l) bbs /\ In (lneg m) bbs))) /\
    good_conjectures (o_amount ord) cls bbs.
Proof.
  intros HK HC E RA WI HF HW H28 NC. destruct (rec_sim filtered K HC ord E fills init WI HW) as (hist & E1 & W1 & F1 & S1). specialize (NC hist E1).
  destruct (rec_order filtered) as (ord' & E' & O2 & _ & O3 & O4 & O5 & O1 & _). rewrite E in E'. injection E' as <-. specialize (O1 RA).
  assert (LEN : length fills = length hist) by (clear - F1; induction F1; cbn [length]; auto).
  destruct (partition_correct K (o_amount ord) (outputs ord) sched hist HK) as (st & cls & bbs & P1 & P2 & P3 & P4 & P5 & P6); auto.
  { intros ->. destruct fills; [contradiction|discriminate]. }
  { split; auto. intros v Hv. assert (v < o_amount ord) by (apply O5; left; apply O2 in Hv; exact (proj1 Hv)). split; auto. lia. }
  exists hist, cls, bbs. split; [|split; [auto|split; [intros a v Ha Hv; apply S1; auto; apply O2; auto|split; [auto|split; auto]]]].
  unfold run. rewrite E1. cbn [bind]. fold (outputs ord). rewrite P1. destruct st as (r, ps). cbn [snd] in P2. cbn [bind]. rewrite P2. auto.
Qed.
End R.

(** ** the same unit clause twice: the gate is evaluated twice and reported as equivalent to itself *)
Definition twice : list clause := [[0]; [0]; [1; 2]; [1; 4]; [0; 3; 5]].
Definition twice_g : gproblem := get (gp_new 0) (analyze plain_cfg (mkCnf twice 3)).
Definition twice_ord : order := get (mkOrder [] [] 0) (readGatesRec false twice twice_g (root_lits (mkCnf twice 3) twice_g)).
Definition tfills : list (var -> vec) := [(fun v => if v =? 1 then [12345; 77]%N else [987654321; 5]%N)].
Definition thist : list (list (list N)) := [[[987658425; 77]; [12345; 77]; [987654321; 5]]]%N.
Lemma double_refuted : exists p g ord K fills init hist cls bbs c l, wf_problem (variables p) (problem p) /\ analyze plain_cfg p = Ok g /\ backward_covered (problem p) (gates g) /\
  readGatesRec false (problem p) g (root_lits p g) = Ok ord /\ wf_vectors K (o_amount ord) init /\ (forall f v, In f fills -> wf_vec K (f v)) /\ fills <> [] /\ no_collisions K (outputs ord) hist /\
  run K log_sched ord fills init = Ok (hist, (cls, bbs)) /\ In c cls /\ c = [l; l].
Proof.
  exists (mkCnf twice 3), twice_g, twice_ord, 2, tfills, (repeat [0; 0]%N 3), thist, [[1; 1]], [], [1; 1], 1.
  assert (WV : forall vs, In vs thist -> wf_vectors 2 3 vs) by (intros vs [<-|[]]; apply vectors_okb_ok; vm_compute; reflexivity).
  split; [apply wf_check; vm_compute; reflexivity|]. split; [vm_compute; reflexivity|]. split; [apply coveredb_ok; vm_compute; reflexivity|]. split; [vm_compute; reflexivity|]. split; [apply vectors_okb_ok; vm_compute; reflexivity|].
  split. { intros f v [<-|[]]; destruct (v =? 1); (split; [reflexivity|intros w [<-|[<-|[]]]; reflexivity]). }
  split; [discriminate|]. split; [|split; [vm_compute; reflexivity|split; [left; auto|auto]]]. apply (nc_check_ok 2 3 _ thist WV); [vm_compute; intuition lia|vm_compute; reflexivity].
Qed.
(** ** o = a xor b, a = x xor y, b = x and y, with o required *)
Definition xcase : list clause := [[0]; [1; 2; 4]; [1; 3; 5]; [0; 3; 4]; [0; 2; 5]; [3; 6; 8]; [3; 7; 9]; [2; 7; 8]; [2; 6; 9]; [5; 6]; [5; 8]; [4; 7; 9]].
Definition xcase_g : gproblem := get (gp_new 0) (analyze plain_cfg (mkCnf xcase 5)).
Definition xcase_ord (filtered : bool) : order := get (mkOrder [] [] 0) (readGatesRec filtered xcase xcase_g (root_lits (mkCnf xcase 5) xcase_g)).
Definition xhist : list (list (list N)) :=
  [[[0; 0]; [18446744072721901431; 18446744073709551543]; [987658425; 77]; [12345; 77]; [987654321; 5]];
   [[0; 0]; [18446744073709551613; 0]; [3; 18446744073709551615]; [1; 0]; [3; 18446744073709551615]]]%N.
Lemma xcase_ok : wf_problem 5 xcase /\ analyze plain_cfg (mkCnf xcase 5) = Ok xcase_g /\ backward_covered xcase (gates xcase_g) /\ roots_apart (gates xcase_g) (root_lits (mkCnf xcase 5) xcase_g) /\
  map (fun gt => g_notMono gt) (gates xcase_g) = [false; true; true; false; false] /\
  (forall filtered, readGatesRec filtered xcase xcase_g (root_lits (mkCnf xcase 5) xcase_g) = Ok (xcase_ord filtered)) /\ outputs (xcase_ord false) = [1; 2; 0] /\ outputs (xcase_ord true) = [1; 2] /\
  wf_vectors 2 5 (repeat [0; 0]%N 5) /\ (forall f v, In f sfills -> wf_vec 2 (f v)) /\ no_collisions 2 (outputs (xcase_ord true)) xhist /\
  run 2 log_sched (xcase_ord true) sfills (repeat [0; 0]%N 5) = Ok (xhist, ([], [])).
Proof.
  assert (WV : forall vs, In vs xhist -> wf_vectors 2 5 vs) by (intros vs [<-|[<-|[]]]; apply vectors_okb_ok; vm_compute; reflexivity).
  split; [apply wf_check; vm_compute; reflexivity|]. split; [vm_compute; reflexivity|]. split; [apply coveredb_ok; vm_compute; reflexivity|]. split.
  { assert (ER : root_lits (mkCnf xcase 5) xcase_g = [0]) by (vm_compute; reflexivity). rewrite ER. intros a l b E _. destruct a as [|x a]; [|destruct a; discriminate]. intros H. clear E. induction H as [k []|u v _ IH _]; auto. }
  split; [vm_compute; reflexivity|]. split; [intros [|]; vm_compute; reflexivity|]. split; [vm_compute; reflexivity|]. split; [vm_compute; reflexivity|].
  split; [apply vectors_okb_ok; vm_compute; reflexivity|]. split. { intros f v [<-|[<-|[]]]; destruct (v =? 3); (split; [reflexivity|intros w [<-|[<-|[]]]; reflexivity]). }
  split; [|vm_compute; reflexivity]. apply (nc_check_ok 2 5 _ xhist WV); [vm_compute; intuition lia|vm_compute; reflexivity].
Qed.
