Require Import String List Arith Bool NArith ZArith QArith Lia Permutation.
Require Import Verif.Base Verif.Outcome Verif.CNFModel Verif.CNFProofs Verif.TrailModel Verif.TrailSpec.
Require Import Verif.GateModel Verif.GateSpec Verif.MiterModel Verif.BranchModel Verif.BranchSpec Verif.BranchProofs Verif.BranchAdvice Verif.BranchCases.
Require Import Verif.SimModel Verif.SimSpec Verif.SimProp Verif.SimCases Verif.RsilModel Verif.RsilSpec Verif.RsilMain.
Import ListNotations.
Open Scope list_scope.
Open Scope nat_scope.

(** ** Some calls *)
Definition after (es : list event) : trail_t * vsids Qarith :=
  match BranchCases.run (vs_event false) es (Stale, trail_new, vs_new Qarith (80 # 100)) with Some s => (snd (fst s), snd s) | None => (trail_new, vs_new Qarith (80 # 100)) end.
Definition legal (n : nat) (es : list event) : bool :=
  match BranchCases.run (vs_event false) es (Stale, trail_new, vs_new Qarith (80 # 100)) with Some s => notStale (fst (fst s)) && (n <=? nvt (snd (fst s))) | None => false end.
Lemma legal_ok n ess : forallb (legal n) ess = true -> searching Qarith n (map after ess).
Proof.
  intros H c Hc. apply in_map_iff in Hc. destruct Hc as (es & <- & Hc). rewrite forallb_forall in H. specialize (H _ Hc). unfold legal in H. unfold after.
  destruct (BranchCases.run _ es _) as [[[ph t] b]|] eqn:E; [|discriminate]. apply vs_run_ok in E. unfold vreach in E. cbn [fst snd] in *. apply andb_true_iff in H. destruct H as [H1 H2]. apply Nat.leb_le in H2.
  split; [exact H2|]. eexists; eexists; eexists; exists ph. split; [exact E|]. apply notStale_ok; auto.
Qed.
Definition v_start : vsids Qarith := vs_new Qarith (80 # 100).
Definition startq (k : kind) (maxSize : nat) (B half : N) (cls : list (list lit)) (bbs : list lit) (n : nat) : out (heur Qarith) :=
  h_init Qarith k maxSize B (Ok (Some (cls, bbs))) n v_start (h_new Qarith v_start false half).
Definition outs (k : kind) (o : out (heur Qarith)) (ess : list (list event)) : option (list (option lit)) :=
  match o with Ok h => match h_picks Qarith k (map after ess) h with Ok (rs, _) => Some rs | _ => None end | _ => None end.

(** first the decision -x1, then what follows it *)
Definition ess0 : list (list event) := [[EVars 4; EInit]; [EVars 4; EInit; EPick]; [EVars 4; EInit; EPick; EPick]].
Lemma kinds_case : searching Qarith 4 (map after ess0) /\ good_conjectures 4 the_classes the_backbones /\
  map (vsids_pick Qarith) (map after ess0) = [Some (mkLit 0 true); Some (mkLit 3 true); Some (mkLit 2 true)] /\
  outs Unrestricted (startq Unrestricted 3 0 1 the_classes the_backbones 4) ess0 = Some [Some (mkLit 0 true); Some (mkLit 3 true); Some (mkLit 1 true)] /\
  outs Vanishing (startq Vanishing 3 0 6 the_classes the_backbones 4) ess0 = Some [Some (mkLit 0 true); Some (mkLit 3 true); Some (mkLit 1 true)] /\
  outs Budgeted (startq Budgeted 3 1 1 the_classes the_backbones 4) (ess0 ++ ess0) = Some [Some (mkLit 0 true); Some (mkLit 3 true); Some (mkLit 1 true); Some (mkLit 0 true); Some (mkLit 1 false); Some (mkLit 2 false)].
Proof. split; [apply legal_ok; vm_compute; reflexivity|]. split; [exact the_conjectures_good|]. split; [vm_compute; reflexivity|]. split; [vm_compute; reflexivity|]. split; vm_compute; reflexivity. Qed.

(** a half-life of 3: the third decision already differs from that of the unrestricted variant *)
Lemma halflife_short : exists n cls bbs calls h g rs1 rs2 h' g', good_conjectures n cls bbs /\ searching Qarith n calls /\
  h_init Qarith Vanishing 3 0 (Ok (Some (cls, bbs))) n v_start (h_new Qarith v_start false 3) = Ok h /\
  h_init Qarith Unrestricted 3 0 (Ok (Some (cls, bbs))) n v_start (h_new Qarith v_start false 3) = Ok g /\
  h_picks Qarith Vanishing calls h = Ok (rs1, h') /\ h_picks Qarith Unrestricted calls g = Ok (rs2, g') /\ length calls = 3 /\ rs1 <> rs2.
Proof.
  exists 4, the_classes, the_backbones, (map after ess0).
  assert (HS : searching Qarith 4 (map after ess0)) by (apply legal_ok; vm_compute; reflexivity).
  destruct (picks_ok Qarith Vanishing 3 0 the_classes the_backbones 4 v_start v_start false 3 (map after ess0) ltac:(lia) the_conjectures_good HS) as (h & rs1 & h' & I1 & P1 & _).
  destruct (picks_ok Qarith Unrestricted 3 0 the_classes the_backbones 4 v_start v_start false 3 (map after ess0) ltac:(lia) the_conjectures_good HS) as (g & rs2 & g' & I2 & P2 & _).
  exists h, g, rs1, rs2, h', g'. split; [exact the_conjectures_good|]. split; [exact HS|]. split; [exact I1|]. split; [exact I2|]. split; [exact P1|]. split; [exact P2|]. split; [reflexivity|].
  assert (O1 : outs Vanishing (startq Vanishing 3 0 3 the_classes the_backbones 4) ess0 = Some rs1) by (unfold outs, startq; rewrite I1, P1; auto).
  assert (O2 : outs Unrestricted (startq Unrestricted 3 0 3 the_classes the_backbones 4) ess0 = Some rs2) by (unfold outs, startq; rewrite I2, P2; auto).
  vm_compute in O1. vm_compute in O2. intros X. congruence.
Qed.

(** a budget of 1 for the class {x1, x4}: the second init makes a second use possible *)
Definition xcls : list (list lit) := [[mkLit 0 false; mkLit 3 false]].
Definition xcalls : list (trail_t * vsids Qarith) := [after [EVars 4; EInit; EPick]; after [EVars 4; EInit; EPick]].
Lemma xcls_good : good_conjectures 4 xcls [].
Proof. split; [apply (NoDup_count_occ' Nat.eq_dec); intros x; cbn; intuition (subst; reflexivity)|cbn; intros l H; intuition (subst; cbn; lia)]. Qed.
Definition xrun : option (list (option lit) * list (option lit)) :=
  match startq Budgeted 2 1 1 xcls [] 4 with
  | Ok h => match h_picks Qarith Budgeted xcalls h with
            | Ok (r1, h1) => match h_init Qarith Budgeted 2 1 (Ok None) 4 v_start h1 with
                             | Ok h2 => match h_picks Qarith Budgeted xcalls h2 with Ok (r2, _) => Some (r1, r2) | _ => None end
                             | _ => None end
            | _ => None end
  | _ => None end.
Lemma refill : exists n cls c y calls h rs1 h1 h2 rs2 h3, good_conjectures n cls [] /\ cls = [c] /\ In y (map lvar c) /\ length c = 2 /\ searching Qarith n calls /\
  h_init Qarith Budgeted 2 1 (Ok (Some (cls, []))) n v_start (h_new Qarith v_start false 1) = Ok h /\ h_picks Qarith Budgeted calls h = Ok (rs1, h1) /\
  h_init Qarith Budgeted 2 1 (Ok None) n v_start h1 = Ok h2 /\ h_picks Qarith Budgeted calls h2 = Ok (rs2, h3) /\
  length (overrides Qarith y calls rs1) = 1 /\ length (overrides Qarith y calls rs2) = 1.
Proof.
  assert (E : xrun = Some ([Some 6; Some 7], [Some 6; Some 7])) by (vm_compute; reflexivity). unfold xrun in E.
  destruct (startq _ _ _ _ _ _ _) as [h|] eqn:E1; [|discriminate]. destruct (h_picks Qarith Budgeted xcalls h) as [[r1 h1]|] eqn:E2; [|discriminate].
  destruct (h_init Qarith Budgeted 2 1 (Ok None) 4 v_start h1) as [h2|] eqn:E3; [|discriminate]. destruct (h_picks Qarith Budgeted xcalls h2) as [[r2 h3]|] eqn:E4; [|discriminate].
  inversion E; subst; clear E. exists 4, xcls, [mkLit 0 false; mkLit 3 false], 3, xcalls, h, [Some 6; Some 7], h1, h2, [Some 6; Some 7], h3.
  split; [exact xcls_good|]. split; [reflexivity|]. split; [cbn; auto|]. split; [reflexivity|]. split; [apply (legal_ok 4 [[EVars 4; EInit; EPick]; [EVars 4; EInit; EPick]]); vm_compute; reflexivity|].
  split; [exact E1|]. split; [exact E2|]. split; [exact E3|]. split; [exact E4|]. split; vm_compute; reflexivity.
Qed.

(** ** Generation *)
Lemma generate_case : simulable 2 sfills (repeat [0; 0]%N 5) (mkCnf scase 5) scase_g /\
  generateConjectures (mkRO 0 1 false 0 false false false) plain_cfg (fun l => l) 2 log_sched sfills (repeat [0; 0]%N 5) (mkCnf scase 5) = Ok (Some ([[5; 3; 1]], [])) /\
  generateConjectures (mkRO 2 5 false 3 true false false) plain_cfg (fun l => l) 2 log_sched sfills (repeat [0; 0]%N 5) (mkCnf scase 5) = Ok (Some ([[5; 3; 1]], [])) /\
  generateConjectures (mkRO 0 1 true 0 false false false) plain_cfg (fun l => l) 2 log_sched sfills (repeat [0; 0]%N 5) (mkCnf scase 5) = Ok None /\
  generateConjectures (mkRO 0 1 false 2 false false false) plain_cfg (fun l => l) 2 log_sched sfills (repeat [0; 0]%N 5) (mkCnf scase 5) = Ok None /\
  generateConjectures (mkRO 3 5 false 0 false false false) plain_cfg (fun l => l) 2 log_sched sfills (repeat [0; 0]%N 5) (mkCnf scase 5) = Ok None.
Proof.
  destruct scase_ok as (W & AN & BC & RG & OU & OI & OA & WV & WF & SS & NC & _). split; [|split; [|split; [|split; [|split]]]; vm_compute; reflexivity].
  split; [lia|]. split; [discriminate|]. split; [exact BC|]. intros ord E. cbn [problem] in *. assert (X : ord = scase_ord) by congruence. rewrite X, OA, OU.
  split; [exact WV|]. split; [intros f v Hf _; apply WF; auto|]. split; [apply N.leb_le; reflexivity|]. intros hist E'. assert (Y : hist = shist) by congruence. rewrite Y. exact NC.
Qed.

(** ** The builder *)
Lemma builder_ok static lrb vsidsc rsil size mode :
  (lrb = true \/ rsil = false -> createSolver static lrb vsidsc rsil size mode = Some (requested static lrb vsidsc rsil size Unrestricted)) /\
  (lrb = false -> rsil = true -> ~ In mode ["unrestricted"; "vanishing"; "implicationbudgeted"]%string -> createSolver static lrb vsidsc rsil size mode = None) /\
  (lrb = false -> rsil = true -> mode = "unrestricted"%string -> 2 <= size <= 3 -> createSolver static lrb vsidsc rsil size mode = Some (requested static lrb vsidsc rsil size Unrestricted)).
Proof.
  split; [|split].
  - intros [->| ->]; unfold createSolver, requested; destruct static; try destruct lrb; try destruct vsidsc; try destruct rsil; reflexivity.
  - intros -> -> HM. unfold createSolver, getRSILMode. destruct (String.eqb_spec mode "unrestricted") as [->|]; [exfalso; apply HM; cbn; auto|].
    destruct (String.eqb_spec mode "vanishing") as [->|]; [exfalso; apply HM; cbn; auto|]. destruct (String.eqb_spec mode "implicationbudgeted") as [->|]; [exfalso; apply HM; cbn; auto|]. reflexivity.
  - intros -> -> -> HS. assert (size = 2 \/ size = 3) as [->| ->] by lia; destruct static; reflexivity.
Qed.
Lemma builder_swapped static vsidsc size : 2 <= size <= 3 ->
  createSolver static false vsidsc true size "vanishing" = Some (requested static false vsidsc true size Budgeted) /\
  createSolver static false vsidsc true size "implicationbudgeted" = Some (requested static false vsidsc true size Vanishing).
Proof. intros HS. assert (size = 2 \/ size = 3) as [->| ->] by lia; destruct static; split; reflexivity. Qed.
