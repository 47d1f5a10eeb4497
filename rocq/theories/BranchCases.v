(** Instances and witnesses for C24. *)
Require Import List Arith Bool NArith ZArith QArith Lia.
Require Import Verif.Base Verif.CNFModel Verif.Outcome Verif.TrailModel Verif.TrailSpec Verif.HeapModel Verif.BranchModel Verif.BranchSpec Verif.BranchProofs Verif.BranchMore Verif.BranchAdvice.
Import ListNotations.
Local Open Scope nat_scope.

(** The formulas of the code in exact rational arithmetic. *)
Definition q_gt (x y : Q) : bool := negb (Qle_bool x y).
Definition googol : positive := (10 ^ 100)%positive.
Definition Qarith : arith := {|
  F := Q; f_zero := 0%Q; f_one := 1%Q;
  f_gt := q_gt;
  f_add := Qplus;
  f_big := fun x => q_gt x (Zpos googol # 1);
  f_scale := fun x => (x * (1 # googol))%Q;
  f_decay := fun i d => (i * (1 / d))%Q;
  f_hundredth := fun d => (d + (1 # 100))%Q;
  f_lrb := fun s w q => ((1 - s) * w + s * (Z.of_N q # 1))%Q;
  f_shrink := fun s => if q_gt s (6 # 100) then (s - (1 # 100000))%Q else s |}.

Lemma q_gt_true x y : q_gt x y = true <-> (y < x)%Q.
Proof.
  unfold q_gt. rewrite negb_true_iff. split.
  - intros H. apply Qnot_le_lt. intros H1. apply Qle_bool_iff in H1. congruence.
  - intros H. destruct (Qle_bool x y) eqn:E; auto. apply Qle_bool_iff in E. exfalso. apply (Qlt_not_le _ _ H E).
Qed.
Lemma q_gt_false x y : q_gt x y = false <-> (x <= y)%Q.
Proof. unfold q_gt. rewrite negb_false_iff. apply Qle_bool_iff. Qed.

(** Exact arithmetic meets the hypotheses of the order theorem. *)
Lemma Qarith_ordered : ordered Qarith (fun i => 0 <= i)%Q (fun d => 0 < d)%Q.
Proof.
  assert (HG : (0 <= 1 # googol)%Q) by (unfold Qle; cbn [Qnum Qden]; lia).
  constructor; cbn [F f_zero f_one f_gt f_add f_big f_scale f_decay f_hundredth f_lrb f_shrink Qarith].
  - intros x. apply q_gt_false, Qle_refl.
  - intros x y z. rewrite !q_gt_true. intros H1 H2. apply (Qlt_trans _ y); auto.
  - intros x y z. rewrite !q_gt_false. intros H1 H2. apply (Qle_trans _ y); auto.
  - intros x y i Hi. rewrite !q_gt_false. intros H. apply (Qle_trans _ x); auto.
    rewrite <- (Qplus_0_r x) at 1. apply Qplus_le_compat; auto. apply Qle_refl.
  - intros x y. rewrite !q_gt_false. intros H. apply Qmult_le_compat_r; auto.
  - discriminate.
  - intros i H. apply Qmult_le_0_compat; auto.
  - intros i d Hi Hd. apply Qmult_le_0_compat; auto. unfold Qdiv. rewrite Qmult_1_l. apply Qlt_le_weak, Qinv_lt_0_compat; auto.
  - intros d Hd. apply (Qlt_trans _ (0 + (1 # 100))); [reflexivity|]. apply Qplus_lt_l; auto.
Qed.

(** ** Running histories *)
Inductive event :=
| EVars (n : nat)                               (* the trail learns the number of variables *)
| EInit
| EReset
| EBacktrack (k : nat)
| EPick                                         (* ask for a literal and decide it *)
| EConflict (involved : list clause) (bl : nat)
| EActivity (v : var) (x : Q).

Definition in_range (n : nat) (involved : list clause) : bool := forallb (fun c => forallb (fun l => lvar l <? n) c) involved.
Lemma in_range_ok n involved : in_range n involved = true -> forall c l, In c involved -> In l c -> lvar l < n.
Proof.
  unfold in_range. rewrite forallb_forall. intros H c l Hc Hl. specialize (H c Hc). rewrite forallb_forall in H.
  apply Nat.ltb_lt. auto.
Qed.
Definition notStale (p : phase) : bool := match p with Stale => false | _ => true end.
Lemma notStale_ok p : notStale p = true -> p <> Stale. Proof. destruct p; discriminate. Qed.

Definition plain (_ : var) (i : Q) : Q := i.
Definition vstate := (phase * trail_t * vsids Qarith)%type.
Definition opt {B} (x : out B) : option B := match x with Ok b => Some b | _ => None end.

Definition vs_event (ext : bool) (e : event) (s : vstate) : option vstate :=
  let '(ph, t, b) := s in
  match e with
  | EVars n => Some (after_op (OpInit n) ph, trail_init n t, b)
  | EInit => match opt (vs_init Qarith None t b) with Some b' => Some (Full, t, b') | None => None end
  | EReset => if nvt t <=? length (vs_act Qarith b)
              then match opt (vs_reset Qarith t b) with Some b' => Some (Full, t, b') | None => None end else None
  | EBacktrack k => Some (after_op (OpBacktrack k) ph, backtrack k t, b)
  | EPick => if notStale ph then
      match opt (vs_pick Qarith t b) with
      | Some (Some p, b') => match opt (decide p (newDecisionLevel t)) with Some t' => Some (Search, t', b') | None => None end
      | _ => None
      end else None
  | EConflict inv bl => if notStale ph && (bl <? dlevel t) && in_range (nvt t) inv then
      match opt (vs_conflict Qarith plain false false inv bl t b) with Some b' => Some (Search, backtrack bl t, b') | None => None end
      else None
  | EActivity v x => if ext then match opt (vs_setActivity Qarith v x b) with Some b' => Some (ph, t, b') | None => None end else None
  end.
Fixpoint run {S} (step : event -> S -> option S) (es : list event) (s : S) : option S :=
  match es with [] => Some s | e :: r => match step e s with Some s' => run step r s' | None => None end end.

Definition vreach (ext : bool) (s : vstate) : Prop :=
  vs_reach Qarith ext (okpos Qarith (fun i => 0 <= i)%Q) (80 # 100) (fst (fst s)) (snd (fst s)) (snd s).

Lemma opt_ok {B} (x : out B) b : opt x = Some b -> x = Ok b. Proof. destruct x; cbn; congruence. Qed.

Lemma vs_event_ok ext e s s' : vreach ext s -> vs_event ext e s = Some s' -> vreach ext s'.
Proof.
  destruct s as [[ph t] b]. unfold vreach. cbn [fst snd]. intros H. destruct e as [n| | |k| |inv bl|v x]; unfold vs_event.
  - intros E. inversion E; subst. cbn [fst snd]. apply (vr_trail _ _ _ _ ph t b (OpInit n)); auto. exact I.
  - destruct (opt _) as [b'|] eqn:E1; [|discriminate]. intros E. inversion E; subst. cbn [fst snd]. apply opt_ok in E1.
    eapply vr_init; eauto.
  - destruct (Nat.leb_spec (nvt t) (length (vs_act Qarith b))); [|discriminate].
    destruct (opt _) as [b'|] eqn:E1; [|discriminate]. intros E. inversion E; subst. cbn [fst snd]. apply opt_ok in E1.
    eapply vr_reset; eauto.
  - intros E. inversion E; subst. cbn [fst snd]. apply (vr_trail _ _ _ _ ph t b (OpBacktrack k)); auto. exact I.
  - destruct (notStale ph) eqn:Ep; [|discriminate]. destruct (opt (vs_pick _ _ _)) as [[[p|] b']|] eqn:E1; [|discriminate..].
    destruct (opt (decide _ _)) as [t'|] eqn:E2; [|discriminate]. intros E. inversion E; subst. cbn [fst snd].
    apply opt_ok in E1. apply opt_ok in E2. eapply vr_pick; eauto. apply notStale_ok; auto.
  - destruct (notStale ph && (bl <? dlevel t) && in_range (nvt t) inv) eqn:Ec; [|discriminate].
    rewrite !andb_true_iff in Ec. destruct Ec as ((Ep & El) & Er). apply Nat.ltb_lt in El.
    destruct (opt _) as [b'|] eqn:E1; [|discriminate]. intros E. inversion E; subst. cbn [fst snd]. apply opt_ok in E1.
    eapply vr_conflict; eauto; [apply notStale_ok; auto|intros v i Hi; exact Hi|apply in_range_ok; auto].
  - destruct ext; [|discriminate]. destruct (opt _) as [b'|] eqn:E1; [|discriminate]. intros E. inversion E; subst. cbn [fst snd].
    apply opt_ok in E1. eapply vr_activity; eauto.
Qed.
Lemma vs_run_ok ext es s : run (vs_event ext) es (Stale, trail_new, vs_new Qarith (80 # 100)) = Some s -> vreach ext s.
Proof.
  assert (H : vreach ext (Stale, trail_new, vs_new Qarith (80 # 100))) by (constructor).
  revert H. generalize (Stale, trail_new, vs_new Qarith (80 # 100)). induction es as [|e r IH]; intros s0 H; cbn [run].
  - intros E. inversion E; subst; auto.
  - destruct (vs_event ext e s0) as [s1|] eqn:E1; [|discriminate]. apply IH. eapply vs_event_ok; eauto.
Qed.

Definition lstate := (phase * trail_t * lrb Qarith)%type.
Definition lr_event (e : event) (s : lstate) : option lstate :=
  let '(ph, t, b) := s in
  match e with
  | EVars n => Some (after_op (OpInit n) ph, trail_init n t, b)
  | EInit => match opt (lr_init Qarith None t b) with Some b' => Some (Full, t, b') | None => None end
  | EReset => if nvt t <=? length (lr_w Qarith b)
              then match opt (lr_reset Qarith t b) with Some b' => Some (Full, t, b') | None => None end else None
  | EBacktrack k => Some (after_op (OpBacktrack k) ph, backtrack k t, b)
  | EPick => if notStale ph then
      match opt (lr_pick Qarith t b) with
      | Some (Some p, b') => match opt (decide p (newDecisionLevel t)) with Some t' => Some (Search, t', b') | None => None end
      | _ => None
      end else None
  | EConflict inv bl => if notStale ph && (bl <? dlevel t) && in_range (nvt t) inv then
      match opt (lr_conflict Qarith inv bl t b) with Some b' => Some (Search, backtrack bl t, b') | None => None end
      else None
  | EActivity _ _ => None
  end.
Definition lreach (s : lstate) : Prop := lr_reach Qarith (fst (fst s)) (snd (fst s)) (snd s).
Lemma lr_event_ok e s s' : lreach s -> lr_event e s = Some s' -> lreach s'.
Proof.
  destruct s as [[ph t] b]. unfold lreach. cbn [fst snd]. intros H. destruct e as [n| | |k| |inv bl|v x]; unfold lr_event.
  - intros E. inversion E; subst. cbn [fst snd]. apply (lr_r_trail _ ph t b (OpInit n)); auto. exact I.
  - destruct (opt _) as [b'|] eqn:E1; [|discriminate]. intros E. inversion E; subst. cbn [fst snd]. apply opt_ok in E1.
    eapply lr_r_init; eauto.
  - destruct (Nat.leb_spec (nvt t) (length (lr_w Qarith b))); [|discriminate].
    destruct (opt _) as [b'|] eqn:E1; [|discriminate]. intros E. inversion E; subst. cbn [fst snd]. apply opt_ok in E1.
    eapply lr_r_reset; eauto.
  - intros E. inversion E; subst. cbn [fst snd]. apply (lr_r_trail _ ph t b (OpBacktrack k)); auto. exact I.
  - destruct (notStale ph) eqn:Ep; [|discriminate]. destruct (opt (lr_pick _ _ _)) as [[[p|] b']|] eqn:E1; [|discriminate..].
    destruct (opt (decide _ _)) as [t'|] eqn:E2; [|discriminate]. intros E. inversion E; subst. cbn [fst snd].
    apply opt_ok in E1. apply opt_ok in E2. eapply lr_r_pick; eauto. apply notStale_ok; auto.
  - destruct (notStale ph && (bl <? dlevel t) && in_range (nvt t) inv) eqn:Ec; [|discriminate].
    rewrite !andb_true_iff in Ec. destruct Ec as ((Ep & El) & Er). apply Nat.ltb_lt in El.
    destruct (opt _) as [b'|] eqn:E1; [|discriminate]. intros E. inversion E; subst. cbn [fst snd]. apply opt_ok in E1.
    eapply lr_r_conflict; eauto; [apply notStale_ok; auto|apply in_range_ok; auto].
  - discriminate.
Qed.
Lemma lr_run_ok es s : run lr_event es (Stale, trail_new, lr_new Qarith (4 # 10)) = Some s -> lreach s.
Proof.
  assert (H : lreach (Stale, trail_new, lr_new Qarith (4 # 10))) by (constructor).
  revert H. generalize (Stale, trail_new, lr_new Qarith (4 # 10)). induction es as [|e r IH]; intros s0 H; cbn [run].
  - intros E. inversion E; subst; auto.
  - destruct (lr_event e s0) as [s1|] eqn:E1; [|discriminate]. apply IH. eapply lr_event_ok; eauto.
Qed.

Lemma run_check {S} (x : option S) (f : S -> bool) : match x with Some s => f s | None => false end = true ->
  exists s, x = Some s /\ f s = true.
Proof. destruct x as [s|]; [|discriminate]. eauto. Qed.

Definition lit_opt_eqb (x : option lit) (n : lit) : bool := match x with Some m => m =? n | None => false end.
Definition vpick (s : vstate) (n : lit) : bool :=
  match vs_pick Qarith (snd (fst s)) (snd s) with Ok (Some m, _) => m =? n | _ => false end.
Lemma vpick_ok s n : vpick s n = true -> exists b', vs_pick Qarith (snd (fst s)) (snd s) = Ok (Some n, b').
Proof.
  unfold vpick. destruct (vs_pick _ _ _) as [[[m|] b]|]; try discriminate. intros E. apply Nat.eqb_eq in E. subst. eauto.
Qed.
Definition vnone (s : vstate) : bool :=
  match vs_pick Qarith (snd (fst s)) (snd s) with Ok (None, _) => true | _ => false end.
Lemma vnone_ok s : vnone s = true -> exists b', vs_pick Qarith (snd (fst s)) (snd s) = Ok (None, b').
Proof. unfold vnone. destruct (vs_pick _ _ _) as [[[m|] b]|]; try discriminate. eauto. Qed.
Definition lpick (s : lstate) (n : lit) : bool :=
  match lr_pick Qarith (snd (fst s)) (snd s) with Ok (Some m, _) => m =? n | _ => false end.
Lemma lpick_ok s n : lpick s n = true -> exists b', lr_pick Qarith (snd (fst s)) (snd s) = Ok (Some n, b').
Proof.
  unfold lpick. destruct (lr_pick _ _ _) as [[[m|] b]|]; try discriminate. intros E. apply Nat.eqb_eq in E. subst. eauto.
Qed.

(** two decisions, a conflict that bumps the variables 1 and 3, one level undone: variable 1 is next *)
Lemma vsids_case : exists t b, vs_reach Qarith false (okpos Qarith (fun i => 0 <= i)%Q) (80 # 100) Search t b /\
  (exists b', vs_pick Qarith t b = Ok (Some (mkLit 1 true), b')) /\ vvalue t 0 <> None /\ vvalue t 1 = None /\ vvalue t 3 = None.
Proof.
  destruct (run_check (run (vs_event false)
    [EVars 4; EInit; EPick; EPick; EConflict [[mkLit 1 false; mkLit 3 true]; [mkLit 1 true]] 1] (Stale, trail_new, vs_new Qarith (80 # 100)))
    (fun s => match fst (fst s) with Search => true | _ => false end && vpick s (mkLit 1 true) && 
      negb (is_undef (vvalue (snd (fst s)) 0)) && is_undef (vvalue (snd (fst s)) 1) && is_undef (vvalue (snd (fst s)) 3)) ltac:(vm_compute; reflexivity)) as ([[ph t] b] & E & C).
  apply vs_run_ok in E. unfold vreach in E. cbn [fst snd] in *. rewrite !andb_true_iff in C. destruct C as ((((C1 & C2) & C3) & C4) & C5).
  destruct ph; try discriminate. exists t, b. split; [exact E|]. split; [apply (vpick_ok _ _ C2)|].
  split; [intros H; rewrite H in C3; discriminate|]. split; [destruct (vvalue t 1)|destruct (vvalue t 3)]; auto; discriminate.
Qed.

(** all variables decided: no literal *)
Lemma vsids_none_case : exists t b, vs_reach Qarith false (okpos Qarith (fun i => 0 <= i)%Q) (80 # 100) Search t b /\
  (exists b', vs_pick Qarith t b = Ok (None, b')) /\ nvt t = 2.
Proof.
  destruct (run_check (run (vs_event false) [EVars 2; EInit; EPick; EPick] (Stale, trail_new, vs_new Qarith (80 # 100)))
    (fun s => match fst (fst s) with Search => true | _ => false end && vnone s && (nvt (snd (fst s)) =? 2)) ltac:(vm_compute; reflexivity)) as ([[ph t] b] & E & C).
  apply vs_run_ok in E. unfold vreach in E. cbn [fst snd] in *. rewrite !andb_true_iff in C. destruct C as ((C1 & C2) & C3).
  destruct ph; try discriminate. exists t, b. split; [exact E|]. split; [apply (vnone_ok _ C2)|apply Nat.eqb_eq; auto].
Qed.

Lemma lrb_case : exists t b, lr_reach Qarith Search t b /\ exists b', lr_pick Qarith t b = Ok (Some (mkLit 2 true), b').
Proof.
  destruct (run_check (run lr_event [EVars 3; EInit; EPick; EConflict [[mkLit 0 false]] 0] (Stale, trail_new, lr_new Qarith (4 # 10)))
    (fun s => match fst (fst s) with Search => true | _ => false end && lpick s (mkLit 2 true)) ltac:(vm_compute; reflexivity)) as ([[ph t] b] & E & C).
  apply lr_run_ok in E. unfold lreach in E. cbn [fst snd] in *. rewrite !andb_true_iff in C. destruct C as (C1 & C2).
  destruct ph; try discriminate. exists t, b. split; [exact E|]. apply (lpick_ok _ _ C2).
Qed.

(** ** Where the heap loses the order *)
Lemma lrb_order : exists t b p b', lr_reach Qarith Search t b /\ lr_pick Qarith t b = Ok (Some p, b') /\
  exists v, v < nvt t /\ isDecisionVar v t = true /\ vvalue t v = None /\
  (nth (lvar p) (lr_w Qarith b) 0 < nth v (lr_w Qarith b) 0)%Q.
Proof.
  destruct (run_check (run lr_event [EVars 3; EInit; EPick; EConflict [[mkLit 0 false]] 0] (Stale, trail_new, lr_new Qarith (4 # 10)))
    (fun s => match fst (fst s) with Search => true | _ => false end && lpick s (mkLit 2 true) &&
      (0 <? nvt (snd (fst s))) && isDecisionVar 0 (snd (fst s)) && is_undef (vvalue (snd (fst s)) 0) &&
      q_gt (nth 0 (lr_w Qarith (snd s)) 0%Q) (nth 2 (lr_w Qarith (snd s)) 0%Q)) ltac:(vm_compute; reflexivity)) as ([[ph t] b] & E & C).
  apply lr_run_ok in E. unfold lreach in E. cbn [fst snd] in *. rewrite !andb_true_iff in C. destruct C as (((((C1 & C2) & C3) & C4) & C5) & C6).
  destruct ph; try discriminate. destruct (lpick_ok _ _ C2) as (b' & EP). exists t, b, (mkLit 2 true), b'. split; [exact E|]. split; [exact EP|].
  exists 0. split; [apply Nat.ltb_lt; auto|]. split; [auto|]. split; [destruct (vvalue t 0); auto; discriminate|]. apply q_gt_true. exact C6.
Qed.

Lemma activity_order : exists t b p b', vs_reach Qarith true (okpos Qarith (fun i => 0 <= i)%Q) (80 # 100) Full t b /\ vs_pick Qarith t b = Ok (Some p, b') /\
  exists v, v < nvt t /\ isDecisionVar v t = true /\ vvalue t v = None /\
  (nth (lvar p) (vs_act Qarith b) 0 < nth v (vs_act Qarith b) 0)%Q.
Proof.
  destruct (run_check (run (vs_event true) [EVars 3; EInit; EActivity 2 5%Q] (Stale, trail_new, vs_new Qarith (80 # 100)))
    (fun s => match fst (fst s) with Full => true | _ => false end && vpick s (mkLit 0 true) &&
      (2 <? nvt (snd (fst s))) && isDecisionVar 2 (snd (fst s)) && is_undef (vvalue (snd (fst s)) 2) &&
      q_gt (nth 2 (vs_act Qarith (snd s)) 0%Q) (nth 0 (vs_act Qarith (snd s)) 0%Q)) ltac:(vm_compute; reflexivity)) as ([[ph t] b] & E & C).
  apply vs_run_ok in E. unfold vreach in E. cbn [fst snd] in *. rewrite !andb_true_iff in C. destruct C as (((((C1 & C2) & C3) & C4) & C5) & C6).
  destruct ph; try discriminate. destruct (vpick_ok _ _ C2) as (b' & EP). exists t, b, (mkLit 0 true), b'. split; [exact E|]. split; [exact EP|].
  exists 2. split; [apply Nat.ltb_lt; auto|]. split; [auto|]. split; [destruct (vvalue t 2); auto; discriminate|]. apply q_gt_true. exact C6.
Qed.

(** The phases matter: after a backtrack that the heuristic did not see, it may find nothing although
    a decision variable is unassigned. *)
Lemma stale_pick : exists t b b', vs_reach Qarith false (okpos Qarith (fun i => 0 <= i)%Q) (80 # 100) Stale t b /\
  vs_pick Qarith t b = Ok (None, b') /\ nvt t = 2 /\ isDecisionVar 0 t = true /\ vvalue t 0 = None.
Proof.
  destruct (run_check (run (vs_event false) [EVars 2; EInit; EPick; EPick; EBacktrack 0] (Stale, trail_new, vs_new Qarith (80 # 100)))
    (fun s => match fst (fst s) with Stale => true | _ => false end && vnone s && (nvt (snd (fst s)) =? 2) &&
       isDecisionVar 0 (snd (fst s)) && is_undef (vvalue (snd (fst s)) 0)) ltac:(vm_compute; reflexivity)) as ([[ph t] b] & E & C).
  apply vs_run_ok in E. unfold vreach in E. cbn [fst snd] in *. rewrite !andb_true_iff in C. destruct C as ((((C1 & C2) & C3) & C4) & C5).
  destruct ph; try discriminate. destruct (vnone_ok _ C2) as (b' & EP). exists t, b, b'. split; [exact E|]. split; [exact EP|].
  split; [apply Nat.eqb_eq; auto|]. split; [auto|]. destruct (vvalue t 0); auto; discriminate.
Qed.

(** ** Implicit learning: the class {x1, x2, -x4} and the backbone -x3 *)
Definition the_classes : list (list lit) := [[mkLit 0 false; mkLit 1 false; mkLit 3 true]].
Definition the_backbones : list lit := [mkLit 2 true].
Lemma the_conjectures_good : good_conjectures 4 the_classes the_backbones.
Proof.
  split.
  - apply (NoDup_count_occ' Nat.eq_dec). intros x. cbn. intuition (subst; reflexivity).
  - cbn. intros l H. intuition (subst; cbn; lia).
Qed.

Definition rpick (s : vstate) (m : list advice) (n : lit) : bool :=
  match rs_pick Qarith true true (snd (fst s)) (mkRSIL Qarith (snd s) m true true) with Ok (Some p, _) => p =? n | _ => false end.
Lemma rpick_ok s m n : rpick s m n = true -> exists b', rs_pick Qarith true true (snd (fst s)) (mkRSIL Qarith (snd s) m true true) = Ok (Some n, b').
Proof.
  unfold rpick. destruct (rs_pick _ _ _ _ _) as [[[p|] b]|]; try discriminate. intros E. apply Nat.eqb_eq in E. subst. eauto.
Qed.

(** the first decision is -x1 (VSIDS); the second contradicts the class: -x4 *)
Lemma rsil_case : exists t v m b', adv_init 3 false the_classes the_backbones 4 = Ok m /\
  vs_reach Qarith false (okpos Qarith (fun i => 0 <= i)%Q) (80 # 100) Search t v /\ nvt t = 4 /\
  In (mkLit 0 true) (tr t) /\ rs_pick Qarith true true t (mkRSIL Qarith v m true true) = Ok (Some (mkLit 3 true), b').
Proof.
  destruct (adv_init 3 false the_classes the_backbones 4) as [m|] eqn:EI; [|vm_compute in EI; discriminate].
  vm_compute in EI. inversion EI; subst m; clear EI.
  match goal with |- context [Ok ?m = Ok _] =>
  destruct (run_check (run (vs_event false) [EVars 4; EInit; EPick] (Stale, trail_new, vs_new Qarith (80 # 100)))
    (fun s => match fst (fst s) with Search => true | _ => false end && (nvt (snd (fst s)) =? 4) && existsb (Nat.eqb (mkLit 0 true)) (tr (snd (fst s))) && rpick s m (mkLit 3 true)) ltac:(vm_compute; reflexivity)) as ([[ph t] b] & E & C) end.
  apply vs_run_ok in E. unfold vreach in E. cbn [fst snd] in *. rewrite !andb_true_iff in C. destruct C as (((C1 & C2) & C3) & C4).
  destruct ph; try discriminate. apply rpick_ok in C4. destruct C4 as (b' & C4). cbn [fst snd] in C4. exists t, b. eexists. exists b'. split; [reflexivity|].
  split; [exact E|]. split; [apply Nat.eqb_eq; auto|]. split; [|exact C4].
  apply existsb_exists in C3. destruct C3 as (x & H & Ex). apply Nat.eqb_eq in Ex. rewrite Ex. exact H.
Qed.
