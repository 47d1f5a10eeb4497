(** Proofs about AIGProblem::createAnds. *)
Require Import List Arith Bool Lia Permutation Sorted.
From Coq Require Import ZifyBool ZifyNat.
Require Import Verif.Base Verif.Outcome Verif.CNFModel Verif.CNFProofs Verif.TrailProofs Verif.GateModel Verif.AigModel Verif.AigSpec Verif.AigProofs.
Import ListNotations.

Lemma set_insert_in v l u : In u (set_insert v l) <-> u = v \/ In u l.
Proof. induction l as [|x l IH]; cbn [set_insert]; [cbn; intuition|]. destruct (Nat.ltb_spec v x); [cbn; intuition|]. destruct (Nat.eqb_spec v x) as [->|]; [cbn; intuition|]. cbn [In]. rewrite IH. intuition. Qed.
Lemma set_insert_sorted v l : StronglySorted lt l -> StronglySorted lt (set_insert v l).
Proof.
  induction 1 as [|x l HS IH HF]; cbn [set_insert]; [repeat constructor|]. destruct (Nat.ltb_spec v x).
  - constructor; [constructor; auto|]. constructor; auto. eapply Forall_impl; [|exact HF]. cbn. intros. lia.
  - destruct (Nat.eqb_spec v x) as [->|]; [constructor; auto|]. constructor; auto. apply Forall_forall. intros u Hu. apply set_insert_in in Hu. destruct Hu as [->|Hu]; [lia|]. rewrite Forall_forall in HF. auto.
Qed.
Lemma sorted_nodup l : StronglySorted lt l -> NoDup l.
Proof. induction 1 as [|x l HS IH HF]; constructor; auto. intros H. rewrite Forall_forall in HF. specialize (HF x H). lia. Qed.

Lemma forallb_ext_in {A} (f g : A -> bool) l : (forall x, In x l -> f x = g x) -> forallb f l = forallb g l.
Proof. induction l as [|x l IH]; intros H; cbn; auto. rewrite (H x (or_introl eq_refl)), IH; auto. intros; apply H; right; auto. Qed.

Lemma same_var_cases o l : lvar o = lvar l -> l = o \/ l = lneg o.
Proof. intros H. apply same_var. auto. Qed.

Section L.
Variable gs : list agate.
Variable n : nat.
Hypothesis HL : length gs = S n.

Definition defg (v : var) : bool := match nth_error gs v with Some g => match a_out g with Some _ => true | None => false end | None => false end.

Lemma isDefined_ok v : v <= n -> isDefined gs v = Ok (defg v).
Proof. intros H. unfold isDefined, defg. destruct (nth_error gs v) eqn:E; auto. apply nth_error_None in E. lia. Qed.
Lemma register_one l s : lvar l <= n -> registerLiteral gs l s = Ok (if defg (lvar l) then mkAS (var_count s) (l :: literals s) (ainputs s) (visited s) (pands s) else mkAS (var_count s) (literals s) (set_insert (lvar l) (ainputs s)) (visited s) (pands s)).
Proof. intros H. unfold registerLiteral. rewrite (isDefined_ok _ H). auto. Qed.

(** the literals of the clauses are registered *)
Record registered (D : lit -> Prop) (k : nat) (s s' : astate) : Prop := {
  rg_vis : visited s' = visited s;
  rg_lits : forall l, In l (literals s') <-> In l (literals s) \/ (D l /\ defg (lvar l) = true);
  rg_in : forall v, In v (ainputs s') <-> In v (ainputs s) \/ (exists l, D l /\ lvar l = v) /\ defg v = false;
  rg_sorted : StronglySorted lt (ainputs s) -> StronglySorted lt (ainputs s');
  rg_len : length (literals s') <= length (literals s) + k
}.
Lemma registered_trans D1 D2 k1 k2 s1 s2 s3 : registered D1 k1 s1 s2 -> registered D2 k2 s2 s3 -> registered (fun l => D1 l \/ D2 l) (k1 + k2) s1 s3.
Proof.
  intros [A1 A2 A3 A4 A5] [B1 B2 B3 B4 B5]. split; [congruence| | |auto|lia].
  - intros l. rewrite B2, A2. tauto.
  - intros v. rewrite B3, A3. split.
    + intros [[H|((l & H & H') & H'')]|((l & H & H') & H'')]; auto; right; split; auto; exists l; auto.
    + intros [H|((l & [H|H] & H') & H'')]; auto; [left; right|right]; split; auto; exists l; auto.
Qed.
Lemma registered_ext D D' k s s' t t' : (forall l, D l <-> D' l) -> registered D k s s' -> literals t = literals s -> ainputs t = ainputs s -> visited t = visited s -> literals t' = literals s' -> ainputs t' = ainputs s' -> visited t' = visited s' -> registered D' k t t'.
Proof.
  intros H [A1 A2 A3 A4 A5] E1 E2 E3 E4 E5 E6. split; rewrite ?E1, ?E2, ?E3, ?E4, ?E5, ?E6; auto.
  - intros l. rewrite A2, H. reflexivity.
  - intros v. rewrite A3. split; (intros [X|((l & X & X') & X'')]; auto; right; split; auto; exists l; split; auto; apply H; auto).
Qed.
Lemma register_all : forall c s, vars_le n c -> exists s', registerLiterals gs c s = Ok s' /\ registered (fun l => In l c) (length c) s s' /\ var_count s' = var_count s /\ pands s' = pands s.
Proof.
  induction c as [|l c IH]; intros s HV; [exists s; split; auto; split; auto; split; auto; [intros l; cbn; tauto|intros v; split; auto; intros [H|((l & [] & _) & _)]; auto|cbn; lia]|].
  cbn [registerLiterals]. rewrite register_one by (apply HV; left; auto). cbn [bind]. set (s1 := if defg (lvar l) then _ else _).
  destruct (IH s1 (fun q H => HV q (or_intror H))) as (s' & E & R & V & P). exists s'. split; auto.
  assert (R1 : registered (fun q => q = l) 1 s s1).
  { unfold s1. destruct (defg (lvar l)) eqn:ED; split; cbn [visited literals ainputs]; auto.
    - intros q. cbn [In]. split; [intros [<-|H]; auto|intros [H|(-> & _)]; auto].
    - intros v. split; auto. intros [H|((q & -> & <-) & H)]; auto. congruence.
    - cbn. lia.
    - intros q. split; auto. intros [H|(-> & H)]; auto. congruence.
    - intros v. rewrite set_insert_in. split; [intros [->|H]; auto; right; split; auto; exists l; auto|intros [H|((q & -> & <-) & H)]; auto].
    - apply set_insert_sorted.
    - lia. }
  split; [|rewrite V, P; unfold s1; destruct (defg _); auto]. apply (registered_ext (fun q => q = l \/ In q c) _ _ s s'); auto; [intros q; cbn; intuition|]. apply (registered_trans _ _ 1 (length c) s s1 s'); auto.
Qed.

Definition total (ds : list clause) : nat := list_sum (map (@length lit) ds).
Lemma inv_conj x c : forallb (lit_val x) (map lneg c) = negb (existsb (lit_val x) c).
Proof. induction c as [|l c IH]; cbn; auto. rewrite lit_val_neg, IH. destruct (lit_val x l); auto. Qed.

Lemma and_spec : forall ds cj s, (forall d, In d ds -> d <> [] /\ vars_le n d) -> S n <= var_count s ->
  exists s' X Q, and_clauses gs ds cj s = Ok (cj ++ X, s') /\ var_count s <= var_count s' /\ pands s' = pands s ++ Q /\ registered (fun l => exists d, In d ds /\ In l d) (total ds) s s' /\
    map fst Q = map neg (seq (S (var_count s)) (var_count s' - var_count s)) /\
    (forall o c, In (o, c) Q -> c <> [] /\ forall l, In l c -> exists d, In d ds /\ In (lneg l) d) /\
    length X = length ds /\ (forall l, In l X -> (exists d, In d ds /\ In l d) \/ (var_count s < lvar l <= var_count s')) /\
    (forall x, PS x Q -> forallb (lit_val x) X = forallb (existsb (lit_val x)) ds) /\
    (forall x, exists x', agree (var_count s) x x' /\ PS x' Q).
Proof.
  induction ds as [|d ds IH]; intros cj s HD HC.
  - exists s, [], []. cbn. rewrite !app_nil_r, Nat.sub_diag. split; auto. split; auto. split; auto. split; [split; auto; [intros l; split; auto; intros [H|((d & [] & _) & _)]; auto|intros v; split; auto; intros [H|((l & (d & [] & _) & _) & _)]; auto|cbn; lia]|].
    split; auto. split; [intros ? ? []|]. split; auto. split; [intros ? []|]. split; auto. intros x. exists x. split; [apply agree_refl|intros ? ? []].
  - destruct (HD d (or_introl eq_refl)) as (NE & HV). assert (HD' := fun q H => HD q (or_intror H)).
    destruct d as [|a [|b r]]; [contradiction| |].
    + cbn [and_clauses]. destruct (register_all [a] s HV) as (s1 & E1 & R1 & V1 & P1). cbn [registerLiterals] in E1. destruct (registerLiteral gs a s) as [s0|]; [|discriminate]. cbn [bind] in E1. injection E1 as ->. cbn [bind].
      destruct (IH (cj ++ [a]) s1 HD') as (s' & X & Q & E & A & B & C & D & F & G & H & I & J); [lia|]. exists s', ([a] ++ X), Q. rewrite app_assoc. split; auto. rewrite V1 in *. rewrite P1 in *. split; auto. split; auto. split; [|split; [auto|split; [|split; [cbn; auto|split; [|split; [|auto]]]]]].
      * apply (registered_ext (fun l => In l [a] \/ exists d, In d ds /\ In l d) _ _ s s'); auto; [|apply (registered_trans _ _ 1 (total ds) s s1 s'); auto]. intros l. split; [intros [K|(d & K & K')]; [exists [a]|exists d]; cbn; auto|intros (d & [<-|K] & K'); [left; auto|right; exists d; auto]].
      * intros o c Hc. destruct (F o c Hc) as (F1 & F2). split; auto. intros l Hl. destruct (F2 l Hl) as (d & K & K'). exists d. split; auto. right. auto.
      * intros l [<-|Hl]; [left; exists [a]; cbn; auto|]. destruct (H l Hl) as [(d & K & K')|K]; [left; exists d; split; auto; right; auto|auto].
      * intros x HP. cbn [app forallb existsb]. rewrite (I x HP), orb_false_r. auto.
    + set (c := a :: b :: r) in *. set (v := S (var_count s)) in *.
      destruct (register_all c (mkAS v (literals s) (ainputs s) (visited s) (pands s)) HV) as (s1 & E1 & R1 & V1 & P1). cbn [var_count pands] in V1, P1.
      set (s2 := mkAS (var_count s1) (literals s1) (ainputs s1) (visited s1) (pands s1 ++ [(mkLit v true, map lneg c)])).
      destruct (IH (cj ++ [mkLit v false]) s2 HD') as (s' & X & Q & E & A & B & C & D & F & G & H & I & J); [unfold s2; cbn [var_count]; lia|].
      exists s', ([mkLit v false] ++ X), ([(mkLit v true, map lneg c)] ++ Q).
      assert (V2 : var_count s2 = v) by (unfold s2; cbn [var_count]; auto). rewrite V2 in *. assert (Hv : v = S (var_count s)) by auto. split; [|split; [lia|split; [|split; [|split; [|split; [|split; [|split; [|split]]]]]]]].
      * unfold c at 1. cbn [and_clauses]. fold c. fold v. rewrite E1. cbn [bind]. fold s2. rewrite app_assoc. exact E.
      * rewrite B. unfold s2. cbn [pands]. rewrite P1, <- app_assoc. auto.
      * apply (registered_ext (fun l => In l c \/ exists d, In d ds /\ In l d) _ _ (mkAS v (literals s) (ainputs s) (visited s) (pands s)) s'); auto; [intros l; split; [intros [K|(d & K & K')]; [exists c|exists d]; cbn [In]; auto|intros (d & [<-|K] & K'); [left; auto|right; exists d; auto]]|].
        apply (registered_trans _ _ (length c) (total ds) _ s2 s'); auto. eapply (registered_ext _ _ _ _ _); [|exact R1|..]; auto. intros; reflexivity.
      * cbn [app map fst]. rewrite D. replace (var_count s' - var_count s) with (S (var_count s' - v)) by lia. auto.
      * intros o q Hq. apply in_app_or in Hq. destruct Hq as [[Hq|[]]|Hq].
        -- injection Hq as <- <-. split; [discriminate|]. intros l Hl. change (In l (map lneg c)) in Hl. apply in_map_iff in Hl. destruct Hl as (l' & <- & Hl). exists c. rewrite lneg_invol. split; auto. left. auto.
        -- destruct (F o q Hq) as (F1 & F2). split; auto. intros l Hl. destruct (F2 l Hl) as (d & K & K'). exists d. split; auto. right. auto.
      * cbn. auto.
      * intros l [<-|Hl]; [right; rewrite lvar_mk; lia|]. destruct (H l Hl) as [(d & K & K')|K]; [left; exists d; split; auto; right; auto|right; lia].
      * intros x HP. apply PS_app in HP. destruct HP as (HP1 & HP2). rewrite PS_one, inv_conj in HP1. change (lit_val x (mkLit v false) && forallb (lit_val x) X = existsb (lit_val x) c && forallb (existsb (lit_val x)) ds). rewrite (I x HP2). f_equal.
        replace (mkLit v true) with (lneg (mkLit v false)) in HP1 by (rewrite lneg_mk; auto). rewrite lit_val_neg in HP1. destruct (lit_val x (mkLit v false)), (existsb (lit_val x) c); auto; discriminate.
      * intros x. set (x1 := setv x v (existsb (lit_val x) c)). destruct (J x1) as (x' & X1 & X2). assert (X0 : agree (var_count s) x x1) by (apply setv_agree; lia). exists x'. split; [apply (agree_trans _ x x1); auto; apply (agree_le v); auto; lia|].
        apply PS_app. split; auto. apply PS_one. rewrite <- (agree_val v x1 x' _ X1) by (rewrite lvar_mk; auto). rewrite inv_conj. unfold x1 at 1. rewrite setv_neg. f_equal.
        assert (HV' : vars_le (var_count s) c) by (apply (vars_le_mono n); auto; lia). rewrite (agree_any (var_count s) x x1 c X0 HV'). apply (agree_any (var_count s) x1 x'); auto. apply (agree_le v); auto. lia.
Qed.

(** ** stripping *)
Lemma strip_len l (c : clause) : NoDup c -> length (filter (fun x => negb (x =? lneg l)) c) + (if existsb (Nat.eqb (lneg l)) c then 1 else 0) = length c.
Proof.
  induction 1 as [|x c Hx HN IH]; cbn [filter existsb length]; auto. rewrite (Nat.eqb_sym x). destruct (Nat.eqb_spec (lneg l) x) as [<-|]; cbn [negb orb length].
  - destruct (existsb (Nat.eqb (lneg l)) c) eqn:E; [exfalso; apply Hx; apply existsb_exists in E; destruct E as (y & Hy & E); apply Nat.eqb_eq in E; subst; auto|]. change (@length lit) with (@length nat) in *. lia.
  - change (@length lit) with (@length nat) in *. lia.
Qed.
Lemma strip_ok l c : NoDup c -> In (lneg l) c -> strip l c = Ok (filter (fun x => negb (x =? lneg l)) c).
Proof. intros H HI. unfold strip. pose proof (strip_len l c H) as E. rewrite (proj2 (existsb_exists (Nat.eqb (lneg l)) c)) in E by (exists (lneg l); split; auto; apply Nat.eqb_refl). apply (f_equal (Nat.eqb (S (length (filter (fun x => negb (x =? lneg l)) c))))) in E. rewrite Nat.add_1_r, Nat.eqb_refl in E. rewrite <- E. reflexivity. Qed.
Lemma strip_bad l c : NoDup c -> ~ In (lneg l) c -> strip l c = Err UB.
Proof.
  intros H HI. unfold strip. pose proof (strip_len l c H) as E. destruct (existsb (Nat.eqb (lneg l)) c) eqn:EX; [exfalso; apply HI; apply existsb_exists in EX; destruct EX as (y & Hy & EX); apply Nat.eqb_eq in EX; subst; auto|].
  rewrite Nat.add_0_r in E. rewrite <- E. destruct (Nat.eqb_spec (S (length (filter (fun x => negb (x =? lneg l)) c))) (length (filter (fun x => negb (x =? lneg l)) c))) as [X|]; [exfalso; apply (Nat.neq_succ_diag_l _ X)|reflexivity].
Qed.
Definition rest (l : lit) (c : clause) : clause := filter (fun x => negb (x =? lneg l)) c.
Lemma rest_in l c q : In q (rest l c) <-> In q c /\ q <> lneg l.
Proof. unfold rest. rewrite filter_In, negb_true_iff, Nat.eqb_neq. reflexivity. Qed.
Lemma strip_all_ok l : forall cs, (forall c, In c cs -> NoDup c /\ In (lneg l) c) -> strip_all l cs = Ok (map (rest l) cs).
Proof. induction cs as [|c cs IH]; intros H; auto. cbn [strip_all]. destruct (H c (or_introl eq_refl)) as (H1 & H2). rewrite (strip_ok l c H1 H2). cbn [bind]. rewrite IH by (intros; apply H; right; auto). auto. Qed.

(** ** the loop *)
Hypothesis HG : forall v g o, nth_error gs v = Some g -> a_out g = Some o ->
  lvar o = v /\ a_fwd g <> [] /\ forall c, In c (a_fwd g) -> NoDup c /\ ~ tautology c /\ In (lneg o) c /\ vars_le n c /\ rest o c <> [].

Definition gout (v : var) : option lit := match nth_error gs v with Some g => a_out g | None => None end.
Definition gfwd (v : var) : list clause := match nth_error gs v with Some g => a_fwd g | None => [] end.
Lemma HG' v o : gout v = Some o -> lvar o = v /\ gfwd v <> [] /\ forall c, In c (gfwd v) -> NoDup c /\ ~ tautology c /\ In (lneg o) c /\ vars_le n c /\ rest o c <> [].
Proof. unfold gout, gfwd. destruct (nth_error gs v) eqn:E; [|discriminate]. apply HG. auto. Qed.
Lemma defg_out v : defg v = true <-> exists o, gout v = Some o.
Proof. unfold defg, gout. destruct (nth_error gs v) as [g|]; [|split; [discriminate|intros (o & H); discriminate]]. destruct (a_out g) as [o|]; split; eauto; [discriminate|intros (o & H); discriminate]. Qed.
Lemma gout_le v o : gout v = Some o -> v <= n.
Proof. unfold gout. destruct (nth_error gs v) eqn:E; [|discriminate]. assert (v < length gs) by (apply nth_error_Some; congruence). lia. Qed.

Definition vis (s : astate) (l : lit) : Prop := nth l (visited s) false = true.
(** the literal is used by a gate *)
Definition occ (l : lit) : Prop := exists u o c, gout u = Some o /\ In c (gfwd u) /\ In l (rest o c).
(** the gates of the literals have the value of their clauses *)
Definition sem (x : assignment) (l : lit) : bool := forallb (fun c => existsb (lit_val x) (rest l c)) (gfwd (lvar l)).

Lemma rest_len l c : length (rest l c) <= length c.
Proof. unfold rest. induction c as [|q c IH]; [apply le_n|]. cbn [filter]. destruct (negb _); cbn [length]; [apply le_n_S; exact IH|apply le_S; exact IH]. Qed.
Lemma total_rest l f : total (map (rest l) f) <= total f.
Proof. induction f as [|c f IH]; [apply le_n|]. change (length (rest l c) + total (map (rest l) f) <= length c + total f). apply Nat.add_le_mono; [apply rest_len|exact IH]. Qed.
Record J (s : astate) : Prop := {
  j_vc : S n <= var_count s;
  j_len : length (visited s) = 2 * S n;
  j_work : forall l, In l (literals s) -> exists o, gout (lvar l) = Some o;
  j_occ : forall l, In l (literals s) \/ vis s l -> l = mkLit n false \/ occ l;
  j_in : forall v, In v (ainputs s) -> (v <= n /\ defg v = false) /\ exists q, occ q /\ lvar q = v;
  j_sorted : StronglySorted lt (ainputs s);
  j_out : forall l, vis s l -> gout (lvar l) = Some l;
  j_reg : forall l c q, vis s l -> In c (gfwd (lvar l)) -> In q (rest l c) -> (defg (lvar q) = true /\ (vis s q \/ In q (literals s))) \/ (defg (lvar q) = false /\ In (lvar q) (ainputs s));
  j_perm : exists V, NoDup V /\ (forall l, In l V <-> vis s l) /\ Permutation (map fst (pands s)) (V ++ map neg (seq (S (S n)) (var_count s - S n)));
  j_pand : forall o c, In (o, c) (pands s) -> c <> [] /\ forall q, In q c -> (exists l d q', vis s l /\ In d (gfwd (lvar l)) /\ In q' (rest l d) /\ lvar q' = lvar q /\ (lvar o <= n -> l = o)) \/ S n < lvar q <= var_count s;
  j_fwd : forall x, PS x (pands s) -> forall l, vis s l -> lit_val x l = sem x l;
  j_bwd : forall x, (forall l, vis s l -> lit_val x l = sem x l) -> exists x', agree (S n) x x' /\ PS x' (pands s)
}.

Lemma sem_rest x l : sem x l = forallb (existsb (lit_val x)) (map (rest l) (gfwd (lvar l))).
Proof. unfold sem. induction (gfwd (lvar l)) as [|c f IH]; cbn; auto. rewrite IH. auto. Qed.
Lemma lit_le l : lvar l <= n -> l < 2 * S n.
Proof. intros H. rewrite (lit_eta l). unfold mkLit. destruct (lsign l); lia. Qed.
Lemma vis_set s l q vs : visited s = set_nth l true vs -> l < length vs -> (vis s q <-> q = l \/ nth q vs false = true).
Proof. intros E H. unfold vis. rewrite E, nth_set_nth. apply Nat.ltb_lt in H. rewrite H, andb_true_r. destruct (Nat.eqb_spec q l); intuition congruence. Qed.
Lemma pand_le s o c : J s -> In (o, c) (pands s) -> lvar o <= var_count s /\ vars_le (var_count s) c.
Proof.
  intros HJ Hc. pose proof (j_vc s HJ) as HV. split.
  - destruct (j_perm s HJ) as (V & N & HV' & HP). assert (HI : In o (map fst (pands s))) by (apply in_map_iff; exists (o, c); auto). apply (Permutation_in o HP) in HI. apply in_app_or in HI. destruct HI as [HI|HI].
    + apply HV', (j_out s HJ) in HI. apply gout_le in HI. lia.
    + apply in_map_iff in HI. destruct HI as (v & <- & HI). apply in_seq in HI. unfold neg. rewrite lvar_mk. lia.
  - intros q Hq. destruct (proj2 (j_pand s HJ o c Hc) q Hq) as [(l & d & q' & H1 & H2 & H3 & H4 & _)|H]; [|lia]. rewrite <- H4. apply (j_out s HJ) in H1. destruct (HG' _ _ H1) as (_ & _ & H5). destruct (H5 d H2) as (_ & _ & _ & H6 & _). apply rest_in in H3. specialize (H6 q' (proj1 H3)). lia.
Qed.

Lemma step_ok s l work o : J s -> literals s = l :: work -> ~ vis s l -> gout (lvar l) = Some o -> l = o ->
  exists d s2, strip_all l (gfwd (lvar l)) = Ok d /\ createAndFromClauses gs d l (mkAS (var_count s) work (ainputs s) (set_nth l true (visited s)) (pands s)) = Ok s2 /\ J s2 /\ visited s2 = set_nth l true (visited s) /\ length (literals s2) <= length work + total (gfwd (lvar l)) /\ (forall q, In q work -> In q (literals s2)).
Proof.
  intros HJ EL NV EO <-. destruct (HG' _ _ EO) as (_ & NEf & HF). assert (Hn : lvar l <= n) by (apply (gout_le _ _ EO)).
  exists (map (rest l) (gfwd (lvar l))). set (ds := map (rest l) (gfwd (lvar l))). set (s1 := mkAS (var_count s) work (ainputs s) (set_nth l true (visited s)) (pands s)).
  assert (ES : strip_all l (gfwd (lvar l)) = Ok ds) by (apply strip_all_ok; intros c Hc; destruct (HF c Hc) as (H1 & H2 & H3 & _); auto).
  assert (HD : forall d, In d ds -> d <> [] /\ vars_le n d). { intros d Hd. apply in_map_iff in Hd. destruct Hd as (c & <- & Hc). destruct (HF c Hc) as (H1 & H2 & H3 & H4 & H5). split; auto. intros q Hq. apply rest_in in Hq. apply H4. tauto. }
  destruct (and_spec ds [] s1 HD) as (s3 & X & Q & E & A & B & C & D & F & G & H & I & K); [exact (j_vc s HJ)|]. cbn [var_count s1 pands app] in *.
  exists (mkAS (var_count s3) (literals s3) (ainputs s3) (visited s3) (pands s3 ++ [(l, X)])). split; auto. unfold createAndFromClauses. rewrite E. cbn [bind]. split; auto. destruct C as [C1 C2 C3 C4 C5]. unfold s1 in C1, C2, C3, C4, C5. cbn [visited literals ainputs] in C1, C2, C3, C4, C5. rewrite B.
  set (s2 := mkAS (var_count s3) (literals s3) (ainputs s3) (visited s3) ((pands s ++ Q) ++ [(l, X)])).
  assert (VS : forall q, vis s2 q <-> q = l \/ vis s q) by (intros q; apply (vis_set s2 l q (visited s)); [exact C1|rewrite (j_len s HJ); apply lit_le; auto]).
  assert (TT : total ds <= total (gfwd (lvar l))) by apply total_rest.
  assert (DS : forall q, (exists d, In d ds /\ In q d) <-> exists c, In c (gfwd (lvar l)) /\ In q (rest l c)). { intros q. unfold ds. split; [intros (d & Hd & Hq); apply in_map_iff in Hd; destruct Hd as (c & <- & Hc); exists c; auto|intros (c & Hc & Hq); exists (rest l c); split; auto; apply in_map; auto]. }
  assert (LE : forall q c, In c (gfwd (lvar l)) -> In q (rest l c) -> lvar q <= n) by (intros q c Hc Hq; apply rest_in in Hq; destruct (HF c Hc) as (_ & _ & _ & H4 & _); apply H4; tauto).
  split; [|split; [exact C1|split; [cbn [literals s2]; lia|cbn [literals s2]; intros q Hq; apply C2; auto]]].
  pose proof (j_vc s HJ) as HVC.
  split; cbn [s2 var_count literals ainputs pands].
  - lia.
  - unfold s2. cbn [visited]. rewrite C1, set_nth_length. apply (j_len s HJ).
  - intros q Hq. apply C2 in Hq. destruct Hq as [Hq|(_ & Hq)]; [apply (j_work s HJ); rewrite EL; right; auto|apply defg_out; auto].
  - assert (HX : In l (literals s)) by (rewrite EL; left; auto). intros q [Hq|Hq].
    + apply C2 in Hq. destruct Hq as [Hq|(Hq & _)]; [apply (j_occ s HJ); left; rewrite EL; right; auto|]. apply DS in Hq. destruct Hq as (c & Hc & Hq). right. exists (lvar l), l, c. auto.
    + apply VS in Hq. destruct Hq as [->|Hq]; apply (j_occ s HJ); auto.
  - intros v Hv. apply C3 in Hv. destruct Hv as [Hv|((q & Hq & <-) & Hv)]; [apply (j_in s HJ); auto|]. apply DS in Hq. destruct Hq as (c & Hc & Hq). split; [split; auto; apply (LE q c Hc Hq)|]. exists q. split; auto. exists (lvar l), l, c. auto.
  - apply C4, (j_sorted s HJ).
  - intros q Hq. apply VS in Hq. destruct Hq as [->|Hq]; auto. apply (j_out s HJ); auto.
  - intros q c z Hq Hc Hz. apply VS in Hq. destruct Hq as [->|Hq].
    + destruct (defg (lvar z)) eqn:EZ; [left|right]; split; auto; [right; apply C2; right; split; auto; apply DS; exists c; auto|apply C3; right; split; auto; exists z; split; auto; apply DS; exists c; auto].
    + destruct (j_reg s HJ q c z Hq Hc Hz) as [(X1 & X2)|(X1 & X2)]; [left; split; auto|right; split; auto; apply C3; auto]. rewrite EL in X2. rewrite VS, C2. destruct X2 as [X2|[X2|X2]]; auto.
  - destruct (j_perm s HJ) as (V & N1 & N2 & N3). exists (l :: V). split; [constructor; auto; rewrite N2; auto|]. split; [intros q; rewrite VS, <- N2; cbn; intuition|].
    rewrite !map_app, N3, D. cbn [map fst]. rewrite <- (seq_join (S n) (var_count s) (var_count s3)) by lia. rewrite map_app. rewrite <- Permutation_app_comm. cbn [app]. rewrite <- !app_assoc. auto.
  - intros o' c Hc. apply in_app_or in Hc. destruct Hc as [Hc|[Hc|[]]]; [apply in_app_or in Hc; destruct Hc as [Hc|Hc]|].
    + destruct (j_pand s HJ o' c Hc) as (X1 & X2). split; auto. intros q Hq. destruct (X2 q Hq) as [(l' & d & q' & Y1 & Y2 & Y3 & Y4 & Y5)|Y]; [left; exists l', d, q'; rewrite VS; auto 6|right; lia].
    + destruct (F o' c Hc) as (X1 & X2). split; auto. intros q Hq. destruct (X2 q Hq) as (d & Y1 & Y2). apply in_map_iff in Y1. destruct Y1 as (c' & <- & Y1). left. exists l, c', (lneg q). rewrite VS, lvar_neg. repeat split; auto.
      intros Ho. exfalso. assert (HI : In o' (map fst Q)) by (apply in_map_iff; exists (o', c); auto). rewrite D in HI. apply in_map_iff in HI. destruct HI as (v & <- & HI). apply in_seq in HI. unfold neg in Ho. rewrite lvar_mk in Ho. lia.
    + injection Hc as <- <-. split; [intros EX; rewrite EX in G; cbn in G; unfold ds in G; rewrite map_length in G; destruct (gfwd (lvar l)); [contradiction|discriminate]|]. intros q Hq. destruct (H q Hq) as [Y|Y]; [|right; lia]. apply DS in Y. destruct Y as (c & Y1 & Y2). left. exists l, c, q. rewrite VS. auto 6.
  - intros x HP q Hq. rewrite !PS_app, PS_one in HP. destruct HP as ((HP1 & HP2) & HP3). apply VS in Hq. destruct Hq as [->|Hq]; [|apply (j_fwd s HJ); auto]. rewrite HP3, (I x HP2), sem_rest. auto.
  - intros x HX. destruct (j_bwd s HJ x) as (x1 & X1 & Y1); [intros q Hq; apply HX; apply VS; auto|]. destruct (K x1) as (x2 & X2 & Y2). assert (X12 : agree (S n) x x2) by (apply (agree_trans (S n) x x1); auto; apply (agree_le (var_count s)); auto).
    exists x2. split; auto. rewrite !PS_app, PS_one. split; [split; auto; apply (PS_agree (var_count s) x1); auto; intros; apply pand_le; auto|]. rewrite (I x2 Y2). change (lit_val x2 l = forallb (existsb (lit_val x2)) (map (rest l) (gfwd (lvar l)))). rewrite <- sem_rest. rewrite <- (agree_val (S n) x x2 l X12) by lia.
    rewrite (HX l) by (apply VS; auto). unfold sem. apply forallb_ext_in. intros c Hc. apply (agree_any (S n)); auto. intros q Hq. specialize (LE q c Hc Hq). lia.
Qed.

(** ** termination *)
Definition weight (vs : list bool) (l : lit) : nat := if nth l vs false then 0 else total (gfwd (lvar l)).
Definition wsum (vs : list bool) (k : nat) : nat := list_sum (map (weight vs) (seq 0 k)).
Lemma wsum_S vs k : wsum vs (S k) = wsum vs k + weight vs k.
Proof. unfold wsum. rewrite seq_S, map_app, list_sum_app. change (list_sum (map (weight vs) [0 + k])) with (weight vs k + 0). rewrite Nat.add_0_r. reflexivity. Qed.
Lemma wsum_set vs l k : nth l vs false = false -> l < length vs -> wsum (set_nth l true vs) k + (if l <? k then total (gfwd (lvar l)) else 0) = wsum vs k.
Proof.
  intros H HLn. induction k as [|k IH]; auto. rewrite !wsum_S. assert (W : weight (set_nth l true vs) k + (if k =? l then total (gfwd (lvar l)) else 0) = weight vs k).
  { unfold weight. rewrite nth_set_nth. apply Nat.ltb_lt in HLn. rewrite HLn, andb_true_r. destruct (Nat.eqb_spec k l) as [->|]; [rewrite H; auto|lia]. }
  destruct (Nat.ltb_spec l k), (Nat.ltb_spec l (S k)), (Nat.eqb_spec k l); lia.
Qed.
Lemma arith1 (A T : nat) : 2 * A + T + T = 2 * (A + (T + 0)).
Proof. lia. Qed.
Lemma wsum_init k m : wsum (repeat false m) (2 * k) = 2 * list_sum (map (fun v => total (gfwd v)) (seq 0 k)).
Proof.
  induction k as [|k IH]; auto. replace (2 * S k) with (S (S (2 * k))) by lia. rewrite !wsum_S, IH, seq_S, map_app, list_sum_app. change (list_sum (map (fun v => total (gfwd v)) [0 + k])) with (total (gfwd k) + 0).
  assert (W : forall l, weight (repeat false m) l = total (gfwd (lvar l))) by (intros l; unfold weight; rewrite nth_repeat; auto). rewrite !W.
  assert (L0 : lvar (2 * k) = k) by (transitivity (lvar (mkLit k false)); [f_equal; unfold mkLit; lia|apply lvar_mk]). assert (L1 : lvar (S (2 * k)) = k) by (transitivity (lvar (mkLit k true)); [f_equal; unfold mkLit; lia|apply lvar_mk]). rewrite L0, L1. exact (arith1 _ _).
Qed.
Lemma fuel_ok : 1 + wsum (repeat false (2 * S n)) (2 * S n) = aig_fuel gs.
Proof.
  rewrite wsum_init. unfold aig_fuel. rewrite <- HL. unfold gfwd. clear. unfold total.
  enough (H : forall k, map (fun v => list_sum (map (@length lit) match nth_error gs (v - k) with Some g => a_fwd g | None => [] end)) (seq k (length gs)) = map (fun g => list_sum (map (@length lit) (a_fwd g))) gs).
  { rewrite <- (H 0). cbn [Nat.add]. do 3 f_equal. apply map_ext. intros v. rewrite Nat.sub_0_r. auto. }
  induction gs as [|g l IH]; intros k; auto. cbn [length seq map]. rewrite Nat.sub_diag. cbn [nth_error]. f_equal. rewrite <- (IH (S k)). apply map_ext_in. intros v Hv. apply in_seq in Hv. replace (v - k) with (S (v - S k)) by lia. auto.
Qed.

Hypothesis HRoot : gout n = Some (mkLit n false).
Definition bad : Prop := exists o, gout (lvar o) = Some o /\ occ (lneg o).

Lemma nth_error_out v o : gout v = Some o -> exists g, nth_error gs v = Some g /\ a_out g = Some o /\ gfwd v = a_fwd g.
Proof. unfold gout, gfwd. destruct (nth_error gs v) as [g|]; [|discriminate]. intros H. exists g. auto. Qed.
Lemma strip_all_bad l o : gout (lvar l) = Some o -> l <> o -> strip_all l (gfwd (lvar l)) = Err UB.
Proof.
  intros EO NE. destruct (HG' _ _ EO) as (EV & NF & HF). destruct (gfwd (lvar l)) as [|c f]; [contradiction|]. destruct (HF c (or_introl eq_refl)) as (H1 & H2 & H3 & _). cbn [strip_all].
  rewrite strip_bad; auto. intros HI. apply H2. exists (lneg o). split; auto. rewrite lneg_invol. destruct (same_var_cases o l EV) as [->| ->]; [congruence|]. rewrite lneg_invol in HI. auto.
Qed.
Lemma loop_ok : forall fuel s, J s -> length (literals s) + wsum (visited s) (2 * S n) <= fuel ->
  (exists s', createAnds fuel gs s = Ok s' /\ J s' /\ literals s' = [] /\ (forall l, vis s l \/ In l (literals s) -> vis s' l)) \/ (createAnds fuel gs s = Err UB /\ bad).
Proof.
  induction fuel as [|fuel IH]; intros s HJ HM.
  - destruct (literals s) as [|l w] eqn:EL; [|cbn in HM; lia]. left. exists s. cbn [createAnds]. rewrite EL. split; auto. split; auto. split; auto. intros l [H|[]]. auto.
  - cbn [createAnds]. destruct (literals s) as [|l w] eqn:EL; [left; exists s; split; auto; split; auto; split; auto; intros l [H|[]]; auto|].
    destruct (j_work s HJ l) as (o & EO); [rewrite EL; left; auto|]. pose proof (gout_le _ _ EO) as Hn. pose proof (lit_le l Hn) as Hl.
    destruct (nth_error (visited s) l) as [b|] eqn:EV; [|apply nth_error_None in EV; rewrite (j_len s HJ) in EV; lia]. assert (EV' : nth l (visited s) false = b) by (apply nth_error_nth; auto). destruct b.
    + set (s1 := mkAS (var_count s) w (ainputs s) (visited s) (pands s)). assert (HJ1 : J s1).
      { destruct HJ as [A1 A2 A3 A4 A5 A6 A7 A8 A9 A10 A11 A12]. rewrite EL in *. split; cbn [s1 var_count literals ainputs pands]; auto.
        - intros q Hq. apply A3. right. auto.
        - intros q [Hq|Hq]; apply A4; [left; right; auto|right; auto].
        - intros q c z H1 H2 H3. destruct (A8 q c z H1 H2 H3) as [(X1 & [X2|[<-|X2]])|X]; auto. }
      destruct (IH s1 HJ1) as [(s' & E & B & C & D)|(E & B)]; [cbn [s1 literals visited length] in *; lia| |right; auto]. left. exists s'. split; auto. split; auto. split; auto. intros q [Hq|[<-|Hq]]; apply D; auto.
    + destruct (nth_error_out _ _ EO) as (g & EG & EA & EF). rewrite EG, EA. rewrite <- EF. destruct (Nat.eq_dec l o) as [<-|NE].
      * assert (NV : ~ vis s l) by (unfold vis; congruence). destruct (step_ok s l w l HJ EL NV EO eq_refl) as (d & s2 & E1 & E2 & HJ2 & EV2 & LN & WK). rewrite E1. cbn [bind]. rewrite E2. cbn [bind].
        assert (HVs : forall q, vis s2 q <-> q = l \/ vis s q) by (intros q; apply (vis_set s2 l q (visited s)); auto; rewrite (j_len s HJ); auto).
        destruct (IH s2 HJ2) as [(s' & E & B & C & D)|(E & B)]; [|left; exists s'; split; auto; split; auto; split; auto; intros q [Hq|[<-|Hq]]; apply D; auto; left; apply HVs; auto|right; auto].
        pose proof (wsum_set (visited s) l (2 * S n) EV') as HW. rewrite (j_len s HJ) in HW. specialize (HW Hl). apply Nat.ltb_lt in Hl. rewrite Hl, <- EV2 in HW. cbn [length] in HM. lia.
      * right. rewrite (strip_all_bad l o EO NE). cbn [bind]. split; auto. exists o. destruct (HG' _ _ EO) as (EVo & _). rewrite EVo. split; auto. destruct (same_var_cases o l EVo) as [->|E]; [congruence|]. rewrite <- E.
        destruct (j_occ s HJ l) as [H|H]; [left; rewrite EL; left; auto| |exact H]. exfalso. rewrite H, lvar_mk, HRoot in EO. injection EO as EO. apply NE. congruence.
Qed.
Lemma init_J : J (aig_new n).
Proof.
  assert (NV : forall l, ~ vis (aig_new n) l) by (intros l H; unfold vis, aig_new in H; cbn [visited] in H; rewrite nth_repeat in H; discriminate).
  split; cbn [aig_new var_count literals ainputs pands]; auto.
  - unfold aig_new. cbn [visited]. apply repeat_length.
  - intros l [<-|[]]. exists (mkLit n false). rewrite lvar_mk. auto.
  - intros l [[<-|[]]|H]; auto. exfalso. apply (NV l H).
  - intros v [].
  - constructor.
  - intros l H. exfalso. apply (NV l H).
  - intros l c q H. exfalso. apply (NV l H).
  - exists []. split; [constructor|]. split; [intros l; split; [intros []|intros H; exfalso; apply (NV l H)]|]. rewrite Nat.sub_diag. auto.
  - intros o c [].
  - intros x _ l H. exfalso. apply (NV l H).
  - intros x _. exists x. split; [apply agree_refl|intros ? ? []].
Qed.

(** what createAIG returns *)
Record created (a : aig) (R : lit -> Prop) : Prop := {
  cr_root : aig_root a = mkLit n false;
  cr_vars : S n <= aig_vars a;
  cr_start : R (mkLit n false);
  cr_out : forall l, R l -> gout (lvar l) = Some l;
  cr_closed : forall l c q, R l -> In c (gfwd (lvar l)) -> In q (rest l c) -> (defg (lvar q) = true /\ R q) \/ (defg (lvar q) = false /\ In (lvar q) (aig_inputs a));
  cr_in : forall v, In v (aig_inputs a) -> (v <= n /\ defg v = false) /\ exists q, occ q /\ lvar q = v;
  cr_nodup : NoDup (aig_inputs a);
  cr_perm : exists V F, NoDup V /\ (forall l, In l V <-> R l) /\ Permutation (map bout (aig_ands a)) (V ++ F) /\ map lvar F = seq (S (S n)) (aig_vars a - S n);
  cr_ops : forall o p r, In (o, p, r) (aig_ands a) -> forall q, q = p \/ r = Some q -> (exists l d q', R l /\ In d (gfwd (lvar l)) /\ In q' (rest l d) /\ lvar q' = lvar q /\ (lvar o <= n -> l = o)) \/ S n < lvar q <= aig_vars a;
  cr_fwd : forall x, evaluation a x -> forall l, R l -> lit_val x l = sem x l;
  cr_bwd : forall x, (forall l, R l -> lit_val x l = sem x l) -> exists x', agree (S n) x x' /\ evaluation a x'
}.
Lemma create_ok : (exists a R, createAIG n gs = Ok a /\ created a R) \/ (createAIG n gs = Err UB /\ bad).
Proof.
  unfold createAIG. destruct (loop_ok (aig_fuel gs) (aig_new n) init_J) as [(s & E & HJ & EL & HV)|(E & HB)].
  - rewrite <- fuel_ok. cbn [aig_new literals visited length]. lia.
  - left. rewrite E. cbn [bind].
    destruct (conv_all (pands s) (var_count s) []) as (vc & Q & E1 & A & B & C & K & D & F); [intros o c Hc; split; [apply (j_pand s HJ o c Hc)|apply pand_le; auto]|].
    rewrite E1. cbn [bind app]. exists (mkAig vc (ainputs s) (mkLit n false) Q), (vis s). split; auto. pose proof (j_vc s HJ) as HVC.
    split; cbn [aig_root aig_vars aig_inputs aig_ands]; auto.
    + lia.
    + apply HV. right. left. auto.
    + apply (j_out s HJ).
    + intros l c q H1 H2 H3. destruct (j_reg s HJ l c q H1 H2 H3) as [(X & [Y|Y])|X]; auto. rewrite EL in Y. destruct Y.
    + apply (j_in s HJ).
    + apply sorted_nodup, (j_sorted s HJ).
    + destruct (j_perm s HJ) as (V & N1 & N2 & N3). exists V, (map neg (seq (S (S n)) (var_count s - S n)) ++ map pos (seq (S (var_count s)) (vc - var_count s))). split; auto. split; auto. split; [rewrite C, N3, <- app_assoc; auto|].
      rewrite map_app, !map_map. rewrite (map_ext _ (fun v => v)) by (intros; apply lvar_mk). rewrite (map_ext (fun x => lvar (pos x)) (fun v => v)) by (intros; apply lvar_mk). rewrite !map_id. apply seq_join; lia.
    + intros o p r Hb q Hq. assert (LQ : lvar q <= vc) by (destruct (B _ Hb) as (B1 & B2 & B3); destruct Hq as [->|Hq]; auto).
      destruct (K o p r Hb q Hq) as [(c & X1 & X2)|[X|(X & o' & c & X1 & X2)]]; [|right; lia|].
      * destruct (proj2 (j_pand s HJ o c X1) q X2) as [Y|Y]; [left; exact Y|right; lia].
      * destruct (proj2 (j_pand s HJ o' c X1) q X2) as [(l & d & q' & Y1 & Y2 & Y3 & Y4 & Y5)|Y]; [left; exists l, d, q'; repeat split; auto; intros; lia|right; lia].
    + intros x HE l Hl. apply (j_fwd s HJ); auto.
    + intros x HX. destruct (j_bwd s HJ x HX) as (x1 & X1 & Y1). destruct (F x1 Y1) as (x2 & X2 & Y2). exists x2. split; auto. apply (agree_trans _ x x1); auto. apply (agree_le (var_count s)); auto.
  - right. rewrite E. auto.
Qed.
End L.
