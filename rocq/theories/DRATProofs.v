(** Soundness of the proof checker. *)
Require Import List Arith Bool NArith Lia Permutation.
Require Import Verif.Base Verif.CNFModel Verif.CNFProofs Verif.Outcome Verif.TrailModel Verif.TrailProofs Verif.TrailLemmas Verif.DbModel Verif.PropModel Verif.PropProofs
  Verif.DbProofs Verif.DRATModel Verif.DRATLemmas Verif.DRATBase.
Import ListNotations.

(** structural invariant at every moment *)
Record SI (s : chk) : Prop := {
  s_DB : DBi (k_d s);
  s_WO : WOi (k_d s) (k_w s) (k_occ s);
  s_TI : TI (k_t s);
  s_nv : nvt (k_t s) = nv (k_d s) }.

Definition pfalse (x : assignment) (pv : option lit) (ls : list lit) : Prop := forall l, In l ls -> is_pivot pv l = false -> ~ lit_holds x l.

Definition lext (t t' : trail_t) : Prop :=
  (exists new, tr t' = tr t ++ new) /\ exists m, lim t' = lim t ++ m /\ (m = [] \/ exists r, m = length (tr t) :: r).

Lemma decide_spec pv ls : forall t, TI t -> (forall l, In l ls -> lvar l < nvt t) ->
  exists b t', asymm_decide pv ls t = Ok (b, t') /\ TI t' /\ nvt t' = nvt t /\ lext t t' /\
    (lim t' = lim t -> tr t' = tr t /\ (b = false -> forall l, In l ls -> is_pivot pv l = false -> In (lneg l) (tr t))) /\
    (forall x, holds_all x (tr t) -> pfalse x pv ls -> b = false /\ holds_all x (tr t')).
Proof.
  induction ls as [|l ls IH]; intros t HT HV; cbn [asymm_decide].
  - exists false, t. split; auto. split; auto. split; auto. split; [split; exists []; rewrite app_nil_r; auto|]. split; [intros _; split; auto; intros _ l []|]. auto.
  - assert (HV' : forall l', In l' ls -> lvar l' < nvt t) by (intros; apply HV; cbn; auto).
    destruct (is_pivot pv l) eqn:EP.
    { destruct (IH t HT HV') as (b & t' & A & B & C & D & E & F). exists b, t'. split; auto. split; auto. split; auto. split; auto. split.
      - intros HE. destruct (E HE) as (E1 & E2). split; auto. intros Hb m [<-|Hm] Hp; [congruence|]. apply E2; auto.
      - intros x Hx Hp. apply F; auto. intros m Hm. apply Hp. cbn; auto. }
    destruct (is_false (value t (lneg l))) eqn:EF.
    { exists true, t. split; auto. split; auto. split; auto. split; [split; exists []; rewrite app_nil_r; auto|]. split; [intros _; split; auto; discriminate|].
      intros x Hx Hp. exfalso. apply is_false_iff in EF. apply ti_val_false in EF; auto. rewrite lneg_invol in EF. apply (Hp l); cbn; auto. }
    destruct (is_true (value t (lneg l))) eqn:ET.
    { apply is_true_iff in ET. apply ti_val in ET; auto. destruct (IH t HT HV') as (b & t' & A & B & C & D & E & F). exists b, t'. split; auto. split; auto. split; auto. split; auto. split.
      - intros HE. destruct (E HE) as (E1 & E2). split; auto. intros Hb m [<-|Hm] Hp; auto.
      - intros x Hx Hp. apply F; auto. intros m Hm. apply Hp. cbn; auto. }
    assert (EN : value t (lneg l) = None) by (destruct (value t (lneg l)) as [[|]|]; auto; discriminate).
    assert (HL : lvar (lneg l) < nvt t) by (rewrite lvar_neg; apply HV; cbn; auto).
    assert (HT1 := TI_newlevel t HT). set (t1 := newDecisionLevel t) in *.
    assert (HR : length (tr t1) < nvt t1) by apply (TI_room t (lneg l) HT EN HL).
    rewrite decide_push by auto. cbn [bind]. assert (HT2 : TI (tpush (lneg l) None t1)) by (apply TI_push; auto).
    destruct (IH (tpush (lneg l) None t1) HT2 HV') as (b & t' & A & B & C & ((new & D1) & (m & D2 & D3)) & E & F). exists b, t'. split; auto. split; auto. split; auto. split; [|split].
    + split.
      * exists (lneg l :: new). rewrite D1. cbn [tpush tr]. rewrite <- app_assoc. reflexivity.
      * exists (length (tr t) :: m). rewrite D2. cbn [tpush lim]. unfold t1, newDecisionLevel; cbn [lim]. rewrite <- app_assoc. split; eauto.
    + intros HE. exfalso. rewrite D2 in HE. cbn [tpush lim] in HE. unfold t1, newDecisionLevel in HE; cbn [lim] in HE. apply (f_equal (@length nat)) in HE. rewrite !app_length in HE. cbn in HE. lia.
    + intros x Hx Hp. apply F.
      * intros m' Hm. cbn [tpush tr] in Hm. apply in_app_or in Hm. destruct Hm as [Hm|[<-|[]]]; auto. apply lit_holds_neg. apply Hp; cbn; auto.
      * intros m' Hm. apply Hp. cbn; auto.
Qed.

(** what a check may change *)
Record chg (s s' : chk) : Prop := {
  g_S : SI s';
  g_ar : aperm (arena (k_d s)) (arena (k_d s'));
  g_d : k_d s' = with_arena (k_d s) (arena (k_d s'));
  g_occ : k_occ s' = k_occ s;
  g_del : k_del s' = k_del s }.
Lemma chg_empt s s' : chg s s' -> empt (k_d s') = empt (k_d s).
Proof. intros H. rewrite (g_d _ _ H). reflexivity. Qed.
Lemma chg_nv s s' : chg s s' -> nv (k_d s') = nv (k_d s).
Proof. intros H. rewrite (g_d _ _ H). reflexivity. Qed.
Lemma chg_alive s s' c : chg s s' -> alive (k_d s') c <-> alive (k_d s) c.
Proof. intros H. rewrite (g_d _ _ H). apply perm_alive. apply H. Qed.
Lemma chg_live x s s' : chg s s' -> sat_live x (k_d s') <-> sat_live x (k_d s).
Proof. intros H. rewrite (g_d _ _ H). apply perm_live. apply H. Qed.
Lemma chg_in s s' c l : chg s s' -> In l (clits (k_d s') c) <-> In l (clits (k_d s) c).
Proof. intros H. symmetry. apply (aperm_in _ _ c l (g_ar _ _ H)). Qed.
Lemma chg_len s s' c : chg s s' -> length (clits (k_d s') c) = length (clits (k_d s) c).
Proof. intros H. symmetry. apply (aperm_len _ _ c (g_ar _ _ H)). Qed.
Lemma aperm_refl a : aperm a a.
Proof. split; auto. Qed.
Lemma chg_refl s : SI s -> chg s s.
Proof. intros H. constructor; auto. apply aperm_refl. destruct (k_d s); reflexivity. Qed.
Lemma aperm_trans' a b c : aperm a b -> aperm b c -> aperm a c.
Proof. intros (H1 & H2) (H3 & H4). split; [congruence|]. intros k. destruct (H2 k), (H4 k). split; [eapply Permutation_trans; eauto|congruence]. Qed.
Lemma chg_trans s1 s2 s3 : chg s1 s2 -> chg s2 s3 -> chg s1 s3.
Proof.
  intros [A1 A2 A3 A4 A5] [B1 B2 B3 B4 B5]. constructor; auto; try congruence.
  - eapply aperm_trans'; eauto.
  - rewrite B3 at 1. rewrite A3 at 1. reflexivity.
Qed.
Lemma SI_backtrack lev s : SI s -> SI (chk_backtrack lev s).
Proof.
  intros [A B C D]. constructor; cbn [chk_backtrack k_d k_t k_w k_occ]; auto; [apply TI_backtrack; auto|].
  rewrite <- D. unfold backtrack. destruct (lev <? dlevel (k_t s)); reflexivity.
Qed.
Lemma chg_backtrack lev s s' : chg s s' -> chg s (chk_backtrack lev s').
Proof. intros [A B C D E]. constructor; auto. apply SI_backtrack. auto. Qed.

Lemma asymm_spec ls pv s : SI s -> (forall l, In l ls -> lvar l < nv (k_d s)) ->
  exists b s', check_asymm ls pv s = Ok (b, s') /\ chg s s' /\ lext (k_t s) (k_t s') /\
    (empt (k_d s) = false ->
      (lim (k_t s') = lim (k_t s) -> (b = true /\ tr (k_t s') = tr (k_t s)) \/ (forall l, In l ls -> is_pivot pv l = false -> In (lneg l) (tr (k_t s)))) /\
      (forall x, sat_live x (k_d s) -> holds_all x (tr (k_t s)) -> pfalse x pv ls -> b = false /\ holds_all x (tr (k_t s')))).
Proof.
  intros HS HV. unfold check_asymm. destruct (empt (k_d s)) eqn:EE.
  { exists true, s. split; auto. split; [apply chg_refl; auto|]. split; [split; exists []; rewrite app_nil_r; auto|]. discriminate. }
  destruct HS as [A B C D]. destruct (decide_spec pv ls (k_t s) C) as (b & t & E1 & E2 & E3 & E4 & E5 & E6); [rewrite D; auto|]. rewrite E1. cbn [bind]. destruct b.
  - eexists _, _. split; [reflexivity|]. cbn [k_t k_d]. split; [|split; [auto|]].
    + constructor; cbn [k_d k_t k_w k_occ k_del]; auto; [|apply aperm_refl|destruct (k_d s); reflexivity]. constructor; auto. cbn [k_t k_d]. congruence.
    + intros _. split; [|intros x _ H1 H2; destruct (E6 x H1 H2); discriminate]. intros HE. left. split; auto. apply E5; auto.
  - assert (HP := pin_of (k_d s) (k_w s) (k_occ s) t A B E2 (eq_trans E3 D)). destruct (propagate_sound _ _ _ HP) as (k & d' & w' & t' & EP & HO). rewrite EP. cbn [bind].
    eexists _, _. split; [reflexivity|]. destruct HO as [P1 (new2 & P2) P3 P4 P5 P6 P7 P8 P9 P10]. cbn [k_t k_d]. split; [|split].
    + constructor; cbn [k_d k_t k_w k_occ k_del]; auto. rewrite P6. constructor; cbn [k_d k_t k_w k_occ k_del]; auto.
      * apply perm_DBi; auto.
      * apply (perm_WOi (k_d s) (arena d') (k_w s)); auto.
      * cbn [with_arena nv]. congruence.
    + destruct E4 as ((new & D1) & (m & D2 & D3)). split; [exists (new ++ new2); rewrite P2, D1, app_assoc; auto|]. exists m. split; [congruence|auto].
    + intros _. split.
      * intros HE. right. apply E5; congruence.
      * intros x H1 H2 H3. destruct (E6 x H2 H3) as (_ & H4). destruct (P10 x) as (-> & H5); auto. intros c Hc. apply H1. apply (listed_alive (k_d s) (k_w s) (k_occ s)); auto.
Qed.

(** backtracking to the level of [t] after an extension gives the trail back, or the extension made no decision *)
Lemma backtrack_lext t t' : TI t -> TI t' -> lext t t' -> let t2 := backtrack (dlevel t) t' in
  lim t2 = lim t /\ (t2 = t' \/ tr t2 = tr t) /\ exists new, tr t2 = tr t ++ new.
Proof.
  intros HT HT' ((new & E1) & (m & E2 & E3)). unfold backtrack. assert (EL : dlevel t' = dlevel t + length m) by (unfold dlevel; rewrite E2, app_length; auto).
  destruct E3 as [->|(r & ->)].
  - cbn in EL. destruct (Nat.ltb_spec (dlevel t) (dlevel t')); [lia|]. cbn zeta. rewrite app_nil_r in E2. split; auto. split; eauto.
  - cbn [length] in EL. destruct (Nat.ltb_spec (dlevel t) (dlevel t')); [|lia]. cbn [lim tr].
    assert (EN : nth (dlevel t) (lim t') 0 = length (tr t)) by (rewrite E2; unfold dlevel; rewrite app_nth2, Nat.sub_diag by auto; reflexivity).
    rewrite EN, E1. assert (EF : firstn (length (tr t)) (tr t ++ new) = tr t) by (rewrite firstn_app, Nat.sub_diag, firstn_all, firstn_O, app_nil_r; auto).
    split; [|split; [right; auto|exists []; rewrite app_nil_r; auto]]. rewrite E2. unfold dlevel. rewrite firstn_app, Nat.sub_diag, firstn_all, firstn_O, app_nil_r. auto.
Qed.

(** ** Resolution candidates *)
Definition rat_ok (P : assignment -> Prop) (s : chk) (p : lit) (c : cid) : Prop :=
  alive (k_d s) c -> forall x, P x -> exists l, In l (clits (k_d s) c) /\ l <> lneg p /\ lit_holds x l.
Lemma hold_dec x p ls : (exists l, In l ls /\ l <> lneg p /\ lit_holds x l) \/ pfalse x (Some (lneg p)) ls.
Proof.
  induction ls as [|l ls IH]; [right; intros l []|]. destruct IH as [(m & H1 & H2)|IH]; [left; exists m; cbn; auto|].
  destruct (Nat.eq_dec l (lneg p)) as [->|Hn].
  - right. intros m [<-|Hm]; [cbn; rewrite Nat.eqb_refl; discriminate|auto].
  - destruct (lit_holds_dec x l) as [H|H]; [left; exists l; cbn; auto|]. right. intros m [<-|Hm]; auto.
Qed.
Definition mext (t t' : trail_t) : Prop := lim t' = lim t /\ exists new, tr t' = tr t ++ new.
Lemma mext_trans t1 t2 t3 : mext t1 t2 -> mext t2 t3 -> mext t1 t3.
Proof. intros (A & n1 & B) (C & n2 & D). split; [congruence|]. exists (n1 ++ n2). rewrite D, B, app_assoc. auto. Qed.
Lemma rat_clauses_spec (P : assignment -> Prop) p : forall cs b s, SI s ->
  exists b' s', rat_clauses (dlevel (k_t s)) p cs b s = Ok (b', s') /\ chg s s' /\ mext (k_t s) (k_t s') /\
    (empt (k_d s) = false -> (forall x, P x -> sat_live x (k_d s) /\ holds_all x (tr (k_t s))) ->
      (b' = true -> forall c, In c cs -> rat_ok P s p c) /\ forall x, P x -> holds_all x (tr (k_t s'))).
Proof.
  induction cs as [|c cs IH]; intros b s HS; cbn [rat_clauses].
  { exists b, s. split; auto. split; [apply chg_refl; auto|]. split; [split; auto; exists []; rewrite app_nil_r; auto|]. intros _ HP. split; [intros _ c []|]. intros x Hx. apply HP; auto. }
  destruct (isDeleted (k_d s) c) eqn:ED.
  { destruct (IH b s HS) as (b' & s' & A & B & C & D). exists b', s'. split; auto. split; auto. split; auto. intros HE HP. destruct (D HE HP) as (D1 & D2). split; auto.
    intros Hb c' [<-|Hc]; [|apply D1; auto]. intros (_ & Ha). congruence. }
  destruct (asymm_spec (clits (k_d s) c) (Some (lneg p)) s HS) as (b1 & s1 & A & B & C & D); [intros l Hl; apply (b_rng _ (s_DB _ HS) c); auto|].
  rewrite A. cbn [bind]. destruct (backtrack_lext (k_t s) (k_t s1) (s_TI _ HS) (s_TI _ (g_S _ _ B)) C) as (E1 & E2 & E3).
  set (s2 := chk_backtrack (dlevel (k_t s)) s1) in *. assert (HG : chg s s2) by (apply chg_backtrack; auto).
  assert (HM : mext (k_t s) (k_t s2)) by (split; auto).
  assert (HP2 : empt (k_d s) = false -> (forall x, P x -> sat_live x (k_d s) /\ holds_all x (tr (k_t s))) -> forall x, P x -> sat_live x (k_d s2) /\ holds_all x (tr (k_t s2))).
  { intros HE HP x Hx. destruct (HP x Hx) as (H1 & H2). split; [apply (chg_live x s s2); auto|]. destruct (D HE) as (D1 & D2).
    change (tr (k_t s2)) with (tr (backtrack (dlevel (k_t s)) (k_t s1))). destruct E2 as [E2|E2]; rewrite E2; auto.
    assert (EL1 : lim (k_t s1) = lim (k_t s)) by (rewrite <- E2; auto). destruct (D1 EL1) as [(_ & ->)|H]; auto.
    apply D2; auto. intros l Hl Hp Hh. specialize (H l Hl Hp). specialize (H2 _ H). apply lit_holds_neg in H2. auto. }
  destruct b1.
  - assert (EL : dlevel (k_t s) = dlevel (k_t s2)) by (unfold dlevel; destruct HM as (-> & _); auto). rewrite EL.
    destruct (IH true s2 (g_S _ _ HG)) as (b' & s' & A' & B' & C' & D'). exists b', s'. split; auto. split; [eapply chg_trans; eauto|]. split; [eapply mext_trans; eauto|].
    intros HE HP. destruct (D HE) as (D1 & D2).
    assert (HR : rat_ok P s p c).
    { intros Ha x Hx. destruct (hold_dec x p (clits (k_d s) c)) as [H|H]; auto. destruct (HP x Hx) as (H1 & H2). destruct (D2 x H1 H2 H). discriminate. }
    destruct D' as (D'1 & D'2); [rewrite (chg_empt _ _ HG); auto|apply HP2; auto|]. split; auto.
    intros Hb c' [<-|Hc]; auto.
    intros Ha x Hx. destruct (D'1 Hb c' Hc) with (x := x) as (l & L1 & L2); auto; [apply (chg_alive s s2); auto|]. exists l. split; auto. apply (chg_in s s2); auto.
  - exists false, s2. split; auto. split; auto. split; auto. intros HE HP. split; [discriminate|]. apply HP2; auto.
Qed.
Lemma rat_pivots_spec (P : assignment -> Prop) : forall ps b s, SI s ->
  exists b' s', rat_pivots (dlevel (k_t s)) ps b s = Ok (b', s') /\ chg s s' /\ mext (k_t s) (k_t s') /\
    (empt (k_d s) = false -> (forall x, P x -> sat_live x (k_d s) /\ holds_all x (tr (k_t s))) ->
      b = false -> b' = true -> exists p, In p ps /\ forall c, alive (k_d s) c -> In (lneg p) (clits (k_d s) c) -> rat_ok P s p c).
Proof.
  induction ps as [|p ps IH]; intros b s HS; cbn [rat_pivots].
  { exists b, s. split; auto. split; [apply chg_refl; auto|]. split; [split; auto; exists []; rewrite app_nil_r; auto|]. intros. congruence. }
  destruct b.
  { exists true, s. split; auto. split; [apply chg_refl; auto|]. split; [split; auto; exists []; rewrite app_nil_r; auto|]. intros. congruence. }
  destruct (rat_clauses_spec P p (nth (lneg p) (k_occ s) []) false s HS) as (b1 & s1 & A & B & C & D). rewrite A. cbn [bind].
  assert (EL : dlevel (k_t s) = dlevel (k_t s1)) by (unfold dlevel; destruct C as (-> & _); auto). rewrite EL.
  destruct (IH b1 s1 (g_S _ _ B)) as (b' & s' & A' & B' & C' & D'). exists b', s'. split; auto. split; [eapply chg_trans; eauto|]. split; [eapply mext_trans; eauto|].
  intros HE HP _ Hb. destruct (D HE HP) as (D1 & D2). destruct b1.
  - exists p. split; cbn; auto. intros c Ha Hi. apply D1; auto. apply (w_oc _ _ _ (s_WO _ HS)); auto.
  - destruct D' as (q & Q1 & Q2); auto.
    + rewrite (chg_empt _ _ B); auto.
    + intros x Hx. split; [apply (chg_live x s s1); auto; apply HP; auto|apply D2; auto].
    + exists q. split; cbn; auto. intros c Ha Hi Ha' x Hx. destruct (Q2 c) with (x := x) as (l & L1 & L2); auto; try (apply (chg_alive s s1); auto); [apply (chg_in s s1); auto|].
      exists l. split; auto. apply (chg_in s s1); auto.
Qed.

(** ** Flipping the pivot *)
Definition set_true (x : assignment) (p : lit) : assignment := fun v => if v =? lvar p then negb (lsign p) else x v.
Lemma set_true_self x p : lit_holds (set_true x p) p.
Proof. unfold lit_holds, lit_val, set_true. rewrite Nat.eqb_refl. destruct (lsign p); reflexivity. Qed.
Lemma set_true_other x p l : lvar l <> lvar p -> lit_holds (set_true x p) l <-> lit_holds x l.
Proof. intros H. unfold lit_holds, lit_val, set_true. destruct (Nat.eqb_spec (lvar l) (lvar p)); [contradiction|tauto]. Qed.
Lemma flip_keep x p l : l <> lneg p -> lit_holds x l -> lit_holds (set_true x p) l.
Proof.
  intros Hn Hl. destruct (Nat.eq_dec (lvar l) (lvar p)) as [E|E]; [|apply set_true_other; auto]. destruct (same_var l p E) as [->|]; [|contradiction]. apply set_true_self.
Qed.
Lemma flip_live x p d : sat_live x d -> (forall c, alive d c -> In (lneg p) (clits d c) -> exists l, In l (clits d c) /\ l <> lneg p /\ lit_holds x l) -> sat_live (set_true x p) d.
Proof.
  intros HS HR c Hc. destruct (in_dec Nat.eq_dec (lneg p) (clits d c)) as [Hi|Hi].
  - destruct (HR c Hc Hi) as (l & H1 & H2 & H3). exists l. split; auto. apply flip_keep; auto.
  - destruct (HS c Hc) as (l & H1 & H2). exists l. split; auto. apply flip_keep; auto. intros ->. contradiction.
Qed.

(** ** The invariants between two proof lines *)
Record RI (s : chk) : Prop := { r_S : SI s; r_lim : lim (k_t s) = [] }.
Record JI (s : chk) : Prop := {
  j_e : empt (k_d s) = false;
  j_x : exists x, sat_live x (k_d s);
  j_u : forall l, In l (tr (k_t s)) -> exists c, alive (k_d s) c /\ clits (k_d s) c = [l] }.
Lemma trail_holds s x : JI s -> sat_live x (k_d s) -> holds_all x (tr (k_t s)).
Proof. intros HJ Hx l Hl. destruct (j_u _ HJ l Hl) as (c & Hc & E). specialize (Hx c Hc). rewrite E in Hx. apply sat_clause_unit. auto. Qed.
Lemma fact_spec l t : TI t -> lim t = [] -> lvar l < nvt t -> exists ok t', fact l t = Ok (ok, t') /\ TI t' /\ lim t' = [] /\ nvt t' = nvt t /\
  (forall m, In m (tr t') -> m = l \/ In m (tr t)) /\ (ok = false -> In (lneg l) (tr t)).
Proof.
  intros HT HL HV. assert (HD : dlevel t = 0) by (unfold dlevel; rewrite HL; auto). destruct (value t l) as [[|]|] eqn:E.
  - rewrite fact_true by auto. eexists _, _. split; [reflexivity|]. split; [apply TI_set_vd_fact; auto|]. split; auto. split; auto. split; [cbn; auto|discriminate].
  - rewrite fact_false by auto. eexists _, _. split; [reflexivity|]. split; auto. split; auto. split; auto. split; auto. intros _. apply ti_val_false; auto.
  - rewrite fact_push by auto. eexists _, _. split; [reflexivity|]. split; [apply TI_push; auto|]. split; auto. split; auto. split; [|discriminate].
    intros m Hm. cbn [tpush tr] in Hm. apply in_app_or in Hm. destruct Hm as [Hm|[<-|[]]]; auto.
Qed.
Lemma aperm_unit a a' c l : aperm a a' -> alits a c = [l] -> alits a' c = [l].
Proof. intros (_ & H) E. destruct (H c) as (HP & _). rewrite E in HP. apply Permutation_length_1_inv in HP. auto. Qed.

(** the part of the addition before the clause is created: [s3] is the state after backtracking *)
Definition accepted (ls : list lit) (s : chk) : out (bool * chk) :=
  '(b, s1) <- check_asymm ls None s ;;
  '(b2, s2) <- rat_pivots (dlevel (k_t s1)) ls b s1 ;; Ok (b2, chk_backtrack 0 s2).
Lemma backtrack_0_lim t : lim (backtrack 0 t) = [].
Proof. unfold backtrack. destruct (Nat.ltb_spec 0 (dlevel t)) as [H|H]; cbn [lim]; auto. unfold dlevel in H. destruct (lim t); auto. cbn in H. lia. Qed.
Lemma accepted_spec ls s : RI s -> (forall l, In l ls -> lvar l < nv (k_d s)) ->
  exists b s', accepted ls s = Ok (b, s') /\ chg s s' /\ RI s' /\
    (JI s -> b = true -> JI s' /\ exists x, sat_live x (k_d s') /\ sat_clause x ls).
Proof.
  intros [HS HL] HV. unfold accepted. destruct (asymm_spec ls None s HS HV) as (b & s1 & A & B & C & D). rewrite A. cbn [bind].
  set (P := fun x => sat_live x (k_d s) /\ holds_all x (tr (k_t s)) /\ pfalse x None ls).
  destruct (rat_pivots_spec P ls b s1 (g_S _ _ B)) as (b2 & s2 & A2 & B2 & C2 & D2). rewrite A2. cbn [bind].
  eexists _, _. split; [reflexivity|]. assert (HG : chg s (chk_backtrack 0 s2)) by (apply chg_backtrack; eapply chg_trans; eauto). split; auto.
  assert (HR : RI (chk_backtrack 0 s2)) by (constructor; [apply HG|apply backtrack_0_lim]). split; auto.
  intros HJ ->. destruct (j_x _ HJ) as (x & Hx). assert (HH := trail_holds s x HJ Hx). assert (HE := j_e _ HJ). destruct (D HE) as (D1 & D1').
  (* the model *)
  assert (HX : exists x', sat_live x' (k_d s) /\ sat_clause x' ls /\ (b = true \/ lim (k_t s1) <> [])).
  { assert (HPX : sat_clause x ls \/ P x).
    { destruct (existsb (lit_val x) ls) eqn:EX.
      - left. apply existsb_exists in EX. destruct EX as (l & ? & ?). exists l. auto.
      - right. split; auto. split; auto. intros l Hl _ Hh. assert (existsb (lit_val x) ls = true) by (apply existsb_exists; exists l; auto). congruence. }
    assert (HPs : b = false -> forall y, P y -> sat_live y (k_d s1) /\ holds_all y (tr (k_t s1))).
    { intros _ y (Y1 & Y2 & Y3). split; [apply (chg_live y s s1); auto|]. apply D1'; auto. }
    destruct b.
    - exists x. destruct HPX as [H|(_ & _ & H)]; [split; auto|]. destruct (D1' x Hx HH H). discriminate.
    - destruct D2 as (p & Hp & HC); auto; [rewrite (chg_empt _ _ B); auto|].
      assert (HLN : lim (k_t s1) <> []).
      { intros EL. destruct (D1 (eq_trans EL (eq_sym HL))) as [(? & _)|HF]; [discriminate|].
        assert (HPx : P x) by (split; auto; split; auto; intros l Hl Hp' Hh; specialize (HH _ (HF l Hl Hp')); apply lit_holds_neg in HH; auto).
        destruct (j_u _ HJ (lneg p) (HF p Hp eq_refl)) as (c & Hc & EC). assert (EC1 := aperm_unit _ _ _ _ (g_ar _ _ B) EC). change (alits (arena (k_d s1)) c) with (clits (k_d s1) c) in EC1.
        assert (Hc1 := proj2 (chg_alive s s1 c B) Hc). destruct (HC c) with (x := x) as (l & L1 & L2 & _); auto; [rewrite EC1; cbn; auto|]. rewrite EC1 in L1. destruct L1 as [<-|[]]. auto. }
      destruct HPX as [H|H]; [exists x; auto|]. exists (set_true x p). split; [|split; [exists p; split; auto; apply set_true_self|auto]].
      apply flip_live; auto. intros c Ha Hi. destruct (HC c) with (x := x) as (l & L1 & L2 & L3); auto; try (apply (chg_alive s s1); auto); [apply (chg_in s s1); auto|].
      exists l. split; auto. apply (chg_in s s1); auto. }
  destruct HX as (x' & X1 & X2 & X3).
  (* the trail is back *)
  assert (HTR : tr (backtrack 0 (k_t s2)) = tr (k_t s)).
  { destruct C as ((new & T1) & (m & T2 & T3)). destruct C2 as (T4 & new2 & T5). rewrite HL in T2. cbn [app] in T2. destruct T3 as [->|(r & ->)].
    - destruct X3 as [->|X3]; [|contradiction].
      assert (s2 = s1) by (destruct ls; cbn [rat_pivots] in A2; congruence). subst s2.
      destruct (D1 (eq_trans T2 (eq_sym HL))) as [(_ & E)|HF].
      + unfold backtrack, dlevel. rewrite T2. cbn. auto.
      + exfalso. destruct (D1' x Hx HH) as (? & _); [|discriminate]. intros l Hl Hp' Hh. specialize (HH _ (HF l Hl Hp')). apply lit_holds_neg in HH. auto.
    - unfold backtrack, dlevel. rewrite T4, T2. cbn [length Nat.ltb Nat.leb nth tr]. rewrite T5, T1, <- app_assoc. rewrite firstn_app, Nat.sub_diag, firstn_all, firstn_O, app_nil_r. auto. }
  split.
  - constructor.
    + rewrite (chg_empt _ _ HG). auto.
    + exists x. apply (chg_live x s _ HG). auto.
    + intros l Hl. cbn [chk_backtrack k_t] in Hl. rewrite HTR in Hl. destruct (j_u _ HJ l Hl) as (c & Hc & EC). exists c. split; [apply (chg_alive _ _ c HG); auto|].
      apply (aperm_unit _ _ _ _ (g_ar _ _ HG) EC).
  - exists x'. split; auto. apply (chg_live x' s _ HG). auto.
Qed.

Lemma add_spec ls s : RI s -> (forall l, In l ls -> lvar l < nv (k_d s)) ->
  (check_clause_add ls s = Err TooLong /\ (65536 <= N.of_nat (length ls))%N) \/ exists b s', check_clause_add ls s = Ok (b, s') /\ RI s' /\ nv (k_d s') = nv (k_d s) /\ (JI s -> b = true -> JI s').
Proof.
  intros HR HV. unfold check_clause_add. assert (EV : forallb (fun l => lvar l <? nv (k_d s)) ls = true) by (apply forallb_forall; intros l Hl; apply Nat.ltb_lt; auto). rewrite EV.
  destruct (accepted_spec ls s HR HV) as (b & s3 & A & HG & HR3 & HJ). unfold accepted in A. apply bind_ok in A. destruct A as ((b1, s1) & A1 & A). apply bind_ok in A. destruct A as ((b2, s2) & A2 & A).
  rewrite A1. cbn [bind]. rewrite A2. cbn [bind]. injection A as -> <-. set (s3 := chk_backtrack 0 s2) in *. assert (HN3 := chg_nv _ _ HG).
  destruct b; [|right; eexists _, _; split; [reflexivity|]; split; auto; split; auto; discriminate].
  destruct (createClause ls 0 false (k_d s3)) as [(c, d)|e] eqn:EC; cbn [bind].
  2:{ left. unfold createClause in EC. destruct (N.leb_spec 65536 (N.of_nat (length ls))) as [HLn|]; [|discriminate]. injection EC as <-. auto. }
  right.
  assert (HC := create_newc _ _ _ _ _ EC). assert (HV3 : forall l, In l ls -> lvar l < nv (k_d s3)) by (intros; rewrite HN3; auto).
  destruct HR3 as [[R1 R2 R3 R4] RL]. assert (HD := newc_DBi _ _ _ _ R1 HV3 HC). assert (HW := newc_WOi _ _ _ _ _ _ R1 HV3 R2 HC). assert (HNd := n_nv _ _ _ _ HC).
  destruct (newc_new _ _ _ _ HC) as (EL & ED).
  assert (HJ1 : JI s -> (exists x, sat_live x d) /\ empt d = false /\ (forall x, sat_live x d -> sat_clause x ls) /\ forall l, In l (tr (k_t s3)) -> exists c0, alive d c0 /\ clits d c0 = [l]).
  { intros J. destruct (HJ J eq_refl) as (J3 & x & X1 & X2).
    assert (HA := newc_alive _ _ _ _ R1 HC).
    assert (HO : forall k, alive (k_d s3) k -> clits d k = clits (k_d s3) k) by (intros k (K & _); apply (newc_old _ _ _ _ HC); apply (b_ids _ R1); auto).
    split; [|split; [|split]].
    - exists x. intros k Hk. apply HA in Hk. destruct Hk as [->|Hk]; [rewrite EL; auto|]. rewrite HO; auto.
    - rewrite (n_e _ _ _ _ HC). destruct ls as [|l0 ls0]; [destruct X2 as (? & [] & _)|]. cbn. apply (j_e _ J3).
    - intros y Hy. rewrite <- EL. apply Hy. apply HA. auto.
    - intros l Hl. destruct (j_u _ J3 l Hl) as (c0 & Hc0 & E0). exists c0. split; [apply HA; auto|]. rewrite HO; auto. }
  assert (HDef : RI (mkChk d (k_t s3) (if 2 <? length (clits d c) then attachClause d c (k_w s3) else k_w s3) (occ_add d (k_occ s3) c) (k_del s3)) /\
    (JI s -> JI (mkChk d (k_t s3) (if 2 <? length (clits d c) then attachClause d c (k_w s3) else k_w s3) (occ_add d (k_occ s3) c) (k_del s3)))).
  { split.
    - constructor; auto. constructor; auto. cbn [k_t k_d]. congruence.
    - intros J. destruct (HJ1 J) as (X & Y & Z & U). constructor; auto. }
  rewrite EL in *. destruct ls as [|l [|l2 r]].
  - eexists _, _. split; [reflexivity|]. split; [apply HDef|]. split; [cbn [k_d]; congruence|]. intros J _. apply HDef. auto.
  - destruct (fact_spec l (k_t s3) R3 RL) as (ok & t' & F1 & F2 & F3 & F4 & F5 & F6); [rewrite R4; apply HV3; cbn; auto|]. rewrite F1. cbn [bind].
    assert (HE : WOi (emptyClause d) (if 2 <? length [l] then attachClause d c (k_w s3) else k_w s3) (occ_add d (k_occ s3) c)) by (destruct HW; constructor; auto).
    assert (HE' : DBi (emptyClause d)) by (destruct HD; constructor; auto).
    eexists _, _. split; [reflexivity|]. split; [|split].
    + constructor; auto. destruct ok; constructor; auto; cbn [k_t k_d]; try congruence. change (nv (emptyClause d)) with (nv d). congruence.
    + cbn [k_d]. destruct ok; [congruence|]. change (nv (emptyClause d)) with (nv d). congruence.
    + intros J _. destruct (HJ1 J) as ((x & X) & Y & Zc & U). assert (HA := newc_alive _ _ _ _ R1 HC). destruct ok.
      * constructor; cbn [k_d k_t]; auto; [exists x; auto|]. intros m Hm. destruct (F5 m Hm) as [->|Hm']; auto. exists c. split; auto. apply HA. auto.
      * exfalso. specialize (F6 eq_refl). destruct (U _ F6) as (c0 & Hc0 & E0). specialize (Zc x X). apply sat_clause_unit in Zc. specialize (X c0 Hc0). rewrite E0 in X. apply sat_clause_unit in X. apply lit_holds_neg in X. auto.
  - eexists _, _. split; [reflexivity|]. split; [apply HDef|]. split; [cbn [k_d]; congruence|]. intros J _. apply HDef. auto.
Qed.

Lemma remove_spec ls s : RI s -> (check_clause_remove ls s = Err UB /\ exists l, In l ls /\ nv (k_d s) <= lvar l) \/
  exists s', check_clause_remove ls s = Ok s' /\ RI s' /\ nv (k_d s') = nv (k_d s) /\ (JI s -> JI s').
Proof.
  intros HR. assert (HR0 := HR). destruct HR0 as [[R1 R2 R3 R4] RL]. unfold check_clause_remove. destruct ls as [|x [|y r]]; [right; eauto 10|right; eauto 10|].
  destruct (Nat.ltb_spec x (length (k_occ s))) as [HX|HX].
  2:{ left. split; auto. exists x. split; [cbn; auto|]. destruct (Nat.le_gt_cases (nv (k_d s)) (lvar x)) as [|Hv]; auto. exfalso. apply lit_lt_double in Hv. rewrite (w_ol _ _ _ R2) in HX. lia. }
  right. destruct (find _ _) as [c|] eqn:EF; [|eauto 10]. apply find_some in EF. destruct EF as (_ & EM). unfold is_match in EM. apply andb_prop in EM. destruct EM as (EM & _). apply Nat.eqb_eq in EM. cbn [length] in EM.
  assert (Hlen : 2 <= length (clits (k_d s) c)) by lia.
  assert (Hc : c < length (arena (k_d s))).
  { destruct (Nat.lt_ge_cases c (length (arena (k_d s)))); auto. exfalso. unfold clits, cobj_at in Hlen. rewrite nth_overflow in Hlen by auto. cbn in Hlen. lia. }
  assert (HD := remove_DBi _ _ R1 Hc Hlen). assert (HW := remove_WOi _ _ _ _ R1 R2 Hc Hlen). assert (HA := fun k => remove_alive c (k_d s) k Hc). assert (HO := remove_old c (k_d s)).
  cbn zeta in HW. set (d := removeClause c (k_d s)) in *. set (w := if 2 <? length (clits d c) then detachClause d c (k_w s) else k_w s) in *.
  set (s1 := mkChk d (k_t s) w (k_occ s) (S (k_del s))).
  assert (HR1 : RI s1) by (constructor; auto; constructor; auto).
  assert (HJ1 : JI s -> JI s1).
  { intros [J1 (x0 & J2) J3]. constructor; auto.
    - exists x0. intros k Hk. cbn [s1 k_d]. rewrite HO. apply J2. apply HA in Hk. tauto.
    - intros l Hl. destruct (J3 l Hl) as (k & Hk & E). exists k. cbn [s1 k_d]. rewrite HO. split; auto. apply HA. split; auto. intros ->. rewrite E in Hlen. cbn in Hlen. lia. }
  eexists. split; [reflexivity|]. cbn zeta. destruct (length (cls d) <? k_del s1 * 10).
  2:{ split; auto. }
  destruct (reorg_DBi d HD) as (D1 & D2). assert (HB := rebuild _ D1 D2). assert (HRA := fun k => reorg_alive d k HD).
  assert (E : cleanup_deleted s1 = mkChk (reorganize d) (k_t s) (prop_init (reorganize d) []) (occ_all (reorganize d)) (S (k_del s))) by reflexivity. rewrite E.
  split; [constructor; auto; constructor; auto|]. split; auto.
  intros J. destruct (HJ1 J) as [J1 (x0 & J2) J3]. constructor; auto.
  - exists x0. intros k Hk. apply J2. apply HRA. auto.
  - intros l Hl. destruct (J3 l Hl) as (k & Hk & Ek). exists k. split; auto. apply HRA. auto.
Qed.

(** ** Loading and whole proofs *)
Lemma facts_spec d : forall cs t, range (nv d) (arena d) -> TI t -> lim t = [] -> nvt t = nv d -> (forall c, In c cs -> alive d c) ->
  exists t', chk_facts d cs t = Ok t' /\ TI t' /\ lim t' = [] /\ nvt t' = nv d /\ (forall l, In l (tr t') -> In l (tr t) \/ exists c, alive d c /\ clits d c = [l]).
Proof.
  induction cs as [|c cs IH]; intros t HG HT HL HN HA; cbn [chk_facts]; [exists t; split; auto 8|].
  assert (HA' : forall c', In c' cs -> alive d c') by (intros; apply HA; cbn; auto).
  destruct (clits d c) as [|l [|l2 r]] eqn:E; [apply IH; auto| |apply IH; auto].
  destruct (fact_spec l t HT HL) as (ok & t1 & F1 & F2 & F3 & F4 & F5 & F6); [rewrite HN; apply (HG c); change (alits (arena d) c) with (clits d c); rewrite E; cbn; auto|].
  rewrite F1. cbn [bind]. destruct (IH t1 HG F2 F3 (eq_trans F4 HN) HA') as (t' & A & B & C & D & F). exists t'. split; auto. split; auto. split; auto. split; auto.
  intros m Hm. destruct (F m Hm) as [Hm'|]; auto. destruct (F5 m Hm') as [->|]; auto. right. exists c. split; auto. apply HA. cbn; auto.
Qed.
Lemma new_spec n cs : (forall c l, In c cs -> In l c -> lvar l < n) ->
  (exists e, chk_new n cs = Err e /\ db_init n cs true db_new = Err e) \/
  exists s, chk_new n cs = Ok s /\ RI s /\ nv (k_d s) = n /\ (empt (k_d s) = true -> In [] cs) /\ (satisfiable cs -> JI s).
Proof.
  intros HV. unfold chk_new. destruct (db_init n cs true db_new) as [d|e] eqn:ED; [right|left; exists e; auto]. cbn [bind].
  destruct (init_DBi n cs d HV ED) as (A & B & C & D & E). destruct (init_fields (nv d) trail_new) as (I1 & I2 & _ & _ & I5).
  destruct (facts_spec d (cls d) (trail_init (nv d) trail_new)) as (t & F1 & F2 & F3 & F4 & F5).
  - apply (b_rng _ A).
  - apply TI_init. apply TI_new.
  - rewrite I2. reflexivity.
  - rewrite I5. cbn. lia.
  - intros c Hc. split; auto.
  - rewrite F1. cbn [bind]. eexists. split; [reflexivity|]. split; [|split; [auto|split; [auto|]]].
    + constructor; auto. constructor; auto. apply rebuild; auto.
    + intros (x & Hx). constructor; cbn [k_d k_t].
      * destruct (empt d) eqn:EE; auto. exfalso. destruct (Hx [] (E eq_refl)) as (? & [] & _).
      * exists x. intros c Hc. apply Hx. apply D. auto.
      * intros l Hl. destruct (F5 l Hl) as [H|]; auto. rewrite I1 in H. destruct H.
Qed.
Definition line_lits (l : cline) : list lit := match l with CAdd c => c | CDel c => c end.
Lemma add_known ls s : (forall l, In l ls -> lvar l < nv (k_d s)) \/ check_clause_add ls s = Err UB /\ exists l, In l ls /\ nv (k_d s) <= lvar l.
Proof.
  unfold check_clause_add. destruct (forallb (fun l => lvar l <? nv (k_d s)) ls) eqn:E.
  - left. intros l Hl. apply (proj1 (forallb_forall _ _) E) in Hl. apply Nat.ltb_lt. auto.
  - right. split; auto. clear - E. induction ls as [|l ls IH]; cbn [forallb] in E; [discriminate|]. apply andb_false_iff in E. destruct E as [E|E].
    + apply Nat.ltb_ge in E. exists l. cbn; auto.
    + destruct (IH E) as (m & H1 & H2). exists m. cbn; auto.
Qed.
Lemma lines_spec : forall p s, RI s ->
  (check_lines p s = Err UB /\ exists ln l, In ln p /\ In l (line_lits ln) /\ nv (k_d s) <= lvar l) \/
  (check_lines p s = Err TooLong /\ exists c, In (CAdd c) p /\ (65536 <= N.of_nat (length c))%N) \/ exists b, check_lines p s = Ok b /\ (JI s -> b = false).
Proof.
  induction p as [|ln p IH]; intros s HR; cbn [check_lines].
  { right. right. exists (empt (k_d s)). split; auto. intros J. apply (j_e _ J). }
  assert (HI : forall s', RI s' -> nv (k_d s') = nv (k_d s) -> (JI s -> JI s') ->
    (check_lines p s' = Err UB /\ exists ln' l, In ln' (ln :: p) /\ In l (line_lits ln') /\ nv (k_d s) <= lvar l) \/
    (check_lines p s' = Err TooLong /\ exists c, In (CAdd c) (ln :: p) /\ (65536 <= N.of_nat (length c))%N) \/ exists b, check_lines p s' = Ok b /\ (JI s -> b = false)).
  { intros s' HR' HN HJ. destruct (IH s' HR') as [(E & ln' & l & H1 & H2 & H3)|[(E & c & H1 & H2)|(b & E & HB)]].
    - left. split; auto. exists ln', l. rewrite <- HN. cbn; auto.
    - right. left. split; auto. exists c. cbn; auto.
    - right. right. exists b. auto. }
  destruct ln as [c|c].
  - destruct (add_known c s) as [HV|(E & l & Hl & Hv)].
    2:{ left. rewrite E. split; auto. exists (CAdd c), l. cbn; auto. }
    destruct (add_spec c s HR HV) as [(E & EL)|(b & s' & E & HR' & HN & HJ)]; rewrite E; cbn [bind].
    + right. left. split; auto. exists c. cbn; auto.
    + destruct b; [|right; right; exists false; auto]. apply HI; auto.
  - destruct (remove_spec c s HR) as [(E & l & Hl & Hv)|(s' & E & HR' & HN & HJ)]; rewrite E; cbn [bind].
    + left. split; auto. exists (CDel c), l. cbn; auto.
    + apply HI; auto.
Qed.
Lemma create_all_err cs : forall lem d e, create_all cs lem d = Err e -> e = TooLong /\ exists c, In c cs /\ (65536 <= N.of_nat (length c))%N.
Proof.
  induction cs as [|c cs IH]; intros lem d e H; cbn [create_all] in H; [discriminate|]. unfold createClause in H. destruct (N.leb_spec 65536 (N.of_nat (length c))) as [HL|HL]; cbn [bind] in H.
  - injection H as <-. split; auto. exists c. cbn; auto.
  - destruct (IH _ _ _ H) as (A & c' & B & C). split; auto. exists c'. cbn; auto.
Qed.
Lemma check_sound n cs p : (forall c l, In c cs -> In l c -> lvar l < n) -> check_proof n cs p = Ok true -> unsat cs.
Proof.
  intros HV H x HX. unfold check_proof in H. destruct (new_spec n cs HV) as [(e & E & _)|(s & E & HR & HN & HE & HJ)]; rewrite E in H; cbn [bind] in H; [discriminate|].
  assert (HS : satisfiable cs) by (exists x; auto). specialize (HJ HS). rewrite (j_e _ HJ) in H. destruct (lines_spec p s HR) as [(E' & _)|[(E' & _)|(b & E' & HB)]]; rewrite E' in H; try discriminate. injection H as ->. specialize (HB HJ). discriminate.
Qed.
Lemma check_defined n cs p : (forall c l, In c cs -> In l c -> lvar l < n) -> (forall ln l, In ln p -> In l (line_lits ln) -> lvar l < n) ->
  (forall c, In c cs \/ In (CAdd c) p -> (N.of_nat (length c) < 65536)%N) -> exists b, check_proof n cs p = Ok b.
Proof.
  intros HV HP HL. unfold check_proof. destruct (new_spec n cs HV) as [(e & E & E2)|(s & E & HR & HN & HE & HJ)]; rewrite E; cbn [bind].
  - exfalso. unfold db_init in E2. apply create_all_err in E2. destruct E2 as (-> & c & Hc & H). assert (X := HL c (or_introl Hc)). apply N.lt_nge in X. auto.
  - destruct (empt (k_d s)); eauto. destruct (lines_spec p s HR) as [(E' & ln & l & H1 & H2 & H3)|[(E' & c & H1 & H2)|(b & E' & HB)]]; eauto.
    + exfalso. assert (X := HP ln l H1 H2). rewrite HN in H3. lia.
    + exfalso. assert (X := HL c (or_intror H1)). apply N.lt_nge in X. auto.
Qed.
