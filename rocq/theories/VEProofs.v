(** Variable elimination. *)
Require Import List Arith Bool NArith Permutation Lia.
From Coq Require Import ZifyBool ZifyNat ZifyN.
Require Import Verif.Base Verif.CNFModel Verif.CNFProofs Verif.Outcome Verif.TrailModel Verif.TrailProofs Verif.DbModel Verif.PropModel Verif.PropProofs Verif.DbProofs
  Verif.SimpModel Verif.SubsProofs Verif.SimpProofs Verif.TrailSpec Verif.TrailLemmas.
Import ListNotations.

(** ** Resolvents *)
Definition lone (v : var) (ps : list lit) (q : lit) : bool :=
  negb (lvar q =? v) && negb (existsb (fun p => lvar p =? lvar q) ps).

Lemma find_var ps q : NoDup (map lvar ps) ->
  match find (fun p => lvar p =? lvar q) ps with
  | None => existsb (fun p => lvar p =? lvar q) ps = false
  | Some p => existsb (fun p => lvar p =? lvar q) ps = true /\ In p ps /\ (p = q \/ p = lneg q) /\ (p = lneg q \/ ~ In (lneg q) ps)
  end.
Proof.
  intros Hn. destruct (find _ ps) as [p|] eqn:E.
  - apply find_some in E. destruct E as [E1 E2]. split; [apply existsb_exists; eauto|]. split; auto.
    apply Nat.eqb_eq in E2. assert (H : p = q \/ p = lneg q) by (apply same_var; auto). split; auto.
    destruct H as [->| ->]; auto. right. intros Hi. apply (nodup_no_compl ps q); auto.
  - apply not_true_is_false. intros H. apply existsb_exists in H. destruct H as (p & P1 & P2).
    pose proof (find_none _ _ E p P1) as HH. simpl in HH. congruence.
Qed.

Lemma lneg_neq_l x : x =? lneg x = false.
Proof. apply Nat.eqb_neq. intros H. apply (lneg_neq x). auto. Qed.

Lemma merge_q_spec v ps : NoDup (map lvar ps) -> forall qs acc,
  match merge_q v ps qs acc with
  | None => exists x, In x qs /\ In (lneg x) ps /\ lvar x <> v
  | Some r => r = acc ++ filter (lone v ps) qs /\ forall q, In q qs -> lvar q <> v -> ~ In (lneg q) ps
  end.
Proof.
  intros Hn. induction qs as [|q r IH]; intros acc; cbn [merge_q].
  - cbn [filter]. rewrite app_nil_r. split; [reflexivity|intros ? []].
  - cbn [filter]. unfold lone at 1. destruct (Nat.eqb_spec (lvar q) v) as [Ev|Ev]; cbn [negb andb].
    + specialize (IH acc). destruct (merge_q v ps r acc).
      * destruct IH as [-> H]. split; auto. intros x [<-|Hx]; [congruence|auto].
      * destruct IH as (x & X1 & X2). exists x. split; simpl; auto.
    + pose proof (find_var ps q Hn) as HF. destruct (find (fun p => lvar p =? lvar q) ps) as [p|].
      * destruct HF as (-> & F2 & F3 & F4). cbn [negb]. destruct (Nat.eqb_spec p (lneg q)) as [->|Hp].
        -- exists q. simpl. auto.
        -- specialize (IH acc). destruct (merge_q v ps r acc).
           ++ destruct IH as [-> H]. split; auto. intros x [<-|Hx]; auto. intros _. destruct F4; [contradiction|auto].
           ++ destruct IH as (x & X1 & X2). exists x. split; simpl; auto.
      * rewrite HF. cbn [negb]. specialize (IH (acc ++ [q])). destruct (merge_q v ps r (acc ++ [q])).
        -- destruct IH as [-> H]. rewrite <- app_assoc. split; auto. intros x [<-|Hx]; auto. intros _ Hi.
           assert (Ht : existsb (fun p => lvar p =? lvar q) ps = true).
           { apply existsb_exists. exists (lneg q). split; auto. rewrite lvar_neg. apply Nat.eqb_refl. }
           congruence.
        -- destruct IH as (x & X1 & X2). exists x. split; simpl; auto.
Qed.

Lemma merge_size_q_spec v ps qs : forall n acc, length acc = n ->
  merge_size_q v ps qs n = option_map (@length lit) (merge_q v ps qs acc).
Proof.
  induction qs as [|q r IH]; intros n acc H; cbn [merge_q merge_size_q].
  - cbn. auto.
  - destruct (lvar q =? v); auto. destruct (find _ ps) as [p|]; [destruct (p =? lneg q); auto|].
    apply IH. rewrite app_length. simpl. lia.
Qed.
Lemma merge_size_q_shift v ps qs : forall n k, merge_size_q v ps qs (n + k) = option_map (fun m => m + k) (merge_size_q v ps qs n).
Proof.
  induction qs as [|q r IH]; intros n k; cbn [merge_size_q]; auto.
  destruct (lvar q =? v); auto. destruct (find _ ps) as [p|]; [destruct (p =? lneg q); auto|]. apply (IH (S n)).
Qed.

Lemma NoDup_map_filter {A B} (f : A -> B) g l : NoDup (map f l) -> NoDup (map f (filter g l)).
Proof.
  induction l as [|x r IH]; simpl; auto. intros H. inversion H; subst. destruct (g x); simpl; auto. constructor; auto.
  intros Hi. apply in_map_iff in Hi. destruct Hi as (y & Ey & Hy). apply filter_In in Hy. apply H2. rewrite <- Ey. apply in_map, Hy.
Qed.

Definition resolves (v : var) (ps qs : list lit) : Prop :=
  NoDup (map lvar ps) /\ NoDup (map lvar qs) /\ In (mkLit v false) ps /\ In (mkLit v true) qs.

Lemma merge_some ps qs v ls : resolves v ps qs -> merge ps qs v = Some ls ->
  (forall x, In x ls <-> (In x ps \/ In x qs) /\ lvar x <> v) /\ NoDup (map lvar ls).
Proof.
  intros (Hp & Hq & _ & _) E. unfold merge in E.
  assert (G : forall ps qs, NoDup (map lvar ps) -> NoDup (map lvar qs) ->
     match merge_q v ps qs [] with None => None | Some acc => Some (acc ++ filter (fun p => negb (lvar p =? v)) ps) end = Some ls ->
     (forall x, In x ls <-> (In x ps \/ In x qs) /\ lvar x <> v) /\ NoDup (map lvar ls)).
  { clear. intros ps qs Hp Hq E. pose proof (merge_q_spec v ps Hp qs []) as H. destruct (merge_q v ps qs []) as [acc|]; [|discriminate].
    destruct H as [-> H]. cbn [app] in E. inversion E; subst ls. clear E. split.
    - intros x. rewrite in_app_iff, !filter_In, negb_true_iff, Nat.eqb_neq. unfold lone. rewrite andb_true_iff, !negb_true_iff, Nat.eqb_neq.
      split; [tauto|]. intros [[Hx|Hx] Hv]; auto.
      pose proof (find_var ps x Hp) as HF. destruct (find (fun p => lvar p =? lvar x) ps) as [p|].
      + destruct HF as (_ & F2 & F3 & F4). destruct F3 as [->| ->]; auto. exfalso. apply (H x); auto.
      + left. auto.
    - rewrite map_app.
      assert (N1 : NoDup (map lvar (filter (lone v ps) qs))) by (apply NoDup_map_filter; auto).
      assert (N2 : NoDup (map lvar (filter (fun p => negb (lvar p =? v)) ps))) by (apply NoDup_map_filter; auto).
      assert (N3 : forall u, In u (map lvar (filter (lone v ps) qs)) -> ~ In u (map lvar (filter (fun p => negb (lvar p =? v)) ps))).
      { intros u Hu Hu'. apply in_map_iff in Hu. destruct Hu as (x & <- & Hx). apply in_map_iff in Hu'. destruct Hu' as (y & Ey & Hy).
        apply filter_In in Hx. apply filter_In in Hy. destruct Hx as [_ Hx]. unfold lone in Hx. apply andb_true_iff in Hx. destruct Hx as [_ Hx].
        apply negb_true_iff in Hx. assert (Ht : existsb (fun p => lvar p =? lvar x) ps = true).
        { apply existsb_exists. exists y. split; [apply Hy|]. apply Nat.eqb_eq. auto. }
        congruence. }
      revert N1 N2 N3. generalize (map lvar (filter (lone v ps) qs)) (map lvar (filter (fun p => negb (lvar p =? v)) ps)). clear.
      induction l as [|a r IH]; simpl; auto. intros m N1 N2 N3. inversion N1; subst. constructor.
      + rewrite in_app_iff. intros [Hi|Hi]; auto. apply (N3 a); auto.
      + apply IH; auto. }
  destruct (length ps <? length qs).
  - destruct (G qs ps Hq Hp E) as [G1 G2]. split; auto. intros x. rewrite G1. tauto.
  - apply (G ps qs Hp Hq E).
Qed.

Lemma merge_none ps qs v : resolves v ps qs -> merge ps qs v = None -> exists x, In x ps /\ In (lneg x) qs /\ lvar x <> v.
Proof.
  intros (Hp & Hq & _ & _) E. unfold merge in E. destruct (length ps <? length qs).
  - pose proof (merge_q_spec v qs Hq ps []) as H. destruct (merge_q v qs ps []); [discriminate|]. exact H.
  - pose proof (merge_q_spec v ps Hp qs []) as H. destruct (merge_q v ps qs []); [discriminate|].
    destruct H as (x & X1 & X2 & X3). exists (lneg x). rewrite lneg_invol, lvar_neg. auto.
Qed.

Lemma one_var v ls x : NoDup (map lvar ls) -> In x ls -> lvar x = v -> length (filter (fun p => negb (lvar p =? v)) ls) = length ls - 1.
Proof.
  induction ls as [|y r IH]; simpl; [tauto|]. intros Hn Hi Hv. inversion Hn as [|? ? Hy Hr]; subst.
  destruct (Nat.eqb_spec (lvar y) (lvar x)) as [E|E]; cbn [negb].
  - assert (H : filter (fun p => negb (lvar p =? lvar x)) r = r).
    { clear IH Hi. assert (Hx : ~ In (lvar x) (map lvar r)) by (rewrite <- E; auto). clear - Hx.
      induction r as [|z r IH]; simpl in *; auto. destruct (Nat.eqb_spec (lvar z) (lvar x)); cbn [negb]; [tauto|]. f_equal. apply IH. tauto. }
    rewrite H. lia.
  - destruct Hi as [->|Hi]; [congruence|]. cbn [length]. rewrite IH by auto. destruct r; simpl in *; [tauto|lia].
Qed.

Lemma merge_size_eq ps qs v : resolves v ps qs -> merge_size ps qs v = option_map (@length lit) (merge ps qs v).
Proof.
  intros (Hp & Hq & H1 & H2). unfold merge_size, merge.
  assert (G : forall ps qs x, NoDup (map lvar ps) -> In x ps -> lvar x = v ->
     merge_size_q v ps qs (length ps - 1) = option_map (@length lit)
       match merge_q v ps qs [] with None => None | Some acc => Some (acc ++ filter (fun p => negb (lvar p =? v)) ps) end).
  { clear. intros ps qs x Hn Hx Hv. change (length ps - 1) with (0 + (length ps - 1)). rewrite merge_size_q_shift.
    rewrite (merge_size_q_spec v ps qs 0 []) by auto. destruct (merge_q v ps qs []); cbn; auto. rewrite app_length.
    rewrite (one_var v ps x) by auto. auto. }
  destruct (length ps <? length qs).
  - apply (G qs ps (mkLit v true)); auto. apply lvar_mk.
  - apply (G ps qs (mkLit v false)); auto. apply lvar_mk.
Qed.

Lemma resolvent_sat v ps qs ls a : resolves v ps qs -> merge ps qs v = Some ls -> sat_clause a ps -> sat_clause a qs -> sat_clause a ls.
Proof.
  intros HR E (x & X1 & X2) (y & Y1 & Y2). destruct (merge_some _ _ _ _ HR E) as [M _].
  destruct (Nat.eq_dec (lvar x) v) as [Ex|Ex]; [destruct (Nat.eq_dec (lvar y) v) as [Ey|Ey]|].
  - exfalso. destruct HR as (Hp & Hq & H1 & H2).
    assert (x = mkLit v false) by (apply (nodup_var_neq ps); auto; rewrite lvar_mk; auto).
    assert (y = mkLit v true) by (apply (nodup_var_neq qs); auto; rewrite lvar_mk; auto). subst x y.
    change true with (negb false) in Y2. rewrite <- lneg_mk in Y2. apply lit_holds_neg in Y2. auto.
  - exists y. split; auto. apply M. auto.
  - exists x. split; auto. apply M. auto.
Qed.

(** ** Creating the resolvents *)
Record vgrow (n : nat) (d : db) (s : sdb) (d' : db) (s' : sdb) : Prop := {
  vg_SI : SI n d' s';
  vg_step : dstep d d';
  vg_w : forall i, i < length (subs s) -> wclause s' i = wclause s i;
  vg_wt : forall c, c < length (arena d) -> cwt d' c = cwt d c;
  vg_len : length (subs s) <= length (subs s');
  vg_new : forall i c, wclause s' i = Some c -> length (subs s) <= i -> length (arena d) <= c /\ LV d' c;
  vg_all : forall c, length (arena d) <= c < length (arena d') -> exists i, wclause s' i = Some c }.

Lemma vgrow_refl n d s : SI n d s -> vgrow n d s d s.
Proof.
  intros H. constructor; auto; [apply dstep_refl| |intros c Hc; lia]. intros i c Hi Hl. apply wclause_lt in Hi. lia.
Qed.
Lemma vgrow_trans n d s d1 s1 d2 s2 : vgrow n d s d1 s1 -> vgrow n d1 s1 d2 s2 -> vgrow n d s d2 s2.
Proof.
  intros [A1 A2 A3 A4 A5 A6 A7] [B1 B2 B3 B4 B5 B6 B7]. pose proof (ds_len _ _ A2). constructor; auto; try lia.
  - eapply dstep_trans; eauto.
  - intros i Hi. rewrite B3 by lia. auto.
  - intros c Hc. rewrite B4 by lia. auto.
  - intros i c Hi Hl. destruct (Nat.lt_ge_cases i (length (subs s1))) as [Hlt|Hge].
    + rewrite B3 in Hi by auto. destruct (A6 i c Hi Hl) as [C1 [C2 C3]]. split; auto.
      assert (c < length (arena d1)) by (eapply cls_lt; [apply A1|auto]).
      split; [apply (ds_cls _ _ B2); auto|]. unfold isDeleted. rewrite B4; auto.
    + destruct (B6 i c Hi Hge) as [C1 C2]. split; auto. lia.
  - intros c Hc. destruct (Nat.lt_ge_cases c (length (arena d1))) as [Hlt|Hge]; [|apply B7; lia].
    destruct (A7 c ltac:(lia)) as (i & Hi). exists i. rewrite B3; auto. eapply wclause_lt; eauto.
Qed.

Lemma sub_create_grow n ls lbd d s : SI n d s -> wfc n ls -> ls <> [] -> (N.of_nat (length ls) < 65536)%N ->
  (length ls < 3 \/ (lbd < 65535)%N) ->
  exists d', sub_create ls lbd d s = Ok (length (subs s), d', sub_add (length (arena d)) ls s) /\
    vgrow n d s d' (sub_add (length (arena d)) ls s) /\ length (arena d') = S (length (arena d)) /\
    clits d' (length (arena d)) = ls /\ LV d' (length (arena d)) /\ (lbd = 0%N -> cwt d' (length (arena d)) = 0%N).
Proof.
  intros H Hw Hne Hl Hb. destruct (sub_create_SI n ls lbd d s H Hw Hne Hl) as (d' & E & HI & HC & HS & Ew).
  exists d'. split; auto.
  assert (L1 : length (arena d') = S (length (arena d))).
  { destruct HC as (_ & _ & _ & (w & ->) & _). rewrite app_length; simpl; lia. }
  assert (HLV : LV d' (length (arena d))).
  { split; [apply (ds_cls _ _ HS); right; lia|]. unfold isDeleted. rewrite Ew. apply N.eqb_neq. unfold W_DELETED.
    destruct (Nat.ltb_spec (length ls) 3); [lia|]. destruct Hb as [Hb|Hb]; [lia|]. rewrite N.mod_small; lia. }
  split; [|split; [auto|split; [apply (clits_new _ _ _ _ HC)|split; [auto|]]]].
  - constructor; auto.
    + intros i Hi. rewrite wclause_add. destruct (Nat.eqb_spec i (length (subs s))); [lia|auto].
    + intros c Hc. apply (cwt_old _ _ _ _ _ HC Hc).
    + unfold sub_add; cbn [subs]. rewrite app_length; lia.
    + intros i c Hi Hge. rewrite wclause_add in Hi. destruct (Nat.eqb_spec i (length (subs s))).
      * inversion Hi; subst. auto.
      * apply wclause_lt in Hi. lia.
    + intros c Hc. exists (length (subs s)). rewrite wclause_add, Nat.eqb_refl. f_equal. lia.
  - intros ->. rewrite Ew. destruct (length ls <? 3); reflexivity.
Qed.

Definition res_pairs (v : var) (prs : list (nat * nat)) (d : db) (s : sdb) : Prop :=
  forall p q, In (p, q) prs -> exists cp cq, wclause s p = Some cp /\ wclause s q = Some cq /\
    resolves v (clits d cp) (clits d cq) /\ merge (clits d cp) (clits d cq) v <> Some [].
Definition res_long (v : var) (prs : list (nat * nat)) (d : db) (s : sdb) : Prop :=
  exists p q cp cq ls, In (p, q) prs /\ wclause s p = Some cp /\ wclause s q = Some cq /\
    merge (clits d cp) (clits d cq) v = Some ls /\ (65536 <= N.of_nat (length ls))%N.

Lemma create_res_spec n v prs : forall d s, SI n d s -> res_pairs v prs d s ->
  match create_res v prs d s with
  | Ok (d', s') => vgrow n d s d' s' /\ (forall P, WE P d s -> WE P d' s' /\ NE P d d') /\
      (forall p q cp cq ls, In (p, q) prs -> wclause s p = Some cp -> wclause s q = Some cq -> merge (clits d cp) (clits d cq) v = Some ls ->
         exists c', length (arena d) <= c' /\ LV d' c' /\ clits d' c' = ls /\ (cwt d cp = 0%N \/ cwt d cq = 0%N -> cwt d' c' = 0%N)) /\
      (forall c' l, length (arena d) <= c' < length (arena d') -> In l (clits d' c') ->
         lvar l <> v /\ exists i c l', wclause s i = Some c /\ In l' (clits d c) /\ lvar l' = lvar l)
  | Err e => e = TooLong /\ res_long v prs d s
  end.
Proof.
  induction prs as [|[p q] r IH]; intros d s H HR; cbn [create_res].
  - split; [apply vgrow_refl; auto|]. split; [intros P HW; split; [auto|apply NE_refl]|]. split; [intros ? ? ? ? ? []|]. intros c' l Hc. lia.
  - destruct (HR p q (or_introl eq_refl)) as (cp & cq & Ep & Eq & HRes & Hne). rewrite Ep, Eq.
    assert (Hold : forall i c, wclause s i = Some c -> c < length (arena d)).
    { intros i c Hi. eapply cls_lt; [apply H|]. apply (s_cls _ _ _ H i c Hi). }
    destruct (merge (clits d cp) (clits d cq) v) as [ls|] eqn:Em.
    + destruct (N.ltb_spec (N.of_nat (length ls)) 65536) as [Hl|Hl].
      2: { unfold sub_create, createClause. apply N.leb_le in Hl. rewrite Hl. cbn [bind]. split; auto.
           apply N.leb_le in Hl. exists p, q, cp, cq, ls. simpl. auto. }
      destruct (merge_some _ _ _ _ HRes Em) as [M1 M2].
      assert (Hw : wfc n ls).
      { split; auto. intros l Hin. apply M1 in Hin. destruct Hin as [[Hin|Hin] _].
        - apply (di_WFA _ _ (s_D _ _ _ H) cp). auto.
        - apply (di_WFA _ _ (s_D _ _ _ H) cq). auto. }
      set (lbd := N.min (cwt d cp) (N.min (cwt d cq) (N.of_nat (length ls - 1) mod 65536))).
      destruct (sub_create_grow n ls lbd d s H Hw) as (d1 & E1 & HG & L1 & Hlits & HLV & Hw0); auto.
      { congruence. }
      { destruct (Nat.ltb_spec (length ls) 3); auto. right. unfold lbd. rewrite (N.mod_small (N.of_nat _)) by lia. lia. }
      rewrite E1. cbn [bind]. set (s1 := sub_add (length (arena d)) ls s) in *.
      assert (Hls : forall i c, wclause s i = Some c -> wclause s1 i = Some c /\ clits d1 c = clits d c /\ cwt d1 c = cwt d c).
      { intros i c Hi. split; [rewrite (vg_w _ _ _ _ _ HG); auto; eapply wclause_lt; eauto|].
        split; [apply (ds_lits _ _ (vg_step _ _ _ _ _ HG))|apply (vg_wt _ _ _ _ _ HG)]; eauto. }
      specialize (IH d1 s1 (vg_SI _ _ _ _ _ HG)).
      assert (HR1 : res_pairs v r d1 s1).
      { intros p' q' Hin. destruct (HR p' q' (or_intror Hin)) as (cp' & cq' & P1 & P2 & P3 & P4).
        destruct (Hls _ _ P1) as (Q1 & Q2 & _). destruct (Hls _ _ P2) as (Q3 & Q4 & _). exists cp', cq'. rewrite Q2, Q4. auto. }
      specialize (IH HR1). destruct (create_res v r d1 s1) as [[d' s']|e].
      * destruct IH as (G1 & G2 & G3 & G4). split; [eapply vgrow_trans; eauto|]. split; [|split].
        -- intros P HW. assert (HN1 : NE P d d1).
           { intros x a Hx Ha. rewrite L1 in Hx. assert (x = length (arena d)) by lia. subst x. rewrite Hlits.
             apply (resolvent_sat v (clits d cp) (clits d cq)); auto; [apply (HW p)|apply (HW q)]; auto. }
           assert (HW1 : WE P d1 s1).
           { intros i c a Hi Ha. unfold s1 in Hi. rewrite wclause_add in Hi. destruct (Nat.eqb_spec i (length (subs s))).
             - inversion Hi; subst c. apply HN1; auto. lia.
             - destruct (Hls _ _ Hi) as (_ & -> & _). apply (HW i); auto. }
           destruct (G2 P HW1) as [G5 G6]. split; auto. eapply NE_trans; eauto. apply G1.
        -- intros p' q' cp' cq' ls' Hin P1 P2 P3. destruct Hin as [Hin|Hin].
           ++ inversion Hin; subst p' q'. rewrite P1 in Ep. inversion Ep; subst cp'. rewrite P2 in Eq. inversion Eq; subst cq'.
              rewrite P3 in Em. inversion Em; subst ls'. exists (length (arena d)). split; auto.
              assert (Hlt : length (arena d) < length (arena d1)) by lia.
              split; [|split].
              ** destruct HLV as [V1 V2]. split; [apply (ds_cls _ _ (vg_step _ _ _ _ _ G1)); auto|]. unfold isDeleted. rewrite (vg_wt _ _ _ _ _ G1); auto.
              ** rewrite (ds_lits _ _ (vg_step _ _ _ _ _ G1)); auto.
              ** intros Hz. rewrite (vg_wt _ _ _ _ _ G1) by auto. apply Hw0. unfold lbd. destruct Hz as [-> | ->]; lia.
           ++ destruct (Hls _ _ P1) as (Q1 & Q2 & Q3). destruct (Hls _ _ P2) as (Q4 & Q5 & Q6).
              destruct (G3 p' q' cp' cq' ls' Hin Q1 Q4) as (c' & C1 & C2 & C3 & C4); [rewrite Q2, Q5; auto|].
              exists c'. split; [lia|]. split; auto. split; auto. rewrite <- Q3, <- Q6. auto.
        -- intros c' l Hc Hl'. destruct (Nat.lt_ge_cases c' (length (arena d1))) as [Hlt|Hge].
           ++ assert (c' = length (arena d)) by lia. subst c'. rewrite (ds_lits _ _ (vg_step _ _ _ _ _ G1)), Hlits in Hl' by auto.
              apply M1 in Hl'. destruct Hl' as [[Hl'|Hl'] Hv]; split; auto; [exists p, cp, l|exists q, cq, l]; auto.
           ++ destruct (G4 c' l (conj Hge (proj2 Hc)) Hl') as [V1 (i & c & l' & I1 & I2 & I3)]. split; auto.
              unfold s1 in I1. rewrite wclause_add in I1. destruct (Nat.eqb_spec i (length (subs s))).
              ** inversion I1; subst c. rewrite Hlits in I2. apply M1 in I2. destruct I2 as [[I2|I2] _]; [exists p, cp, l'|exists q, cq, l']; auto.
              ** destruct (Hls _ _ I1) as (_ & Q2 & _). rewrite Q2 in I2. eauto 6.
      * destruct IH as [-> (p' & q' & cp' & cq' & ls' & I1 & I2 & I3 & I4 & I5)]. split; auto.
        destruct (HR p' q' (or_intror I1)) as (cp2 & cq2 & P1 & P2 & P3 & P4).
        destruct (Hls _ _ P1) as (Q1 & Q2 & Q3). destruct (Hls _ _ P2) as (Q4 & Q5 & Q6). rewrite I2 in Q1. inversion Q1; subst cp2.
        rewrite I3 in Q4. inversion Q4; subst cq2. rewrite Q2, Q5 in I4. exists p', q', cp', cq', ls'. simpl. auto.
    + specialize (IH d s H). assert (HR1 : res_pairs v r d s) by (intros p' q' Hin; apply HR; simpl; auto).
      specialize (IH HR1). destruct (create_res v r d s) as [[d' s']|e].
      * destruct IH as (G1 & G2 & G3 & G4). split; auto. split; auto. split; auto.
        intros p' q' cp' cq' ls' [Hin|Hin] P1 P2 P3; [|eauto].
        inversion Hin; subst p' q'. congruence.
      * destruct IH as [-> (p' & q' & cp' & cq' & ls' & I1 & I2)]. split; auto. exists p', q', cp', cq', ls'. simpl. tauto.
Qed.

(** ** Removing the clauses of the variable *)
Lemma remove_all_spec n is : forall d s, SI n d s -> NoDup is -> (forall i, In i is -> live s i = true) ->
  exists d' s', remove_all is d s = Ok (d', s') /\ SI n d' s' /\ dstep d d' /\ length (arena d') = length (arena d) /\
    length (subs s') = length (subs s) /\
    (forall i, wclause s' i = if existsb (Nat.eqb i) is then None else wclause s i) /\
    (forall c, (exists i, In i is /\ wclause s i = Some c) \/ cwt d' c = cwt d c) /\
    (SL d s -> forall i c, In i is -> wclause s i = Some c -> isDeleted d' c = true).
Proof.
  induction is as [|i r IH]; intros d s H Hn Hl; cbn [remove_all].
  - exists d, s. split; [reflexivity|]. split; auto. split; [apply dstep_refl|]. simpl. split; [auto|]. split; [auto|]. split; [auto|].
    split; [auto|]. intros _ i c [].
  - inversion Hn as [|? ? Hir Hnr]; subst. destruct (live_some _ _ (Hl i (or_introl eq_refl))) as (c & Ec).
    destruct (sub_remove_SI n i c d s H Ec) as (E & HI & HS). rewrite E. cbn [bind].
    assert (Hca : c < length (arena d)) by (eapply cls_lt; [apply H|]; apply (s_cls _ _ _ H i c Ec)).
    destruct (IH (removeClause c d) (srem i s) HI Hnr) as (d' & s' & E' & HI' & HS' & L' & LS' & HW' & HT' & HD').
    { intros j Hj. unfold live. rewrite (wclause_srem s i c) by auto. destruct (Nat.eqb_spec j i) as [->|]; [contradiction|].
      apply (Hl j). simpl; auto. }
    exists d', s'. split; auto. split; auto. split; [eapply dstep_trans; eauto|]. split; [rewrite L'; apply arena_len_remove|].
    split; [rewrite LS'; unfold srem; cbn [subs]; apply set_nth_length|]. split; [|split].
    + intros j. rewrite HW', (wclause_srem s i c) by auto. simpl. destruct (Nat.eqb_spec j i); simpl; auto. destruct (existsb _ r); auto.
    + intros x. destruct (HT' x) as [(j & J1 & J2)|J].
      * rewrite (wclause_srem s i c) in J2 by auto. destruct (j =? i); [discriminate|]. left. exists j. simpl; auto.
      * rewrite J. rewrite cwt_remove by auto. destruct (Nat.eqb_spec x c) as [->|]; auto. left. exists i. simpl; auto.
    + intros HL j x [<-|Hj] Hx.
      * rewrite Ec in Hx. inversion Hx; subst x. destruct (ds_wt _ _ HS' c) as [Ed|Ed]; [rewrite arena_len_remove; auto| |].
        -- unfold isDeleted. rewrite Ed, cwt_remove, Nat.eqb_refl by auto. reflexivity.
        -- unfold isDeleted. rewrite Ed. reflexivity.
      * apply (HD' (sub_remove_SL n i c d s H HL Ec) j x Hj). rewrite (wclause_srem s i c) by auto.
        destruct (Nat.eqb_spec j i) as [->|]; [contradiction|auto].
Qed.

(** ** Counting *)
Lemma count_res_spec v bound lim : forall prs k,
  match count_res v bound lim k prs with
  | RcEmpty => exists p q, In (p, q) prs /\ merge_size p q v = Some 0
  | RcStop => True
  | RcGo => forall p q m, In (p, q) prs -> merge_size p q v = Some m -> m <> 0 /\ (lim = 0 \/ m <= lim)
  end.
Proof.
  induction prs as [|[p q] r IH]; intros k; cbn [count_res].
  - intros ? ? ? [].
  - destruct (merge_size p q v) as [[|m]|] eqn:Em.
    + exists p, q. simpl. auto.
    + destruct ((bound <? S k) || ((0 <? lim) && (lim <? S m))) eqn:Es; auto.
      specialize (IH (S k)). destruct (count_res v bound lim (S k) r); auto.
      * destruct IH as (p' & q' & I1 & I2). exists p', q'. simpl. auto.
      * intros p' q' m' [E|Hin] Hm; [|apply (IH p' q'); auto]. inversion E; subst. rewrite Em in Hm. inversion Hm; subst.
        split; [lia|]. apply orb_false_iff in Es. destruct Es as [_ Es]. apply andb_false_iff in Es.
        destruct Es as [Es|Es]; [apply Nat.ltb_ge in Es|apply Nat.ltb_ge in Es]; lia.
    + specialize (IH k). destruct (count_res v bound lim k r); auto.
      * destruct IH as (p' & q' & I1 & I2). exists p', q'. simpl. auto.
      * intros p' q' m' [E|Hin] Hm; [|apply (IH p' q'); auto]. inversion E; subst. congruence.
Qed.

(** ** Trails as assignments *)
Record TV (n : nat) (t : trail_t) : Prop := {
  tv_n : nvt t = n;
  tv_asg : length (asg t) = n;
  tv_nodup : NoDup (map lvar (tr t));
  tv_range : forall l, In l (tr t) -> lvar l < n;
  tv_val : forall l, value t l = Some true <-> In l (tr t) }.

Lemma TI_TV t : TI t -> TV (nvt t) t.
Proof. intros H. constructor; auto; apply H. Qed.

Lemma vvalue_value t l : vvalue t (lvar l) = None <-> value t l = None.
Proof. unfold value. destruct (vvalue t (lvar l)); simpl; split; congruence. Qed.

Lemma TV_set n l t : TV n t -> lvar l < n -> vvalue t (lvar l) = None ->
  exists t', set_value l t = Ok t' /\ TV n t' /\
    (forall m, value t' m = if lvar m =? lvar l then Some (Bool.eqb (lsign m) (lsign l)) else value t m) /\
    dec t' = dec t /\ lim t' = lim t /\ tr t' = tr t ++ [l].
Proof.
  intros H Hl Hv. assert (Hnot : ~ In (lvar l) (map lvar (tr t))).
  { intros Hi. apply in_map_iff in Hi. destruct Hi as (m & Em & Hm). apply (tv_val _ _ H) in Hm. unfold value in Hm.
    rewrite Em, Hv in Hm. discriminate. }
  assert (Hroom : length (tr t) < nvt t).
  { rewrite (tv_n _ _ H). assert (HH : length (map lvar (l :: tr t)) <= n).
    { apply nodup_bounded_length.
      - simpl. constructor; auto. apply H.
      - intros x Hx. simpl in Hx. destruct Hx as [<-|Hx]; auto. apply in_map_iff in Hx. destruct Hx as (m & <- & Hm). apply H; auto. }
    rewrite map_length in HH. simpl in HH. lia. }
  unfold set_value. apply Nat.ltb_lt in Hroom. rewrite Hroom. eexists. split; [reflexivity|].
  assert (HV : forall m, value {| nvt := nvt t; asg := set_nth (lvar l) (Some (negb (lsign l))) (asg t); vd := vd t; tr := tr t ++ [l];
                 qh := qh t; lim := lim t; dec := dec t; assum := assum t |} m =
     if lvar m =? lvar l then Some (Bool.eqb (lsign m) (lsign l)) else value t m).
  { intros m. unfold value, vvalue; cbn [asg]. rewrite nth_set_nth. rewrite (tv_asg _ _ H). apply Nat.ltb_lt in Hl. rewrite Hl, andb_true_r.
    destruct (lvar m =? lvar l); auto. simpl. destruct (lsign m), (lsign l); reflexivity. }
  split; [|split; auto].
  constructor; cbn [nvt asg tr]; auto; try apply H.
  - rewrite set_nth_length. apply H.
  - rewrite map_app. apply NoDup_app_one; auto. apply H.
  - intros m Hm. apply in_app_iff in Hm. destruct Hm as [Hm|[<-|[]]]; auto. apply H; auto.
  - intros m. rewrite HV, in_app_iff. cbn [In]. destruct (Nat.eqb_spec (lvar m) (lvar l)) as [E|E].
    + destruct (same_var _ _ E) as [->| ->].
      * rewrite eqb_reflx. tauto.
      * rewrite lsign_neg. split.
        -- destruct (lsign l); discriminate.
        -- intros [Hm|[Hm|[]]].
           ++ exfalso. apply Hnot. rewrite <- lvar_neg. apply in_map; auto.
           ++ exfalso. apply (lneg_neq l). auto.
    + rewrite (tv_val _ _ H). split; auto. intros [?|[->|[]]]; auto. congruence.
Qed.

Lemma mine_one v c l : NoDup (map lvar c) -> In l c -> lvar l = v -> filter (fun x => lvar x =? v) c = [l].
Proof.
  induction c as [|x r IH]; simpl; [tauto|]. intros Hn Hi Hv. inversion Hn as [|? ? Hx Hr]; subst.
  destruct (Nat.eqb_spec (lvar x) (lvar l)) as [E|E].
  - assert (Hnil : filter (fun x => lvar x =? lvar l) r = []).
    { assert (Hx' : ~ In (lvar l) (map lvar r)) by (rewrite <- E; auto). clear - Hx'. induction r as [|z r IH]; simpl in *; auto.
      destruct (Nat.eqb_spec (lvar z) (lvar l)); [tauto|]. apply IH. tauto. }
    rewrite Hnil. destruct Hi as [->|Hi]; auto. exfalso. apply Hx. rewrite E. apply in_map; auto.
  - destruct Hi as [->|Hi]; [congruence|]. auto.
Qed.

Lemma satisfies_any_true t ls : satisfies_any t ls = true <-> exists l, In l ls /\ value t l = Some true.
Proof.
  unfold satisfies_any. rewrite existsb_exists. split; intros (l & H1 & H2); exists l; split; auto.
  - destruct (value t l) as [[|]|]; simpl in H2; congruence.
  - rewrite H2. reflexivity.
Qed.
Lemma satisfies_any_false t ls l : satisfies_any t ls = false -> In l ls -> value t l <> Some true.
Proof.
  intros H Hi Hv. assert (satisfies_any t ls = true) by (apply satisfies_any_true; eauto). congruence.
Qed.

Lemma lit_eqb_sign m l : lvar m = lvar l -> Bool.eqb (lsign m) (lsign l) = (m =? l).
Proof.
  intros E. destruct (same_var _ _ E) as [->| ->].
  - rewrite eqb_reflx, Nat.eqb_refl. auto.
  - rewrite lsign_neg. destruct (Nat.eqb_spec (lneg l) l) as [H|H]; [destruct (lneg_neq l H)|]. destruct (lsign l); auto.
Qed.

Lemma prop_elim_var_spec n e v t : TV n t -> v < n -> vvalue t v = None -> nth v (ec e) [] <> [] ->
  (forall c, In c (nth v (ec e) []) -> NoDup (map lvar c) /\ exists l, In l c /\ lvar l = v) ->
  exists l t', lvar l = v /\ prop_elim_var e v t = Ok t' /\ TV n t' /\ dec t' = dec t /\ lim t' = lim t /\
    (forall m, value t' m = if lvar m =? v then Some (m =? l) else value t m) /\
    ((exists c, In c (nth v (ec e) []) /\ In l c /\ satisfies_any t c = false) \/
     (forall c, In c (nth v (ec e) []) -> satisfies_any t c = true)).
Proof.
  intros H Hv Hu Hne Hc. unfold prop_elim_var.
  assert (Hset : forall l, lvar l = v -> exists t', set_values [l] t = Ok t' /\ TV n t' /\ dec t' = dec t /\ lim t' = lim t /\
     forall m, value t' m = if lvar m =? v then Some (m =? l) else value t m).
  { intros l El. subst v. destruct (TV_set n l t H Hv Hu) as (t' & E & HT & HV & Hd & Hl & _). exists t'. cbn [set_values]. rewrite E. cbn [bind].
    split; auto. split; auto. split; auto. split; auto. intros m. rewrite HV. destruct (Nat.eqb_spec (lvar m) (lvar l)); auto. rewrite lit_eqb_sign; auto. }
  destruct (find (fun c => negb (satisfies_any t c)) (nth v (ec e) [])) as [c|] eqn:Ef.
  - apply find_some in Ef. destruct Ef as [F1 F2]. apply negb_true_iff in F2.
    destruct (Hc c F1) as (N1 & l & L1 & L2). rewrite (mine_one v c l) by auto.
    destruct (Hset l L2) as (t' & E & HT & Hd & Hl & HV). rewrite E. cbn [bind]. exists l, t'.
    split; auto. split; auto. split; auto. split; auto. split; auto. split; auto. left. eauto.
  - cbn [set_values bind]. destruct (nth v (ec e) []) as [|c r] eqn:En; [congruence|].
    destruct (Hc c (or_introl eq_refl)) as (N1 & l & L1 & L2). rewrite (mine_one v c l) by auto. cbn [map].
    destruct (Hset (lneg l)) as (t' & E & HT & Hd & Hl & HV); [rewrite lvar_neg; auto|]. rewrite E. exists (lneg l), t'.
    split; [rewrite lvar_neg; auto|]. split; auto. split; auto. split; auto. split; auto. split; auto. right. intros x Hx.
    pose proof (find_none _ _ Ef x Hx) as HF. simpl in HF. apply negb_false_iff in HF. auto.
Qed.

(** ** Eliminating one variable *)
(** the live clauses ([m] = false) or those of them that are never deleted ([m] = true) *)
Definition Kp (m : bool) (d : db) (c : cid) : Prop := LV d c /\ (m = true -> cwt d c = 0%N).

Definition recon1 (n : nat) (v : var) (saved : list clause) (d d' : db) (m : bool) : Prop :=
  forall e2 t2, nth v (ec e2) [] = saved -> TV n t2 -> vvalue t2 v = None ->
    (forall c l, In c saved -> In l c -> lvar l <> v -> vvalue t2 (lvar l) <> None) ->
    (forall c, Kp m d' c -> satisfies_any t2 (clits d' c) = true) ->
    exists t3, prop_elim_var e2 v t2 = Ok t3 /\ TV n t3 /\ (forall u, u <> v -> vvalue t3 u = vvalue t2 u) /\ vvalue t3 v <> None /\
      lim t3 = lim t2 /\ dec t3 = dec t2 /\
      (forall c, Kp m d c -> satisfies_any t3 (clits d c) = true).

Record elim1 (n : nat) (v : var) (rm : list nat) (saved : list clause) (d : db) (s : sdb) (d' : db) (s' : sdb) : Prop := {
  el_SI : SI n d' s';
  el_step : dstep d d';
  el_WE : forall P, WE P d s -> WE P d' s' /\ NE P d d';
  el_SL : SL d s -> SL d' s';
  el_len : length (subs s) <= length (subs s');
  el_old : forall i c, i < length (subs s) -> wclause s' i = Some c -> wclause s i = Some c /\ ~ In i rm;
  el_new : forall i c, length (subs s) <= i -> wclause s' i = Some c -> forall l, In l (clits d' c) ->
    lvar l <> v /\ exists j c0 l', wclause s j = Some c0 /\ In l' (clits d c0) /\ lvar l' = lvar l;
  el_saved : forall c, In c saved -> exists i x, In i rm /\ wclause s i = Some x /\ clits d x = c /\ exists l, In l c /\ lvar l = v;
  el_ne : saved <> [];
  el_keep : forall i c, wclause s i = Some c -> ~ In i rm -> wclause s' i = Some c;
  el_WR : forall X, SL d s -> WR X d s -> WR X d' s';
  el_recon : SL d s -> forall m, recon1 n v saved d d' m }.

Lemma vvalue_of_value t t' l v : lvar l = v -> (forall m, value t' m = if lvar m =? v then Some (m =? l) else value t m) ->
  (forall u, u <> v -> vvalue t' u = vvalue t u) /\ vvalue t' v <> None.
Proof.
  intros Hl H. assert (G : forall x u, vvalue x u = value x (mkLit u false)).
  { intros x u. unfold value. rewrite lvar_mk, lsign_mk. destruct (vvalue x u) as [[|]|]; reflexivity. }
  split.
  - intros u Hu. rewrite !G, H, lvar_mk. destruct (Nat.eqb_spec u v); [contradiction|auto].
  - rewrite G, H, lvar_mk, Nat.eqb_refl. discriminate.
Qed.

Lemma eliminate_var_spec n lim v pos neg d s e t : SI n d s -> v < n -> length (ec e) = n -> nth v (ec e) [] = [] ->
  NoDup pos -> NoDup neg ->
  (forall i, In i pos -> exists c, wclause s i = Some c /\ In (mkLit v false) (clits d c)) ->
  (forall i, In i neg -> exists c, wclause s i = Some c /\ In (mkLit v true) (clits d c)) ->
  match eliminate_var lim v pos neg d s e t with
  | Err er => er = TooLong /\ (lim = 0 \/ (65536 <= N.of_nat lim)%N)
  | Ok (b, k, d', s', e', t') =>
    if b then (k = 0 /\ d' = d /\ s' = s /\ e' = e /\ t' = t) \/
      (k = 1 /\ exists saved, elim1 n v (pos ++ neg) saved d s d' s' /\ e' = mkVE (ev e ++ [v]) (set_nth v saved (ec e)) (fz e) /\
         t' = setDecisionVar v false t)
    else d' = d /\ s' = s /\ e' = e /\ t' = t /\ forall P a, WE P d s -> ~ P a
  end.
Proof.
  intros H Hv Hec Hev Hnp Hnn Hp Hn. unfold eliminate_var.
  destruct ((length pos =? 0) && (length neg =? 0)) eqn:E0.
  { left. auto. }
  cbv zeta. set (prs := list_prod pos neg).
  assert (Hpr : forall p q, In (p, q) prs -> exists cp cq, wclause s p = Some cp /\ wclause s q = Some cq /\ resolves v (clits d cp) (clits d cq)).
  { intros p q Hin. apply in_prod_iff in Hin. destruct Hin as [Ip Iq]. destruct (Hp p Ip) as (cp & P1 & P2). destruct (Hn q Iq) as (cq & Q1 & Q2).
    exists cp, cq. split; auto. split; auto. split; [apply (di_WFA _ _ (s_D _ _ _ H) cp)|]. split; [apply (di_WFA _ _ (s_D _ _ _ H) cq)|]. auto. }
  pose proof (count_res_spec v (length pos + length neg) lim (map (fun x => (wlits d s (fst x), wlits d s (snd x))) prs) 0) as HC.
  destruct (count_res _ _ _ _ _).
  - (* an empty resolvent *)
    split; [auto|]. split; [auto|]. split; [auto|]. split; [auto|].
    destruct HC as (lp & lq & C1 & C2). apply in_map_iff in C1. destruct C1 as ([p q] & C1 & Hin). cbn [fst snd] in C1. inversion C1; subst lp lq.
    destruct (Hpr p q Hin) as (cp & cq & P1 & P2 & P3). unfold wlits in C2. rewrite P1, P2 in C2. rewrite merge_size_eq in C2 by auto.
    destruct (merge (clits d cp) (clits d cq) v) as [[|x r]|] eqn:Em; try discriminate.
    intros P a HW Ha. assert (S : sat_clause a []) by (apply (resolvent_sat v (clits d cp) (clits d cq)); auto; [apply (HW p)|apply (HW q)]; auto).
    destruct S as (x & [] & _).
  - left. auto.
  - assert (HR : res_pairs v prs d s).
    { intros p q Hin. destruct (Hpr p q Hin) as (cp & cq & P1 & P2 & P3). exists cp, cq. split; auto. split; auto. split; auto. intros Em.
      destruct (HC (wlits d s p) (wlits d s q) 0) as [C _]; [| |congruence].
      - apply in_map_iff. exists (p, q). auto.
      - unfold wlits. rewrite P1, P2, merge_size_eq, Em by auto. reflexivity. }
    pose proof (create_res_spec n v prs d s H HR) as HCr. destruct (create_res v prs d s) as [[d1 s1]|er]; cbn [bind].
    2: { destruct HCr as [-> (p & q & cp & cq & ls & L1 & L2 & L3 & L4 & L5)]. split; auto.
         destruct (Hpr p q L1) as (cp' & cq' & P1 & P2 & P3). rewrite L2 in P1. inversion P1; subst cp'. rewrite L3 in P2. inversion P2; subst cq'.
         destruct (HC (wlits d s p) (wlits d s q) (length ls)) as [_ C].
         - apply in_map_iff. exists (p, q). auto.
         - unfold wlits. rewrite L2, L3, merge_size_eq, L4 by auto. reflexivity.
         - destruct C; [auto|]. right. lia. }
    destruct HCr as (HG & HWE & HRes & HNew).
    assert (Hold : forall i c, wclause s i = Some c -> c < length (arena d)).
    { intros i c Hi. eapply cls_lt; [apply H|]. apply (s_cls _ _ _ H i c Hi). }
    assert (Hls : forall i c, wclause s i = Some c -> wclause s1 i = Some c /\ clits d1 c = clits d c /\ cwt d1 c = cwt d c).
    { intros i c Hi. split; [rewrite (vg_w _ _ _ _ _ HG); auto; eapply wclause_lt; eauto|].
      split; [apply (ds_lits _ _ (vg_step _ _ _ _ _ HG))|apply (vg_wt _ _ _ _ _ HG)]; eauto. }
    destruct (remove_all_spec n pos d1 s1 (vg_SI _ _ _ _ _ HG) Hnp) as (d2 & s2 & E2 & HI2 & HS2 & LA2 & LS2 & HW2 & HT2 & HD2).
    { intros i Hi. destruct (Hp i Hi) as (c & C1 & _). unfold live. destruct (Hls _ _ C1) as [-> _]. auto. }
    rewrite E2. cbn [bind].
    assert (Hdisj : forall i, In i pos -> In i neg -> False).
    { intros i I1 I2. destruct (Hp i I1) as (c & C1 & C2). destruct (Hn i I2) as (c' & C3 & C4). rewrite C1 in C3. inversion C3; subst c'.
      apply (nodup_no_compl (clits d c) (mkLit v false)); [apply (di_WFA _ _ (s_D _ _ _ H) c)|auto|rewrite lneg_mk; auto]. }
    destruct (remove_all_spec n neg d2 s2 HI2 Hnn) as (d3 & s3 & E3 & HI3 & HS3 & LA3 & LS3 & HW3 & HT3 & HD3).
    { intros i Hi. destruct (Hn i Hi) as (c & C1 & _). unfold live. rewrite HW2. destruct (existsb (Nat.eqb i) pos) eqn:Ee.
      - apply existsb_eqb_in in Ee. destruct (Hdisj i Ee Hi).
      - destruct (Hls _ _ C1) as [-> _]. auto. }
    rewrite E3. cbn [bind]. rewrite Hev. cbn [app].
    set (saved := map (wlits d s) neg ++ map (wlits d s) pos).
    right. split; auto. exists saved.
    assert (HinS : forall i c, In i (pos ++ neg) -> wclause s i = Some c -> In (clits d c) saved).
    { intros i c Hi Hw. unfold saved. apply in_app_iff. apply in_app_iff in Hi.
      assert (El : wlits d s i = clits d c) by (unfold wlits; rewrite Hw; auto). rewrite <- El.
      destruct Hi; [right|left]; apply in_map; auto. }
    assert (HSin : forall ls, In ls saved -> exists i c, In i (pos ++ neg) /\ wclause s i = Some c /\ clits d c = ls).
    { intros ls Hin. unfold saved in Hin. apply in_app_iff in Hin. destruct Hin as [Hin|Hin]; apply in_map_iff in Hin; destruct Hin as (i & Ei & Hi).
      - destruct (Hn i Hi) as (c & C1 & C2). exists i, c. split; [apply in_app_iff; auto|]. split; auto. unfold wlits in Ei. rewrite C1 in Ei. auto.
      - destruct (Hp i Hi) as (c & C1 & C2). exists i, c. split; [apply in_app_iff; auto|]. split; auto. unfold wlits in Ei. rewrite C1 in Ei. auto. }
    assert (HS13 : dstep d1 d3) by (eapply dstep_trans; eauto).
    assert (HS03 : dstep d d3) by (eapply dstep_trans; [apply HG|auto]).
    assert (HW : forall i, wclause s3 i = if existsb (Nat.eqb i) (pos ++ neg) then None else wclause s1 i).
    { intros i. rewrite HW3, HW2, existsb_app. destruct (existsb (Nat.eqb i) neg), (existsb (Nat.eqb i) pos); auto. }
    assert (HT : forall c, (exists i, In i (pos ++ neg) /\ wclause s i = Some c) \/ cwt d3 c = cwt d1 c).
    { assert (Hs1 : forall i c, In i (pos ++ neg) -> wclause s1 i = Some c -> wclause s i = Some c).
      { intros i c Hi Hw. apply in_app_iff in Hi. rewrite <- (vg_w _ _ _ _ _ HG i); auto.
        destruct Hi as [Hi|Hi]; [destruct (Hp i Hi) as (x & X & _)|destruct (Hn i Hi) as (x & X & _)]; eapply wclause_lt; eauto. }
      intros c. destruct (HT3 c) as [(i & I1 & I2)|I].
      - left. exists i. split; [apply in_app_iff; auto|]. rewrite HW2 in I2. destruct (existsb _ pos); [discriminate|]. apply Hs1; auto. apply in_app_iff; auto.
      - rewrite I. destruct (HT2 c) as [(i & I1 & I2)|I']; auto. left. exists i. split; [apply in_app_iff; auto|]. apply Hs1; auto. apply in_app_iff; auto. }
    assert (HTn : forall c, length (arena d) <= c -> cwt d3 c = cwt d1 c).
    { intros c Hc. destruct (HT c) as [(i & I1 & I2)|I]; auto. apply Hold in I2. lia. }
    assert (Hvar : forall i c, In i (pos ++ neg) -> wclause s i = Some c -> exists l, In l (clits d c) /\ lvar l = v).
    { intros i c Hi Hw. apply in_app_iff in Hi. destruct Hi as [Hi|Hi].
      - destruct (Hp i Hi) as (x & X1 & X2). rewrite Hw in X1. inversion X1; subst x. exists (mkLit v false). split; auto. apply lvar_mk.
      - destruct (Hn i Hi) as (x & X1 & X2). rewrite Hw in X1. inversion X1; subst x. exists (mkLit v true). split; auto. apply lvar_mk. }
    assert (HSL3 : SL d s -> SL d3 s3).
    { intros HL. constructor; [|apply HI3]. intros i c Hi. rewrite HW in Hi. destruct (existsb (Nat.eqb i) (pos ++ neg)) eqn:Ee; [discriminate|].
      assert (Hni : ~ In i (pos ++ neg)) by (rewrite <- existsb_eqb_in, Ee; discriminate).
      assert (Hd1 : isDeleted d1 c = false).
      { destruct (Nat.lt_ge_cases i (length (subs s))) as [Hlt|Hge].
        - rewrite (vg_w _ _ _ _ _ HG) in Hi by auto. unfold isDeleted. rewrite (vg_wt _ _ _ _ _ HG) by eauto. apply (sl_live _ _ HL i c Hi).
        - apply (vg_new _ _ _ _ _ HG i c Hi Hge). }
      destruct (HT c) as [(j & J1 & J2)|J]; [|unfold isDeleted in *; rewrite J; auto].
      exfalso. destruct (Hls _ _ J2) as [J3 _]. assert (i = j) by (eapply (s_inj _ _ _ (vg_SI _ _ _ _ _ HG)); eauto). subst. auto. }
    split; [|auto]. constructor; auto.
    + intros P HP. destruct (HWE P HP) as [G1 G2]. split.
      * intros i c a Hi Ha. rewrite HW in Hi. destruct (existsb (Nat.eqb i) (pos ++ neg)); [discriminate|].
        rewrite (ds_lits _ _ HS13); [apply (G1 i); auto|]. eapply cls_lt; [apply (vg_SI _ _ _ _ _ HG)|]. apply (s_cls _ _ _ (vg_SI _ _ _ _ _ HG) i c Hi).
      * eapply NE_trans; [exact HS13|exact G2|]. intros c a Hc. lia.
    + pose proof (vg_len _ _ _ _ _ HG). lia.
    + intros i c Hlt Hi. rewrite HW in Hi. destruct (existsb (Nat.eqb i) (pos ++ neg)) eqn:Ee; [discriminate|].
      rewrite (vg_w _ _ _ _ _ HG) in Hi by auto. split; auto. rewrite <- existsb_eqb_in, Ee. discriminate.
    + intros i c Hge Hi l Hl. rewrite HW in Hi. destruct (existsb (Nat.eqb i) (pos ++ neg)) eqn:Ee; [discriminate|].
      destruct (vg_new _ _ _ _ _ HG i c Hi Hge) as [C1 [C2 _]].
      assert (Hc1 : c < length (arena d1)) by (eapply cls_lt; [apply (vg_SI _ _ _ _ _ HG)|auto]).
      rewrite (ds_lits _ _ HS13) in Hl by auto. apply (HNew c l); auto.
    + intros c Hc. destruct (HSin c Hc) as (i & x & X1 & X2 & X3). exists i, x. split; auto. split; auto. split; auto. subst c. eapply Hvar; eauto.
    + intros E. unfold saved in E. apply app_eq_nil in E. destruct E as [E1 E4]. destruct pos; destruct neg; simpl in *; discriminate.
    + intros i c Hi Hni. rewrite HW. destruct (existsb (Nat.eqb i) (pos ++ neg)) eqn:Ee; [apply existsb_eqb_in in Ee; contradiction|]. apply Hls; auto.
    + intros X HL HX c [C1 C2].
      destruct (Nat.lt_ge_cases c (length (arena d))) as [Hlt|Hge].
      * assert (Hc0 : LV d c).
        { split; [apply (ds_cls _ _ HS03) in C1; destruct C1; auto; lia|]. unfold isDeleted in *.
          destruct (ds_wt _ _ HS03 c Hlt) as [Ed|Ed]; rewrite Ed in C2; [auto|discriminate]. }
        destruct (HX c Hc0) as [(i & Hi)|Hx]; auto. left. exists i. rewrite HW. destruct (existsb (Nat.eqb i) (pos ++ neg)) eqn:Ee; [|apply Hls; auto].
        exfalso. apply existsb_eqb_in in Ee. destruct (Hls _ _ Hi) as (Hi1 & _).
        assert (HL1 : SL d1 s1).
        { constructor; [|apply HG]. intros k x Hk. destruct (Nat.lt_ge_cases k (length (subs s))) as [Hkl|Hkg].
          - rewrite (vg_w _ _ _ _ _ HG) in Hk by auto. unfold isDeleted. rewrite (vg_wt _ _ _ _ _ HG) by eauto. apply (sl_live _ _ HL k x Hk).
          - apply (vg_new _ _ _ _ _ HG k x Hk Hkg). }
        assert (HL2 : SL d2 s2).
        { constructor; [|apply HI2]. intros k x Hk. rewrite HW2 in Hk. destruct (existsb (Nat.eqb k) pos) eqn:Ek; [discriminate|].
          destruct (HT2 x) as [(j & J1 & J2)|J]; [|unfold isDeleted; rewrite J; apply (sl_live _ _ HL1 k x Hk)].
          exfalso. assert (k = j) by (eapply (s_inj _ _ _ (vg_SI _ _ _ _ _ HG)); eauto). subst k. apply existsb_eqb_in in J1. congruence. }
        assert (Hmon : forall x, isDeleted d2 x = true -> x < length (arena d2) -> isDeleted d3 x = true).
        { intros x X1 X2. unfold isDeleted in *. destruct (ds_wt _ _ HS3 x X2) as [Ed|Ed]; rewrite Ed; auto. }
        apply in_app_iff in Ee. destruct Ee as [Ee|Ee].
        -- pose proof (HD2 HL1 i c Ee Hi1) as Hdel. rewrite Hmon in C2; auto; [discriminate|].
           pose proof (ds_len _ _ (vg_step _ _ _ _ _ HG)). lia.
        -- assert (Hi2 : wclause s2 i = Some c).
           { rewrite HW2. destruct (existsb (Nat.eqb i) pos) eqn:Ek; auto. apply existsb_eqb_in in Ek. destruct (Hdisj i Ek Ee). }
           rewrite (HD3 HL2 i c Ee Hi2) in C2. discriminate.
      * left. destruct (vg_all _ _ _ _ _ HG c) as (i & Hi).
        { apply (cls_lt _ _ _ (s_D _ _ _ HI3)) in C1. lia. }
        exists i. rewrite HW. destruct (existsb (Nat.eqb i) (pos ++ neg)) eqn:Ee; auto. exfalso.
        apply existsb_eqb_in in Ee. apply in_app_iff in Ee.
        assert (Hx : exists x, wclause s i = Some x) by (destruct Ee as [Ee|Ee]; [destruct (Hp i Ee) as (x & X1 & _)|destruct (Hn i Ee) as (x & X1 & _)]; eauto).
        destruct Hx as (x & Hx). destruct (Hls _ _ Hx) as (Hx1 & _). rewrite Hi in Hx1. inversion Hx1; subst x. apply Hold in Hx. lia.
    + intros HL m e2 t2 Ee Ht Hvu Hass Hsat.
      destruct (prop_elim_var_spec n e2 v t2 Ht Hv Hvu) as (l & t3 & L1 & L2 & L3 & Ld & Ll & L4 & L5).
      { rewrite Ee. intros E. unfold saved in E. apply app_eq_nil in E. destruct E as [E1 E4]. destruct pos; destruct neg; simpl in *; discriminate. }
      { rewrite Ee. intros c Hc. destruct (HSin c Hc) as (i & x & X1 & X2 & <-). split; [apply (di_WFA _ _ (s_D _ _ _ H) x)|eapply Hvar; eauto]. }
      rewrite Ee in L5. destruct (vvalue_of_value t2 t3 l v L1 L4) as [V1 V2].
      exists t3. split; auto. split; auto. split; auto. split; auto. split; auto. split; auto.
      assert (Hmono : forall ls, satisfies_any t2 ls = true -> satisfies_any t3 ls = true).
      { intros ls Hs. apply satisfies_any_true in Hs. destruct Hs as (y & Y1 & Y2). apply satisfies_any_true. exists y. split; auto.
        rewrite L4. destruct (Nat.eqb_spec (lvar y) v) as [Ey|]; auto. exfalso. unfold value in Y2. rewrite Ey, Hvu in Y2. discriminate. }
      intros c [HLVc Hm].
      assert (Hca : c < length (arena d)) by (eapply cls_lt; [apply H|apply HLVc]).
      destruct (HT c) as [(i & I1 & I2)|I].
      2: { apply Hmono. rewrite <- (ds_lits _ _ HS03) by auto. apply Hsat. rewrite (vg_wt _ _ _ _ _ HG) in I by auto.
           split; [split|]; [apply (ds_cls _ _ HS03); left; apply HLVc| |].
           - unfold isDeleted. rewrite I. apply HLVc.
           - rewrite I. auto. }
      pose proof (HinS i c I1 I2) as Hcs. destruct L5 as [(c0 & C1 & C2 & C3)|L5]; [|apply Hmono; auto].
      destruct (Hvar i c I1 I2) as (x & X1 & X2).
      destruct (same_var x l) as [Ex|Ex]; [congruence| |]; subst x.
      { apply satisfies_any_true. exists l. split; auto. rewrite L4, L1, Nat.eqb_refl, Nat.eqb_refl. auto. }
      destruct (HSin c0 C1) as (j & x0 & J1 & J2 & J3). subst c0.
      (* the clash resolves c0 and c *)
      assert (Hboth : exists p q cp cq, In (p, q) prs /\ wclause s p = Some cp /\ wclause s q = Some cq /\
                ((cp = c /\ cq = x0) \/ (cp = x0 /\ cq = c))).
      { assert (Hwf : forall y, NoDup (map lvar (clits d y))) by (intros y; apply (di_WFA _ _ (s_D _ _ _ H) y)).
        assert (Hpol : forall k y z, In k (pos ++ neg) -> wclause s k = Some y -> In z (clits d y) -> lvar z = v ->
           (lsign z = false -> In k pos) /\ (lsign z = true -> In k neg)).
        { intros k y z K1 K2 K3 K4. apply in_app_iff in K1. split; intros K5; destruct K1 as [K1|K1]; auto.
          - exfalso. destruct (Hn k K1) as (y' & Y1 & Y2). rewrite K2 in Y1. inversion Y1; subst y'.
            assert (z = mkLit v true) by (apply (nodup_var_neq (clits d y)); auto; rewrite lvar_mk; auto). subst z. rewrite lsign_mk in K5. discriminate.
          - exfalso. destruct (Hp k K1) as (y' & Y1 & Y2). rewrite K2 in Y1. inversion Y1; subst y'.
            assert (z = mkLit v false) by (apply (nodup_var_neq (clits d y)); auto; rewrite lvar_mk; auto). subst z. rewrite lsign_mk in K5. discriminate. }
        destruct (Hpol i c (lneg l) I1 I2 X1) as [Pi1 Pi2]; [auto|]. destruct (Hpol j x0 l J1 J2 C2 L1) as [Pj1 Pj2].
        rewrite lsign_neg in Pi1, Pi2. destruct (lsign l) eqn:El.
        - exists i, j, c, x0. split; [apply in_prod; auto|]. auto.
        - exists j, i, x0, c. split; [apply in_prod; auto|]. auto. }
      destruct Hboth as (p & q & cp & cq & B1 & B2 & B3 & B4).
      destruct (Hpr p q B1) as (cp' & cq' & B5 & B6 & B7). rewrite B2 in B5. inversion B5; subst cp'. rewrite B3 in B6. inversion B6; subst cq'.
      destruct (merge (clits d cp) (clits d cq) v) as [ls|] eqn:Em.
      * destruct (HRes p q cp cq ls B1 B2 B3 Em) as (c' & R1 & R2 & R3 & R4).
        assert (Hc'1 : c' < length (arena d1)) by (eapply cls_lt; [apply (vg_SI _ _ _ _ _ HG)|apply R2]).
        assert (Hs' : satisfies_any t2 ls = true).
        { rewrite <- R3, <- (ds_lits _ _ HS13) by auto. apply Hsat. split; [split|].
          - apply (ds_cls _ _ HS13). left. apply R2.
          - unfold isDeleted. rewrite HTn by auto. apply R2.
          - intros Em1. rewrite HTn by auto. apply R4. destruct B4 as [[-> _]|[_ ->]]; auto. }
        apply satisfies_any_true in Hs'. destruct Hs' as (z & Z1 & Z2). apply (merge_some _ _ _ _ B7 Em) in Z1. destruct Z1 as [Z1 Z3].
        apply Hmono. apply satisfies_any_true. exists z. split; auto.
        assert (Hz0 : ~ In z (clits d x0)) by (intros Hz; apply (satisfies_any_false _ _ z C3); auto).
        destruct B4 as [[-> ->]|[-> ->]]; tauto.
      * destruct (merge_none _ _ _ B7 Em) as (z & Z1 & Z2 & Z3).
        assert (Hz : exists y, In y (clits d x0) /\ In (lneg y) (clits d c) /\ lvar y <> v).
        { destruct B4 as [[-> ->]|[-> ->]].
          - exists (lneg z). rewrite lneg_invol, lvar_neg. auto.
          - exists z. auto. }
        destruct Hz as (y & Y1 & Y2 & Y3). apply Hmono. apply satisfies_any_true. exists (lneg y). split; auto. apply value_neg_true.
        pose proof (satisfies_any_false _ _ y C3 Y1) as Hyf. pose proof (Hass _ y C1 Y1 Y3) as Hya.
        destruct (value t2 y) as [[|]|] eqn:Ey; auto; [congruence|]. apply vvalue_value in Ey. contradiction.
Qed.

(** ** Eliminating a list of variables *)
Definition undecide (vs : list var) (t : trail_t) : trail_t := fold_left (fun t v => setDecisionVar v false t) vs t.

Record epost (n : nat) (new : list var) (d : db) (s : sdb) (e : ve) (d' : db) (s' : sdb) (e' : ve) : Prop := {
  ep_SI : SI n d' s';
  ep_step : dstep d d';
  ep_WE : forall P, WE P d s -> WE P d' s' /\ NE P d d';
  ep_SL : SL d s -> SL d' s';
  ep_WR : forall X, SL d s -> WR X d s -> WR X d' s';
  ep_nd : NoDup new;
  ep_ev : ev e' = ev e ++ new;
  ep_fz : fz e' = fz e;
  ep_ecl : length (ec e') = length (ec e);
  ep_ec : forall u, ~ In u new -> nth u (ec e') [] = nth u (ec e) [];
  ep_ne : forall u, In u new -> nth u (ec e') [] <> [];
  ep_saved : forall u c, In u new -> In c (nth u (ec e') []) ->
    (forall P, WE P d s -> forall a, P a -> sat_clause a c) /\ wfc n c /\ exists l, In l c /\ lvar l = u;
  ep_vars : forall i c l, wclause s' i = Some c -> In l (clits d' c) ->
    ~ In (lvar l) new /\ exists j c0 l0, wclause s j = Some c0 /\ In l0 (clits d c0) /\ lvar l0 = lvar l;
  ep_recon : SL d s -> forall m e2 t2, (forall u, In u new -> nth u (ec e2) [] = nth u (ec e') []) -> TV n t2 ->
    (forall u, In u new -> vvalue t2 u = None) ->
    (forall i c l, wclause s i = Some c -> In l (clits d c) -> In (lvar l) new \/ vvalue t2 (lvar l) <> None) ->
    (forall c, Kp m d' c -> satisfies_any t2 (clits d' c) = true) ->
    exists t3, prop_elim_list e2 (rev new) t2 = Ok t3 /\ TV n t3 /\ (forall u, ~ In u new -> vvalue t3 u = vvalue t2 u) /\
      (forall u, In u new -> vvalue t3 u <> None) /\ lim t3 = lim t2 /\ dec t3 = dec t2 /\
      (forall c, Kp m d c -> satisfies_any t3 (clits d c) = true) }.

Lemma epost_refl n d s e : SI n d s -> epost n [] d s e d s e.
Proof.
  intros H. constructor; auto.
  - apply dstep_refl.
  - intros P HW. split; auto. apply NE_refl.
  - constructor.
  - rewrite app_nil_r. auto.
  - intros u c [].
  - intros i c l Hi Hl. split; [intros []|]. eauto 6.
  - intros HL m e2 t2 _ Ht _ _ Hs. exists t2. cbn. intuition.
Qed.

Lemma prop_elim_list_app e a : forall b t, prop_elim_list e (a ++ b) t = (t1 <- prop_elim_list e a t ;; prop_elim_list e b t1).
Proof.
  induction a as [|v r IH]; intros b t; cbn [app prop_elim_list bind]; auto.
  destruct (prop_elim_var e v t) as [t1|]; cbn [bind]; auto.
Qed.

Lemma epost_trans n a b d s e d1 s1 e1 d2 s2 e2 :
  epost n a d s e d1 s1 e1 -> epost n b d1 s1 e1 d2 s2 e2 -> (forall u, In u a -> ~ In u b) ->
  epost n (a ++ b) d s e d2 s2 e2.
Proof.
  intros A B Hab. assert (Hd : forall u, In u b -> ~ In u a) by (intros u H1 H2; apply (Hab u); auto). constructor.
  - apply B.
  - eapply dstep_trans; [apply A|apply B].
  - intros P HW. destruct (ep_WE _ _ _ _ _ _ _ _ A P HW) as [A1 A2]. destruct (ep_WE _ _ _ _ _ _ _ _ B P A1) as [B1 B2].
    split; auto. eapply NE_trans; [apply B| |]; eauto.
  - intros HL. apply B. apply A. auto.
  - intros X HL HX. apply (ep_WR _ _ _ _ _ _ _ _ B); [apply (ep_SL _ _ _ _ _ _ _ _ A); auto|]. apply (ep_WR _ _ _ _ _ _ _ _ A); auto.
  - pose proof (ep_nd _ _ _ _ _ _ _ _ A) as N1. pose proof (ep_nd _ _ _ _ _ _ _ _ B) as N2. revert N1 N2 Hab. clear.
    induction a as [|x r IH]; simpl; auto. intros N1 N2 H. inversion N1; subst. constructor; auto.
    rewrite in_app_iff. intros [Hi|Hi]; auto. apply (H x); auto.
  - rewrite (ep_ev _ _ _ _ _ _ _ _ B), (ep_ev _ _ _ _ _ _ _ _ A), app_assoc. auto.
  - rewrite (ep_fz _ _ _ _ _ _ _ _ B). apply A.
  - rewrite (ep_ecl _ _ _ _ _ _ _ _ B). apply A.
  - intros u Hu. rewrite in_app_iff in Hu. rewrite (ep_ec _ _ _ _ _ _ _ _ B), (ep_ec _ _ _ _ _ _ _ _ A) by tauto. auto.
  - intros u Hu. apply in_app_iff in Hu. destruct Hu as [Hu|Hu].
    + rewrite (ep_ec _ _ _ _ _ _ _ _ B) by auto. apply A; auto.
    + apply B; auto.
  - intros u c Hu Hc. apply in_app_iff in Hu. destruct Hu as [Hu|Hu].
    + rewrite (ep_ec _ _ _ _ _ _ _ _ B) in Hc by auto. apply A; auto.
    + destruct (ep_saved _ _ _ _ _ _ _ _ B u c Hu Hc) as [S1 S2]. split; auto. intros P HW a0 Ha. apply (S1 P); auto. apply A; auto.
  - intros i c l Hi Hl. destruct (ep_vars _ _ _ _ _ _ _ _ B i c l Hi Hl) as [V1 (j & c0 & l0 & J1 & J2 & J3)].
    destruct (ep_vars _ _ _ _ _ _ _ _ A j c0 l0 J1 J2) as [V2 (j' & c1 & l1 & K1 & K2 & K3)].
    split; [rewrite in_app_iff, <- J3 in *; tauto|]. exists j', c1, l1. split; auto. split; auto. congruence.
  - intros HL m ee t2 Hec Ht Hun Hass Hs.
    destruct (ep_recon _ _ _ _ _ _ _ _ B (ep_SL _ _ _ _ _ _ _ _ A HL) m ee t2) as (t3 & R1 & R2 & R3 & R4 & R5 & R6 & R7); auto.
    + intros u Hu. apply Hec. apply in_app_iff; auto.
    + intros u Hu. apply Hun. apply in_app_iff; auto.
    + intros i c l Hi Hl. destruct (ep_vars _ _ _ _ _ _ _ _ A i c l Hi Hl) as [V1 (j & c0 & l0 & J1 & J2 & J3)].
      destruct (Hass j c0 l0 J1 J2) as [Hx|Hx]; rewrite J3 in Hx; auto. apply in_app_iff in Hx. tauto.
    + destruct (ep_recon _ _ _ _ _ _ _ _ A HL m ee t3) as (t4 & S1 & S2 & S3 & S4 & S5 & S6 & S7); auto.
      * intros u Hu. rewrite Hec by (apply in_app_iff; auto). apply B. auto.
      * intros u Hu. rewrite R3 by auto. apply Hun. apply in_app_iff; auto.
      * intros i c l Hi Hl. destruct (Hass i c l Hi Hl) as [Hx|Hx].
        -- apply in_app_iff in Hx. destruct Hx as [Hx|Hx]; auto.
        -- destruct (in_dec Nat.eq_dec (lvar l) b) as [Hb|Hb]; auto. right. rewrite R3; auto.
      * exists t4. rewrite rev_app_distr, prop_elim_list_app, R1. cbn [bind]. split; auto. split; auto. split.
        -- intros u Hu. rewrite in_app_iff in Hu. rewrite S3, R3 by tauto. auto.
        -- split; [|split; [congruence|split; [congruence|auto]]].
           intros u Hu. apply in_app_iff in Hu. destruct (in_dec Nat.eq_dec u a) as [Ha|Ha]; auto.
           rewrite S3 by auto. destruct Hu; [contradiction|]. auto.
Qed.

Lemma elim1_epost n v rm saved d s e d' s' : SI n d s -> length (ec e) = n -> v < n -> nth v (ec e) [] = [] -> elim1 n v rm saved d s d' s' ->
  (forall i c l, wclause s i = Some c -> In l (clits d c) -> lvar l = v -> In i rm) ->
  epost n [v] d s e d' s' (mkVE (ev e ++ [v]) (set_nth v saved (ec e)) (fz e)).
Proof.
  intros H Hec Hv He0 E Hrm.
  assert (Hsv : nth v (set_nth v saved (ec e)) [] = saved) by (apply nth_set_nth_same; lia).
  constructor; cbn [ev ec fz]; auto; try apply E.
  - repeat constructor. auto.
  - rewrite set_nth_length. auto.
  - intros u Hu. apply nth_set_nth_other. intros ->. apply Hu. simpl; auto.
  - intros u [<-|[]]. rewrite Hsv. apply E.
  - intros u c [<-|[]] Hc. rewrite Hsv in Hc. destruct (el_saved _ _ _ _ _ _ _ _ E c Hc) as (i & x & X1 & X2 & X3 & X4). split; [|split; auto].
    + intros P HW a Ha. subst c. apply (HW i); auto.
    + subst c. apply (di_WFA _ _ (s_D _ _ _ H) x).
  - intros i c l Hi Hl. destruct (Nat.lt_ge_cases i (length (subs s))) as [Hlt|Hge].
    + destruct (el_old _ _ _ _ _ _ _ _ E i c Hlt Hi) as [O1 O2].
      assert (Hl0 : In l (clits d c)).
      { rewrite <- (ds_lits _ _ (el_step _ _ _ _ _ _ _ _ E)); auto. eapply cls_lt; [apply H|]. apply (s_cls _ _ _ H i c O1). }
      split; [|eauto 6]. intros [Hx|[]]. apply O2. eapply Hrm; eauto.
    + destruct (el_new _ _ _ _ _ _ _ _ E i c Hge Hi l Hl) as [O1 O2]. split; auto. intros [Hx|[]]; auto.
  - intros HL m e2 t2 He2 Ht Hun Hass Hs. destruct (el_recon _ _ _ _ _ _ _ _ E HL m e2 t2) as (t3 & R1 & R2 & R3 & R4 & R5 & R6 & R7); auto.
    + rewrite He2 by (simpl; auto). auto.
    + apply Hun. simpl; auto.
    + intros c l Hc Hl Hlv. destruct (el_saved _ _ _ _ _ _ _ _ E c Hc) as (i & x & X1 & X2 & X3 & X4). subst c.
      destruct (Hass i x l X2 Hl) as [[Hx|[]]|Hx]; congruence.
    + exists t3. cbn [rev app prop_elim_list]. rewrite R1. cbn [bind]. split; auto. split; auto. split; [|split; [|auto]].
      * intros u Hu. apply R3. intros ->. apply Hu. simpl; auto.
      * intros u [<-|[]]. auto.
Qed.

Lemma vvalue_setDec v b t u : vvalue (setDecisionVar v b t) u = vvalue t u. Proof. reflexivity. Qed.

Lemma elim_vars_spec n lim vs : forall k d s e t, SI n d s -> length (ec e) = n -> NoDup vs ->
  (forall v, In v vs -> v < n /\ nth v (ec e) [] = []) ->
  match elim_vars lim vs k d s e t with
  | Err er => er = TooLong /\ (lim = 0 \/ (65536 <= N.of_nat lim)%N)
  | Ok (b, k', d', s', e', t') =>
    exists new, epost n new d s e d' s' e' /\ incl new vs /\ (forall u, In u new -> vvalue t u = None) /\
      t' = undecide new t /\ k' = k + length new /\ (b = false -> forall P a, WE P d s -> ~ P a)
  end.
Proof.
  induction vs as [|v r IH]; intros k d s e t H Hec Hn Hv; cbn [elim_vars].
  - exists []. split; [apply epost_refl; auto|]. split; [apply incl_refl|]. split; [intros ? []|]. simpl. split; auto. split; [lia|discriminate].
  - inversion Hn as [|? ? Hvr Hnr]; subst. destruct (Hv v (or_introl eq_refl)) as [Hvn Hve].
    destruct (vvalue t v) as [bv|] eqn:Evv; cbn [is_undef].
    + specialize (IH k d s e t H eq_refl Hnr). assert (Hv' : forall u, In u r -> u < length (ec e) /\ nth u (ec e) [] = []) by (intros; apply Hv; simpl; auto).
      specialize (IH Hv'). destruct (elim_vars lim r k d s e t) as [[[[[[b k'] d'] s'] e'] t']|er]; auto.
      destruct IH as (new & I1 & I2 & I3). exists new. split; auto. split; auto. intros x Hx. simpl; auto.
    + cbv zeta. set (os := filter (live s) (occs s v)). set (ispos := fun i => existsb (Nat.eqb (mkLit v false)) (wlits d s i)).
      set (pos := filter ispos os). set (neg := filter (fun i => negb (ispos i)) os).
      change (filter (fun i : nat => negb (existsb (Nat.eqb (mkLit v false)) (wlits d s i))) os) with neg.
      assert (Hos : NoDup os) by (apply NoDup_filter; apply (s_nd _ _ _ H)).
      assert (Hlive : forall i, In i os -> exists c, wclause s i = Some c /\ In i (occs s v)).
      { intros i Hi. apply filter_In in Hi. destruct (live_some _ _ (proj2 Hi)) as (c & Ec). exists c. split; auto. apply Hi. }
      pose proof (eliminate_var_spec (length (ec e)) lim v pos neg d s e t H Hvn eq_refl Hve) as HE.
      assert (HP1 : NoDup pos) by (apply NoDup_filter; auto). assert (HN1 : NoDup neg) by (apply NoDup_filter; auto).
      specialize (HE HP1 HN1).
      assert (HP2 : forall i, In i pos -> exists c, wclause s i = Some c /\ In (mkLit v false) (clits d c)).
      { intros i Hi. apply filter_In in Hi. destruct Hi as [I1 I2]. destruct (Hlive i I1) as (c & C1 & C2). exists c. split; auto.
        unfold ispos in I2. apply existsb_eqb_in in I2. unfold wlits in I2. rewrite C1 in I2. auto. }
      assert (HN2 : forall i, In i neg -> exists c, wclause s i = Some c /\ In (mkLit v true) (clits d c)).
      { intros i Hi. apply filter_In in Hi. destruct Hi as [I1 I2]. destruct (Hlive i I1) as (c & C1 & C2). exists c. split; auto.
        apply negb_true_iff in I2. destruct (s_occ _ _ _ H v i c C2 C1) as (l & L1 & L2).
        assert (El : l = mkLit v (lsign l)) by (rewrite <- L2; apply lit_eta). destruct (lsign l); [rewrite <- El; auto|].
        exfalso. assert (ispos i = true) by (unfold ispos; apply existsb_eqb_in; unfold wlits; rewrite C1, <- El; auto). congruence. }
      specialize (HE HP2 HN2). destruct (eliminate_var lim v pos neg d s e t) as [[[[[[b k1] d1] s1] e1] t1]|er]; cbn [bind]; auto.
      destruct b.
      * destruct HE as [(-> & -> & -> & -> & ->)|(-> & saved & HE & -> & ->)].
        -- rewrite Nat.add_0_r. specialize (IH k d s e t H eq_refl Hnr).
           assert (Hv' : forall u, In u r -> u < length (ec e) /\ nth u (ec e) [] = []) by (intros; apply Hv; simpl; auto).
           specialize (IH Hv'). destruct (elim_vars lim r k d s e t) as [[[[[[b k'] d'] s'] e'] t']|er]; auto.
           destruct IH as (new & I1 & I2 & I3). exists new. split; auto. split; auto. intros x Hx. simpl; auto.
        -- assert (HEP : epost (length (ec e)) [v] d s e d1 s1 (mkVE (ev e ++ [v]) (set_nth v saved (ec e)) (fz e))).
           { eapply elim1_epost; eauto. intros i c l Hi Hl Hlv. apply in_app_iff.
             assert (Hio : In i os) by (apply filter_In; split; [rewrite <- Hlv; eapply s_full; eauto|unfold live; rewrite Hi; auto]).
             destruct (ispos i) eqn:Ei; [left|right]; apply filter_In; split; auto. rewrite Ei. auto. }
           set (e1 := mkVE (ev e ++ [v]) (set_nth v saved (ec e)) (fz e)) in *.
           assert (Hl1 : length (ec e1) = length (ec e)) by (apply (ep_ecl _ _ _ _ _ _ _ _ HEP)).
           specialize (IH (k + 1) d1 s1 e1 (setDecisionVar v false t) (ep_SI _ _ _ _ _ _ _ _ HEP) Hl1 Hnr).
           assert (Hv' : forall u, In u r -> u < length (ec e) /\ nth u (ec e1) [] = []).
           { intros u Hu. destruct (Hv u (or_intror Hu)) as [U1 U2]. split; auto. unfold e1; cbn [ec].
             rewrite nth_set_nth_other; auto. intros ->. contradiction. }
           specialize (IH Hv'). destruct (elim_vars lim r (k + 1) d1 s1 e1 (setDecisionVar v false t)) as [[[[[[b k'] d'] s'] e'] t']|er]; auto.
           destruct IH as (new & I1 & I2 & I3 & I4 & I5 & I6). exists (v :: new).
           split; [change (v :: new) with ([v] ++ new); eapply epost_trans; eauto; intros u [<-|[]] Hu; apply Hvr, I2; auto|].
           split; [intros x [<-|Hx]; simpl; auto|]. split.
           { intros u [<-|Hu]; auto. apply (I3 u Hu). }
           split; [subst t'; reflexivity|]. split; [simpl; lia|]. intros Eb P a HW. apply (I6 Eb P a). apply HEP; auto.
      * destruct HE as (-> & -> & -> & -> & HE). exists []. split; [apply epost_refl; auto|]. split; [intros ? []|]. split; [intros ? []|].
        simpl. split; auto.
Qed.

(** ** VariableElimination::eliminate *)
Lemma ins_by_perm lt x l : Permutation (ins_by lt x l) (x :: l).
Proof.
  induction l as [|y r IH]; simpl; auto. destruct (lt y x); auto.
  eapply perm_trans; [apply perm_skip; exact IH|]. apply perm_swap.
Qed.
Lemma isort_by_perm lt l : Permutation (isort_by lt l) l.
Proof.
  induction l as [|x r IH]; simpl; auto. eapply perm_trans; [apply ins_by_perm|]. apply perm_skip, IH.
Qed.
Lemma same_elems_perm l m : same_elems l m = true -> Permutation l m.
Proof.
  intros H. apply (Permutation_count_occ Nat.eq_dec). intros x. unfold same_elems in H. rewrite forallb_forall in H.
  destruct (in_dec Nat.eq_dec x (l ++ m)) as [Hi|Hi].
  - apply Nat.eqb_eq, H, Hi.
  - rewrite in_app_iff in Hi. rewrite !(proj1 (count_occ_not_In Nat.eq_dec _ _)) by tauto. auto.
Qed.
Lemma std_sort_perm lt cand l : Permutation (std_sort lt cand l) l.
Proof.
  unfold std_sort. destruct (same_elems cand l && sorted_by lt cand) eqn:E; [|apply isort_by_perm].
  apply andb_true_iff in E. apply same_elems_perm, E.
Qed.

Record VEI (n : nat) (e : ve) : Prop := {
  vi_len : length (ec e) = length (fz e);
  vi_le : length (fz e) <= n;
  vi_nd : NoDup (ev e);
  vi_ev : forall v, In v (ev e) <-> nth v (ec e) [] <> [] }.

Lemma VEI_new n : VEI n ve_new.
Proof. constructor; simpl; auto; try lia; [constructor|]. intros v. split; [intros []|]. destruct v; simpl; intros H; destruct H; auto. Qed.
Lemma freeze_length ls : forall f, length (freeze ls f) = length f.
Proof. induction ls as [|l r IH]; intros f; simpl; auto. unfold freeze in *. rewrite IH. apply set_nth_length. Qed.
Lemma freeze_nth ls : forall f v, v < length f -> nth v (freeze ls f) false = true <-> nth v f false = true \/ exists l, In l ls /\ lvar l = v.
Proof.
  induction ls as [|l r IH]; intros f v Hv; simpl.
  - split; auto. intros [H|(l & [] & _)]; auto.
  - unfold freeze in *. rewrite IH by (rewrite set_nth_length; auto). destruct (Nat.eq_dec (lvar l) v) as [E|E].
    + rewrite E, nth_set_nth_same by auto. split; eauto.
    + rewrite nth_set_nth_other by auto. split; intros [H|(x & H1 & H2)]; eauto. destruct H1; subst; [contradiction|eauto].
Qed.
Lemma ve_init_spec t e : VEI (nvt t) e -> VEI (nvt t) (ve_init t e) /\ length (ec (ve_init t e)) = nvt t /\ ev (ve_init t e) = ev e /\
  (forall v, nth v (ec (ve_init t e)) [] = nth v (ec e) []) /\
  (forall l, In l (assum t) -> lvar l < nvt t -> nth (lvar l) (fz (ve_init t e)) false = true).
Proof.
  intros [H1 H2 H3 H4].
  assert (G : length (fz (ve_grow (nvt t) e)) = nvt t /\ length (ec (ve_grow (nvt t) e)) = nvt t /\ ev (ve_grow (nvt t) e) = ev e /\
    (forall v, nth v (ec (ve_grow (nvt t) e)) [] = nth v (ec e) [])).
  { unfold ve_grow. destruct (Nat.ltb_spec (length (fz e)) (nvt t)); cbn [fz ec ev].
    - rewrite !resize_length by lia. split; auto. split; auto. split; auto. intros v. apply resize_nth. lia.
    - split; [lia|]. split; [lia|]. auto. }
  destruct G as (G1 & G2 & G3 & G4). unfold ve_init; cbn [ec ev fz].
  split; [constructor; cbn [ec ev fz]; rewrite ?freeze_length; try congruence; try lia|].
  - intros v. rewrite G3, G4. apply H4.
  - split; auto. split; auto. split; auto. intros l Hl Hv. apply freeze_nth; [rewrite G1; auto|eauto].
Qed.

Lemma undecide_fields vs : forall t, nvt (undecide vs t) = nvt t /\ asg (undecide vs t) = asg t /\ vd (undecide vs t) = vd t /\
  tr (undecide vs t) = tr t /\ qh (undecide vs t) = qh t /\ lim (undecide vs t) = lim t /\ assum (undecide vs t) = assum t.
Proof.
  unfold undecide. induction vs as [|v r IH]; intros t; cbn [fold_left].
  - auto 10.
  - destruct (IH (setDecisionVar v false t)) as (A1 & A2 & A3 & A4 & A5 & A6 & A7). rewrite A1, A2, A3, A4, A5, A6, A7.
    unfold setDecisionVar; cbn [nvt asg vd tr qh lim assum]. auto 10.
Qed.

Lemma eliminate_spec n active lim cand d s e t : SI n d s -> VEI n e -> nvt t = n ->
  match eliminate active lim cand d s e t with
  | Err er => er = TooLong /\ (lim = 0 \/ (65536 <= N.of_nat lim)%N)
  | Ok (b, k, d', s', e', t') =>
    exists new, epost n new d s (ve_init t e) d' s' e' /\ VEI n e' /\ t' = undecide new t /\ k = length new /\
      (forall u, In u new -> vvalue t u = None /\ u < n /\ ~ In u (ev e) /\ ~ In u (map lvar (assum t))) /\
      (b = false -> forall P a, WE P d s -> ~ P a)
  end.
Proof.
  intros H HV Hn. subst n. destruct (ve_init_spec t e HV) as (HV1 & L1 & E1 & C1 & F1). unfold eliminate. set (e1 := ve_init t e) in *. destruct active.
  - set (vars := filter (fun v => negb (nth v (fz e1) false) && negb (is_eliminated e1 v)) (seq 0 (length (fz e1)))).
    pose proof (std_sort_perm (fun a b => numOcc s b <? numOcc s a) cand vars) as HP.
    set (vs := std_sort (fun a b => numOcc s b <? numOcc s a) cand vars) in *.
    assert (Hvs : forall v, In v vs -> v < nvt t /\ nth v (ec e1) [] = [] /\ nth v (fz e1) false = false).
    { intros v Hv. apply (Permutation_in _ HP) in Hv. apply filter_In in Hv. destruct Hv as [V1 V2]. apply in_seq in V1.
      apply andb_true_iff in V2. destruct V2 as [V2 V3]. apply negb_true_iff in V2. split; [pose proof (vi_len _ _ HV1); lia|]. split; auto.
      unfold is_eliminated in V3. rewrite negb_involutive in V3. apply Nat.eqb_eq, length_zero_iff_nil in V3. auto. }
    assert (Hnd : NoDup vs).
    { apply (Permutation_NoDup (Permutation_sym HP)). apply NoDup_filter, seq_NoDup. }
    pose proof (elim_vars_spec (nvt t) lim vs 0 d s e1 t H L1 Hnd ltac:(intros v Hv; destruct (Hvs v Hv) as (? & ? & _); auto)) as HE.
    destruct (elim_vars lim vs 0 d s e1 t) as [[[[[[b k] d'] s'] e'] t']|er]; auto.
    destruct HE as (new & I1 & I2 & I3 & I4 & I5 & I6). exists new. split; auto. split.
    + constructor.
      * rewrite (ep_ecl _ _ _ _ _ _ _ _ I1), (ep_fz _ _ _ _ _ _ _ _ I1). apply HV1.
      * rewrite (ep_fz _ _ _ _ _ _ _ _ I1). apply HV1.
      * rewrite (ep_ev _ _ _ _ _ _ _ _ I1). pose proof (vi_nd _ _ HV1) as N1. pose proof (ep_nd _ _ _ _ _ _ _ _ I1) as N2.
        assert (Hdis : forall u, In u (ev e1) -> ~ In u new).
        { intros u U1 U2. apply (vi_ev _ _ HV1) in U1. apply U1. apply Hvs. auto. }
        revert N1 Hdis. generalize (ev e1). clear -N2. induction l as [|x r IH]; simpl; auto. intros N1 H. inversion N1; subst.
        constructor; auto. rewrite in_app_iff. intros [Hi|Hi]; auto. apply (H x); auto.
      * intros v. rewrite (ep_ev _ _ _ _ _ _ _ _ I1), in_app_iff. destruct (in_dec Nat.eq_dec v new) as [Hi|Hi].
        -- split; auto. intros _. apply I1; auto.
        -- rewrite (ep_ec _ _ _ _ _ _ _ _ I1) by auto. rewrite <- (vi_ev _ _ HV1). tauto.
    + split; auto. split; [simpl in I5; auto|]. split; auto. intros u Hu. destruct (Hvs u (I2 u Hu)) as (V1 & V2 & V3). split; auto. split; auto. split.
      * rewrite <- E1. intros Hi. apply (vi_ev _ _ HV1) in Hi. auto.
      * intros Hi. apply in_map_iff in Hi. destruct Hi as (l & <- & Hl). rewrite F1 in V3 by auto. discriminate.
  - exists []. split; [apply epost_refl; auto|]. split; auto. split; auto. split; auto. split; [intros u []|discriminate].
Qed.
