(** Invariants of the solver that do not depend on the search. *)
Require Import List Arith Bool NArith ZArith Permutation Lia.
From Coq Require Import ZifyBool ZifyNat ZifyN.
Require Import Verif.Base Verif.CNFModel Verif.CNFProofs Verif.Outcome Verif.TrailModel Verif.TrailSpec Verif.TrailProofs Verif.TrailLemmas Verif.DbModel Verif.PropModel Verif.PropProofs Verif.DbProofs
  Verif.PropSpec Verif.PropLemmas Verif.AnalyzeModel Verif.AnalyzeProofs Verif.AnalyzeLemmas Verif.SimpModel Verif.SubsProofs Verif.SimpProofs Verif.SimpSpec Verif.SimpLemmas
  Verif.VEProofs Verif.AsymmProofs Verif.AsymmLemmas Verif.ReduceModel Verif.SolverModel.
Import ListNotations.

(** no undefined behaviour, and the result has the property *)
Definition safe {A} (m : out A) (R : A -> Prop) : Prop := match m with Ok x => R x | Err e => e <> UB end.
Lemma safe_bind {A B} (m : out A) (f : A -> out B) (R : A -> Prop) (S : B -> Prop) :
  safe m R -> (forall x, R x -> safe (f x) S) -> safe (x <- m ;; f x) S.
Proof. destruct m as [x|e]; cbn [bind safe]; auto. Qed.
Lemma safe_mono {A} (m : out A) (R S : A -> Prop) : safe m R -> (forall x, R x -> S x) -> safe m S.
Proof. destruct m; cbn [safe]; auto. Qed.
Lemma safe_ok {A} (m : out A) (R : A -> Prop) x : safe m R -> m = Ok x -> R x.
Proof. intros H ->. exact H. Qed.
Lemma safe_of {A} (m : out A) (R : A -> Prop) : (exists x, m = Ok x /\ R x) -> safe m R.
Proof. intros (x & -> & H). exact H. Qed.

Definition AE (P : assignment -> Prop) (d : db) : Prop := forall c a, c < length (arena d) -> P a -> sat_clause a (clits d c).
Record CI (P : assignment -> Prop) (d : db) : Prop := {
  ci_D : DI (nv d) d;
  ci_L : LenOk d;
  ci_N : NEmp d;
  ci_A : AE P d;
  ci_E : empt d = true -> forall a, ~ P a }.

Lemma CI_mono (P P' : assignment -> Prop) d : (forall a, P' a -> P a) -> CI P d -> CI P' d.
Proof.
  intros H [H1 H2 H3 H4 H5]. constructor; auto.
  - intros c a Hc Ha. apply H4; auto.
  - intros E a Ha. apply (H5 E a). auto.
Qed.
Lemma CI_new P : CI P db_new.
Proof.
  constructor; [exact db_new_DI|..].
  - intros c. unfold clits, cobj_at. cbn. destruct c; reflexivity.
  - intros _ c [].
  - intros c a Hc. cbn in Hc. lia.
  - discriminate.
Qed.
Lemma CI_create P d ls lbd lem c d' : CI P d -> wfc (nv d) ls -> (forall a, P a -> sat_clause a ls) ->
  createClause ls lbd lem d = Ok (c, d') -> CI P d' /\ created d ls c d'.
Proof.
  intros [H1 H2 H3 H4 H5] Hw Hs HC. assert (HK := createClause_created _ _ _ _ _ _ HC). split; auto.
  assert (HN : nv d' = nv d) by apply HK. constructor.
  - rewrite HN. exact (createClause_DI _ _ _ _ _ _ _ H1 Hw HC).
  - exact (created_LenOk _ _ _ _ _ _ HC H2).
  - exact (create_NEmp _ _ _ _ _ _ _ H1 HC H3).
  - intros x a Hx Ha. destruct HK as (E1 & E2 & E3 & (w & E4) & E5).
    rewrite E4, app_length in Hx. cbn [length] in Hx. unfold clits, cobj_at. rewrite E4.
    destruct (Nat.eq_dec x (length (arena d))) as [->|Hne].
    + rewrite app_nth2, Nat.sub_diag by lia. cbn. auto.
    + rewrite app_nth1 by lia. apply H4; auto. lia.
  - intros E a Ha. destruct HK as (E1 & E2 & E3 & (w & E4) & E5). rewrite E5 in E.
    destruct ls as [|x r]; cbn [length Nat.eqb] in E; [|exact (H5 E a Ha)].
    destruct (Hs a Ha) as (l & [] & _).
Qed.
Lemma emptyClause_DI n d : DI n d -> DI n (emptyClause d).
Proof. intros [H1 H2 H3 H4 H5 H6 H7 H8 H9 H10 H11 H12 H13 H14]. constructor; assumption. Qed.
Lemma CI_empty P d : (forall a, ~ P a) -> CI P d -> CI P (emptyClause d).
Proof.
  intros H [H1 H2 H3 H4 H5]. constructor.
  - exact (emptyClause_DI _ _ H1).
  - exact H2.
  - intros E. discriminate E.
  - exact H4.
  - intros _. exact H.
Qed.
Lemma CI_fail P b d : (b = false -> forall a, ~ P a) -> CI P d -> CI P (fail_if b d).
Proof. destruct b; cbn [fail_if]; auto. intros H. apply CI_empty. auto. Qed.
Lemma CI_pstep P d d' : CI P d -> pstep d d' -> DI (nv d') d' -> LenOk d' -> NE P d d' -> CI P d'.
Proof.
  intros [H1 H2 H3 H4 H5] HS HD HL HN. constructor; auto.
  - intros E c Hc. rewrite (ps_empt _ _ HS) in E. apply (ps_cls _ _ HS) in Hc. destruct Hc as [Hc|Hc].
    + intros En. apply (H3 E c Hc). apply Permutation_nil. rewrite <- En. apply Permutation_sym, (ps_lits _ _ HS).
      exact (cls_lt _ _ _ H1 Hc).
    + apply (ps_new _ _ HS). auto.
  - intros c a Hc Ha. destruct (Nat.lt_ge_cases c (length (arena d))) as [Hl|Hl]; [|apply HN; auto].
    eapply sat_clause_perm; [apply (ps_lits _ _ HS); auto|]. apply H4; auto.
  - rewrite (ps_empt _ _ HS). auto.
Qed.
Lemma CI_aperm P d a : CI P d -> aperm (arena d) a -> CI P (with_arena d a).
Proof.
  intros H HA. apply (CI_pstep P d); auto.
  - apply aperm_pstep. auto.
  - exact (aperm_DI _ _ _ (ci_D _ _ H) HA).
  - intros c. rewrite (ap_len d a HA). apply (ci_L _ _ H).
  - apply NE_aperm. auto.
Qed.
Lemma CI_same P d d' : CI P d -> DI (nv d') d' -> (forall c, clits d' c = clits d c) -> length (arena d') = length (arena d) ->
  empt d' = empt d -> (forall c, In c (cls d') -> In c (cls d)) -> CI P d'.
Proof.
  intros [H1 H2 H3 H4 H5] HD HC HL HE HI. constructor; auto.
  - intros c. rewrite HC. auto.
  - intros E c Hc. rewrite HC. apply H3; [congruence|auto].
  - intros c a Hc Ha. rewrite HC. apply H4; auto. lia.
  - rewrite HE. auto.
Qed.
Lemma fold_remove_len cs : forall d, length (arena (fold_left (fun d c => removeClause c d) cs d)) = length (arena d).
Proof. induction cs as [|c cs IH]; intros d; cbn [fold_left]; auto. rewrite IH. apply arena_len_remove. Qed.
Lemma fold_remove_nv cs : forall d, nv (fold_left (fun d c => removeClause c d) cs d) = nv d.
Proof. induction cs as [|c cs IH]; intros d; cbn [fold_left]; auto. rewrite IH. apply remove_fields. Qed.
Lemma CI_fold_remove P cs d : CI P d -> CI P (fold_left (fun d c => removeClause c d) cs d).
Proof.
  intros H. destruct (fold_remove cs d) as (A & B & D). apply (CI_same P d); auto.
  - rewrite fold_remove_nv. apply fold_remove_DI. apply H.
  - apply fold_remove_len.
  - intros c. rewrite D. auto.
Qed.
Lemma CI_reorganize P d : CI P d -> CI P (reorganize d).
Proof.
  intros H. destruct (reorganize_fields d) as (A & B & D & E). apply (CI_same P d); auto.
  - rewrite D. apply reorganize_DI. apply H.
  - intros c Hc. apply reorganize_cls in Hc. apply (di_live _ _ (ci_D _ _ H)); apply Hc.
Qed.
Lemma CI_reestimate P t cs d : CI P d -> (forall c, In c cs -> usable d c) -> CI P (reestimate t cs d).
Proof.
  intros H HU. destruct (reestimate_fields t cs d) as (A1 & A2 & A3 & A4 & A5 & A6 & A7 & A8 & A9 & A10).
  apply (CI_same P d); auto.
  - rewrite A4. apply reestimate_DI; [apply H|]. intros c Hc. destruct (HU c Hc) as (U1 & [U2|U2]); auto.
  - rewrite A3. auto.
Qed.
Lemma CI_grow P n d : CI P d -> CI P (db_grow n d).
Proof.
  intros H. destruct (db_grow_cls n d) as (A & B & E). apply (CI_same P d); auto.
  - assert (HD := db_grow_DI _ n _ (ci_D _ _ H)). rewrite (di_nv _ _ HD). exact HD.
  - intros c. unfold clits, cobj_at. rewrite B. reflexivity.
  - rewrite B. reflexivity.
  - intros c. rewrite A. auto.
Qed.
Lemma grow_nv n d : nv (db_grow n d) = max n (nv d).
Proof. unfold db_grow. destruct (nv d <? n) eqn:E; cbn [nv]; lia. Qed.

Lemma AE_WE P n d s : AE P d -> SI n d s -> WE P d s.
Proof. intros H HS i c a Hi Ha. apply H; auto. apply (s_cls _ _ _ HS) in Hi. exact (cls_lt _ _ _ (s_D _ _ _ HS) (proj1 Hi)). Qed.
Lemma AE_LE P d w t : AE P d -> PInv d w t -> LE P d w.
Proof. intros H HP c a Hc Ha. apply H; auto. exact (listed_lt _ _ _ (pi_W1 _ _ _ HP) (pi_BW _ _ _ HP) Hc). Qed.

(** ** The store of eliminated clauses *)
Record VEok (P : assignment -> Prop) (n : nat) (e : ve) : Prop := {
  vo_I : VEI n e;
  vo_c : forall v c, In c (nth v (ec e) []) -> wfc n c /\ forall a, P a -> sat_clause a c }.
Lemma VEok_mono (P P' : assignment -> Prop) n m e : (forall a, P' a -> P a) -> n <= m -> VEok P n e -> VEok P' m e.
Proof.
  intros H Hn [[V1 V2 V3 V4] H2]. constructor; [constructor; auto; lia|].
  intros v c Hc. destruct (H2 v c Hc) as (A & B). split; [exact (wfc_mono _ _ _ Hn A)|auto].
Qed.
Lemma VEok_new P n : VEok P n ve_new.
Proof. constructor; [apply VEI_new|]. intros v c. cbn. destruct v; intros []. Qed.

(** ** Watch lists that cover the database *)
Record WS (n : nat) (d : db) (w : watches) : Prop := {
  ws_1 : W1 (arena d) w;
  ws_2 : W2 w;
  ws_C : Cov3 d w;
  ws_I : WI d w;
  ws_len : forall l, lvar l < n -> l < length w }.
Lemma WS_reset n d : DI n d -> WS n d (prop_reset d).
Proof. intros H. destruct (prop_reset_spec n d H) as (A & B & C & D & E). constructor; auto. Qed.
Lemma WS_create n d w ls lbd lem c d' : DI n d -> wfc n ls -> createClause ls lbd lem d = Ok (c, d') -> WS n d w ->
  WS n d' (if 2 <? length ls then attachClause d' c w else w).
Proof.
  intros HD Hw HC [A1 A2 A3 A4 A5]. assert (HK := createClause_created _ _ _ _ _ _ HC).
  assert (HL := fun x => clits_old _ _ _ _ x HK). assert (Hc : c = length (arena d)) by apply HK.
  assert (Hcl : cls d' = cls d ++ [c]) by apply HK.
  assert (Hold : forall x q, In x (map fst (wl w q)) -> x < length (arena d)).
  { intros x q Hx. apply (cls_lt _ _ _ HD). exact (A4 _ _ Hx). }
  assert (Hfresh : forall q, ~ In c (map fst (wl w q))) by (intros q Hq; apply Hold in Hq; lia).
  assert (W1' : W1 (arena d') w).
  { intros p x b Hb. destruct (A1 p x b Hb) as (B1 & B2). assert (Hx : x < length (arena d)) by (apply (Hold x p); apply in_map_iff; exists (x, b); auto).
    specialize (HL x Hx). change (clits d' x = alits (arena d) x) in HL. change (alits (arena d') x = alits (arena d) x) in HL.
    rewrite HL. auto. }
  assert (C' : forall x, In x (cls d) -> 3 <= length (clits d' x) -> watched2 (arena d') w x).
  { intros x Hx H3. assert (Hlt := cls_lt _ _ _ HD Hx). rewrite (HL x Hlt) in H3. destruct (A3 x Hx H3) as (p & q & z & r & E & E1 & E2).
    exists p, q, z, r. split; [|auto]. transitivity (alits (arena d) x); auto. exact (HL x Hlt). }
  assert (Hnew := clits_new _ _ _ _ HK).
  assert (Hcov : forall w', (forall q y, In y (wl w q) -> In y (wl w' q)) -> (3 <= length ls -> watched2 (arena d') w' c) -> Cov3 d' w').
  { intros w' Hm Hn x Hx H3. rewrite Hcl in Hx. apply in_app_or in Hx. destruct Hx as [Hx|[<-|[]]].
    - eapply watched2_mono; [exact Hm|]. apply C'; auto.
    - apply Hn. rewrite Hnew in H3. auto. }
  assert (Hin : forall x, In x (cls d) -> In x (cls d')) by (intros x Hx; rewrite Hcl; apply in_or_app; auto).
  destruct (2 <? length ls) eqn:E2.
  - assert (H3 : 3 <= length (clits d' c)) by (rewrite Hnew; lia). constructor.
    + apply attach_W1; auto.
    + apply attach_W2; auto. rewrite Hnew. apply Hw.
    + apply Hcov; [apply attach_old|]. intros _. apply attach_watched2; auto. intros l Hl. apply A5. rewrite lvar_neg. apply Hw. rewrite <- Hnew. auto.
    + intros x q Hx. apply in_map_iff in Hx. destruct Hx as ((x', b) & <- & Hx). apply attach_in in Hx. cbn [fst].
      destruct Hx as [Hx|(-> & _)]; [apply Hin, (A4 _ q); apply in_map_iff; exists (x', b); auto|rewrite Hcl; apply in_or_app; cbn; auto].
    + intros l Hl. rewrite attach_len. auto.
  - constructor; auto.
    + apply Hcov; auto. lia.
    + intros x q Hx. apply Hin, (A4 _ q Hx).
Qed.

(** all trail literals are facts *)
Definition RN (t : trail_t) : Prop := forall l, In l (tr t) -> reason t (lvar l) = None.
Lemma SInvQ_facts (Q : Prop) d w t : DI (nvt t) d -> TI t -> lim t = [] -> RN t -> WS (nvt t) d w -> (Q -> tr t = []) -> SInvQ Q d w t.
Proof.
  intros HD HT HL HR [A1 A2 A3 A4 A5] HQ. constructor.
  - constructor; auto.
    + constructor; auto.
      * intros i l c Hi Hr. apply nth_error_In in Hi. rewrite (HR l Hi) in Hr. discriminate.
      * apply (di_WFA _ _ HD).
      * apply (di_BW _ _ HD).
    + intros l c Hi Hr. rewrite (HR l Hi) in Hr. discriminate.
  - intros k Hk. rewrite HL in Hk. destruct Hk.
  - intros q i l Hi Hl. rewrite (HQ q) in Hl. destruct i; discriminate.
Qed.
