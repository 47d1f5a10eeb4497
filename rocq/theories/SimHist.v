(** The partition over a history of simulation steps. *)
Require Import List Arith Bool NArith Lia ZifyBool ZifyNat ZifyN.
Require Import Verif.Base Verif.Outcome Verif.CNFModel Verif.CNFProofs Verif.GateModel Verif.SimModel Verif.SimSpec Verif.SimWords Verif.SimPart Verif.BranchSpec.
Import ListNotations.

Lemma lneg_eta l : lneg l = mkLit (lvar l) (negb (lsign l)).
Proof. rewrite (lit_eta l) at 1. apply lneg_mk. Qed.
Lemma trunc28_id v : (N.of_nat v < 2 ^ 28)%N -> trunc28 v = v.
Proof. intros H. unfold trunc28. rewrite N.mod_small by exact H. apply Nat2N.id. Qed.

Section H.
Variables (K size : nat) (outs : list var) (sched : nat -> bool) (vs0 : vectors).
Hypothesis HK : 1 <= K.
Hypothesis HO : wf_outputs outs size.
Definition V0 (v : var) : bool := N.testbit (nth 0 (nth v vs0 []) 0%N) 0.
Definition is_bb (x : vec) (b : bool) : bool := forallb (fun w => if b then N.eqb (wnot w) 0 else N.eqb w 0) x.
Definition Bh (h : list vectors) (v : var) : bool := forallb (fun vs => is_bb (nth v vs []) (V0 v)) h.
Definition wfh (h : list vectors) : Prop := forall vs, In vs h -> wf_vectors K size vs.

Lemma vec_len vs v : wf_vectors K size vs -> v < size -> length (nth v vs []) = K.
Proof. intros (E & H) Hv. assert (HI : In (nth v vs []) vs) by (apply nth_In; lia). apply H in HI. apply HI. Qed.
Lemma values_pos vs v : values vs (mkLit v true) = nth v vs [].
Proof. unfold values. rewrite lvar_mk, lsign_mk. auto. Qed.
Lemma values_neg vs v : values vs (mkLit v false) = map wnot (nth v vs []).
Proof. unfold values. rewrite lvar_mk, lsign_mk. auto. Qed.
Lemma wnot_zero w : wnot w = 0%N <-> w = ones.
Proof. split; intros H; [rewrite <- (wnot_invol w), H|rewrite H]; reflexivity. Qed.
Lemma is_bb_spec vs v b : is_bb (nth v vs []) b = true <-> forall w, In w (values vs (mkLit v b)) -> w = ones.
Proof.
  unfold is_bb. rewrite forallb_forall. destruct b; [rewrite values_pos|rewrite values_neg].
  - split; intros H w Hw; [apply wnot_zero, N.eqb_eq, H; auto|apply N.eqb_eq, wnot_zero, H; auto].
  - split.
    + intros H w Hw. apply in_map_iff in Hw. destruct Hw as (w' & <- & Hw). apply wnot_zero. rewrite wnot_invol. apply N.eqb_eq, H. auto.
    + intros H w Hw. apply N.eqb_eq. rewrite <- (wnot_invol w). apply wnot_zero, H, in_map. auto.
Qed.
Lemma Bh_spec h v : wfh h -> v < size -> (Bh h v = true <-> always K h (mkLit v (V0 v))).
Proof.
  intros HW Hv. rewrite (always_values K size); [|auto|rewrite lvar_mk; auto]. unfold Bh. rewrite forallb_forall. split; intros H vs Hvs; apply is_bb_spec, H; auto.
Qed.
(** a literal that is always true has the sign of the first bit seen *)
Lemma always_sign h l : wfh (vs0 :: h) -> lvar l < size -> always K (vs0 :: h) l -> lsign l = V0 (lvar l).
Proof.
  intros HW Hl HA. assert (H : lit_val (sim_assignment vs0 0) l = true) by (apply HA; exists vs0, 0; split; [left; auto|split; [lia|auto]]). rewrite (val_bit K size) in H; [|apply HW; left; auto|auto|lia].
  change (0 / 64) with 0 in H. change (0 mod 64) with 0 in H. unfold values in H. unfold V0. destruct (lsign l); [symmetry; exact H|].
  assert (HL : length (nth (lvar l) vs0 []) = K) by (apply vec_len; auto; apply HW; left; auto).
  unfold vectors, vec in *. revert H HL. destruct (nth (lvar l) vs0 []) as [|w r]; intros H HL; [cbn in HL; lia|]. change (N.testbit (wnot w) 0 = true) in H. change (false = N.testbit w 0). rewrite wnot_bit in H. change (0 <? 64)%N with true in H. destruct (N.testbit w 0); [discriminate|auto].
Qed.
Lemma Bh_lit h l : wfh (vs0 :: h) -> lvar l < size -> (Bh (vs0 :: h) (lvar l) = true <-> always K (vs0 :: h) l \/ always K (vs0 :: h) (lneg l)).
Proof.
  intros HW Hl. rewrite Bh_spec by auto. split.
  - intros H. destruct (Bool.bool_dec (V0 (lvar l)) (lsign l)) as [E|E].
    + left. rewrite E, <- (lit_eta l) in H. auto.
    + right. rewrite lneg_eta. replace (negb (lsign l)) with (V0 (lvar l)); auto. destruct (V0 (lvar l)), (lsign l); auto; congruence.
  - intros [H|H].
    + rewrite <- (always_sign h l HW Hl H), <- lit_eta. auto.
    + assert (Hl' : lvar (lneg l) < size) by (rewrite lvar_neg; auto). pose proof (always_sign h (lneg l) HW Hl' H) as E. rewrite lvar_neg in E. rewrite <- E, <- (lvar_neg l), <- lit_eta. auto.
Qed.
Lemma alike_sym h l m : alike K h l m -> alike K h m l. Proof. intros H a Ha. symmetry. auto. Qed.
Lemma alike_trans h l m k : alike K h l m -> alike K h m k -> alike K h l k. Proof. intros H H' a Ha. rewrite (H a Ha). auto. Qed.
Lemma alike_always h l m : alike K h l m -> always K h l -> always K h m. Proof. intros H H' a Ha. rewrite <- (H a Ha). auto. Qed.

Lemma vget_ok vs v : wf_vectors K size vs -> v < size -> vget vs v = Ok (nth v vs []).
Proof. intros (HL & _) Hv. unfold vget. rewrite (nth_error_nth' vs []) by lia. auto. Qed.
Lemma fold_map (f : N -> N -> N) (g : N -> N) (l : list N) a : fold_left f (map g l) a = fold_left (fun x y => f x (g y)) l a.
Proof. revert a. induction l as [|x l IH]; intros a; cbn [map fold_left]; auto. Qed.

(** a full pass *)
Lemma upd_pair h vs q : h <> [] -> wf_vectors K size vs -> vid (fst q) < size -> is_pair (fingerprint h) (Bh h) V0 q ->
  exists q', upd_entry false vs q = Ok q' /\ is_pair (fingerprint (h ++ [vs])) (Bh (h ++ [vs])) V0 q' /\ vid (fst q') = vid (fst q).
Proof.
  intros Hh HW Hv (P1 & P2 & P3 & P4 & P5 & P6 & P7 & P8). destruct q as (p, n). cbn [fst snd] in *. cbn [upd_entry]. rewrite P1, (vget_ok vs (vid p) HW Hv). cbn [bind]. eexists. split; [reflexivity|]. unfold is_pair. cbn [fst snd vid gid pol bb bbv]. split; [|auto]. split; [auto|]. split; [|split; [|split; [auto|split; [auto|split; [auto|split; [|auto]]]]]].
  - rewrite fp_snoc, values_pos, P2 by auto. auto.
  - rewrite fp_snoc, values_neg, P3, fold_map by auto. auto.
  - unfold Bh. rewrite forallb_app. cbn [forallb]. rewrite andb_true_r, P7, P8. auto.
Qed.
(** the first step *)
Lemma first_pair v : wf_vectors K size vs0 -> v < size -> (N.of_nat v < 2 ^ 28)%N ->
  exists q0 q1 q2, init_entry vs0 v = Ok q0 /\ upd_entry true vs0 q0 = Ok q1 /\ upd_entry false vs0 q1 = Ok q2 /\
    is_pair (fingerprint [vs0]) (Bh [vs0]) V0 q2 /\ vid (fst q2) = v.
Proof.
  intros HW Hv H28. unfold init_entry. rewrite (vget_ok vs0 v HW Hv). cbn [bind]. rewrite (trunc28_id v H28). eexists. eexists. eexists. split; [reflexivity|]. cbn [upd_entry vid]. rewrite (vget_ok vs0 v HW Hv). cbn [bind]. split; [reflexivity|]. cbn [upd_entry vid]. rewrite (vget_ok vs0 v HW Hv). cbn [bind]. split; [reflexivity|].
  assert (HL : length (nth v vs0 []) = K) by (apply vec_len; auto).
  unfold is_pair. cbn [fst snd vid gid pol bb bbv]. split; [|auto]. split; [auto|]. split; [|split; [|split; [auto|split; [auto|split; [auto|split; [|auto]]]]]].
  - unfold fingerprint. rewrite values_pos. cbn [flat_map]. rewrite app_nil_r, fold_left_app. unfold vectors, vec in *. destruct (nth v vs0 []); reflexivity.
  - unfold fingerprint. rewrite values_neg. cbn [flat_map]. rewrite app_nil_r. unfold vectors, vec in *. destruct (nth v vs0 []) as [|w r]; [cbn in HL; lia|]. cbn [map tl hd nth]. rewrite fold_left_app, fold_map. cbn [fold_left]. rewrite !fold_map. reflexivity.
  - unfold Bh. cbn [forallb]. rewrite andb_true_r. fold (V0 v). unfold is_bb. destruct (forallb _ _); auto.
Qed.

Record HInv (h : list vectors) (ps : pairs) : Prop := {
  hi_pair : forall q, In q ps -> is_pair (fingerprint h) (Bh h) V0 q;
  hi_nd : NoDup (vids ps);
  hi_in : forall v, In v (vids ps) -> In v outs;
  hi_drop : forall v, In v outs -> ~ In v (vids ps) -> Bh h v = false /\ forall m, In (lvar m) outs -> lvar m <> v -> ~ alike K h (mkLit v true) m
}.
Definition nc (h : list vectors) : Prop := forall l m, In (lvar l) outs -> In (lvar m) outs -> fingerprint h l = fingerprint h m -> alike K h l m.
Lemma nc_self h v : h <> [] -> nc h -> In v outs -> fingerprint h (mkLit v true) <> fingerprint h (mkLit v false).
Proof.
  intros Hh HN Hv E. apply (not_alike_self K h (mkLit v true) HK Hh). rewrite lneg_mk. apply HN; rewrite ?lvar_mk; auto.
Qed.
Lemma drop_step h ps ps' : HInv h ps -> wfh h -> nc h -> h <> [] -> compress ps = Ok ps' -> HInv h ps'.
Proof.
  intros [H1 H2 H3 H4] HW HN Hh E. destruct (compress_ok (fingerprint h) (Bh h) V0 ps H1 H2) as (ps2 & E2 & C1 & C2 & C3 & C4).
  - intros v Hv. apply nc_self; auto.
  - rewrite E in E2. injection E2 as <-. split; auto. intros v Hv Hn. destruct (in_dec Nat.eq_dec v (vids ps)) as [Hi|Hi]; [|apply H4; auto]. destruct (C4 v Hi Hn) as (D1 & D2). split; auto. intros m Hm Hne HA.
    assert (Hsz : forall u, In u outs -> u < size) by (intros u Hu; apply HO; auto).
    destruct (in_dec Nat.eq_dec (lvar m) (vids ps)) as [Hj|Hj].
    + apply (D2 m Hj Hne). apply (alike_fp K size); auto. rewrite lvar_mk. auto.
    + destruct (H4 (lvar m) Hm Hj) as (_ & D3). destruct (lsign m) eqn:S.
      * apply (D3 (mkLit v true)); rewrite ?lvar_mk; auto. replace (mkLit (lvar m) true) with m by (rewrite <- S; apply lit_eta). apply alike_sym. auto.
      * apply (D3 (mkLit v false)); rewrite ?lvar_mk; auto. apply alike_sym in HA. apply alike_neg in HA. rewrite lneg_eta, lneg_mk, S in HA. auto.
Qed.
Lemma compress_defined h ps : HInv h ps -> nc h -> h <> [] -> exists ps', compress ps = Ok ps'.
Proof.
  intros [H1 H2 H3 H4] HN Hh. destruct (compress_ok (fingerprint h) (Bh h) V0 ps H1 H2) as (ps2 & E2 & _); eauto. intros v Hv. apply nc_self; auto.
Qed.
Lemma Forall2_vids (P : entry * entry -> entry * entry -> Prop) l r : (forall q q', P q q' -> vid (fst q') = vid (fst q)) -> Forall2 P l r -> vids r = vids l.
Proof. intros H. induction 1 as [|q q' l r HP HF IH]; cbn; auto. f_equal; [apply H; auto|apply IH]. Qed.
Lemma Forall2_in_r {A B} (P : A -> B -> Prop) l r y : Forall2 P l r -> In y r -> exists x, In x l /\ P x y.
Proof. induction 1 as [|a b l r HP HF IH]; intros Hy; [destruct Hy|]. destruct Hy as [<-|Hy]; [exists a; split; auto; left; auto|]. destruct (IH Hy) as (x & Hx & E). exists x. split; auto. right. auto. Qed.
Lemma finish round h ps2 : HInv h ps2 -> wfh h -> nc h -> h <> [] ->
  exists ps3, (if sched round then compress ps2 else Ok ps2) = Ok ps3 /\ HInv h ps3.
Proof.
  intros HI HW HN Hh. destruct (sched round); [|exists ps2; auto]. destruct (compress_defined h ps2 HI HN Hh) as (ps3 & E). exists ps3. split; auto. apply (drop_step h ps2); auto.
Qed.
Lemma first_update : wf_vectors K size vs0 -> nc [vs0] -> exists ps, update sched outs (0, []) vs0 = Ok (1, ps) /\ HInv [vs0] ps.
Proof.
  intros HW HN. destruct HO as (ON & OB). unfold update. cbn [Nat.eqb].
  assert (HH : forall os, (forall v, In v os -> v < size /\ (N.of_nat v < 2 ^ 28)%N) -> exists i p1 p2, mapM (init_entry vs0) os = Ok i /\ mapM (upd_entry true vs0) i = Ok p1 /\ mapM (upd_entry false vs0) p1 = Ok p2 /\ vids p2 = os /\ forall q, In q p2 -> is_pair (fingerprint [vs0]) (Bh [vs0]) V0 q).
  { clear HN. induction os as [|v os IH]; clear OB; intros OB; [exists [], [], []; cbn; intuition|]. destruct IH as (i & p1 & p2 & E1 & E2 & E3 & E4 & E5).
    - intros u Hu. apply OB. right. auto.
    - destruct (OB v (or_introl eq_refl)) as (B1 & B2). destruct (first_pair v HW B1 B2) as (q0 & q1 & q2 & F1 & F2 & F3 & F4 & F5). exists (q0 :: i), (q1 :: p1), (q2 :: p2). cbn [mapM]. rewrite F1, E1. cbn [bind]. split; auto. cbn [mapM]. rewrite F2, E2. cbn [bind]. split; auto. cbn [mapM]. rewrite F3, E3. cbn [bind]. split; auto. split; [cbn; rewrite F5; f_equal; auto|]. intros q [<-|Hq]; auto. }
  destruct (HH outs OB) as (i & p1 & p2 & E1 & E2 & E3 & E4 & E5). rewrite E1. cbn [bind app]. rewrite E2. cbn [bind]. rewrite E3. cbn [bind].
  assert (HI : HInv [vs0] p2) by (split; auto; rewrite E4; auto; intros v Hv Hn; contradiction). destruct (finish 0 [vs0] p2 HI) as (ps3 & E & HI3); auto; [intros v [<-|[]]; auto|discriminate|]. unfold pairs in *. rewrite E. cbn [bind]. exists ps3. auto.
Qed.
Lemma next_update h vs ps : HInv h ps -> h <> [] -> wfh (h ++ [vs]) -> nc (h ++ [vs]) ->
  exists ps', update sched outs (length h, ps) vs = Ok (S (length h), ps') /\ HInv (h ++ [vs]) ps'.
Proof.
  intros HI Hh HW HN. assert (HWV : wf_vectors K size vs) by (apply HW, in_or_app; right; left; auto). unfold update. destruct (Nat.eqb_spec (length h) 0) as [E0|_]; [destruct h; [contradiction|discriminate]|]. cbn [bind].
  destruct (mapM_ok (upd_entry false vs) (fun q q' => is_pair (fingerprint (h ++ [vs])) (Bh (h ++ [vs])) V0 q' /\ vid (fst q') = vid (fst q)) ps) as (p2 & E & HF).
  - intros q Hq. apply upd_pair; auto; [|apply (hi_pair _ _ HI); auto]. apply HO, (hi_in _ _ HI), (in_map (fun q => vid (fst q))). auto.
  - rewrite E. cbn [bind]. assert (EV : vids p2 = vids ps) by (apply (Forall2_vids _ _ _ (fun q q' H => proj2 H) HF)).
    assert (HI2 : HInv (h ++ [vs]) p2).
    { split.
      - intros q Hq. destruct (Forall2_in_r _ _ _ _ HF Hq) as (x & _ & H & _). auto.
      - rewrite EV. apply (hi_nd _ _ HI).
      - rewrite EV. apply (hi_in _ _ HI).
      - rewrite EV. intros v Hv Hn. destruct (hi_drop _ _ HI v Hv Hn) as (D1 & D2). split; [unfold Bh in *; rewrite forallb_app; apply andb_false_iff; left; exact D1|]. intros m Hm Hne HA. apply (D2 m Hm Hne). apply alike_app in HA. auto. }
    destruct (finish (length h) (h ++ [vs]) p2 HI2) as (ps3 & E3 & HI3); auto; [destruct h; discriminate|]. unfold pairs in *. rewrite E3. cbn [bind]. exists ps3. auto.
Qed.
Lemma more_updates hist : forall h ps, HInv h ps -> h <> [] -> wfh (h ++ hist) -> (forall a b, hist = a ++ b -> nc (h ++ a)) ->
  exists ps', updates sched outs (length h, ps) hist = Ok (length (h ++ hist), ps') /\ HInv (h ++ hist) ps'.
Proof.
  induction hist as [|vs hist IH]; intros h ps HI Hh HW HN; cbn [updates]; [exists ps; rewrite app_nil_r; auto|].
  destruct (next_update h vs ps HI Hh) as (ps1 & E1 & HI1).
  - intros v Hv. apply HW. apply in_app_iff in Hv. apply in_or_app. destruct Hv as [Hv|[<-|[]]]; auto. right. left. auto.
  - apply (HN [vs] hist). auto.
  - rewrite E1. cbn [bind]. replace (S (length h)) with (length (h ++ [vs])) by (rewrite app_length; cbn; lia). destruct (IH (h ++ [vs]) ps1 HI1) as (ps2 & E2 & HI2).
    + destruct h; discriminate.
    + rewrite <- app_assoc. auto.
    + intros a b E. rewrite <- app_assoc. apply (HN (vs :: a) b). rewrite E. auto.
    + exists ps2. rewrite <- app_assoc in E2, HI2. auto.
Qed.
End H.

Lemma partition_correct K size outs sched hist : 1 <= K -> hist <> [] -> (forall vs, In vs hist -> wf_vectors K size vs) -> wf_outputs outs size -> no_collisions K outs hist ->
  exists st cls bbs, updates sched outs (0, []) hist = Ok st /\ getConjectures outs (snd st) = Ok (cls, bbs) /\
    (forall l, In l bbs <-> In (lvar l) outs /\ always K hist l) /\
    (forall l m, In (lvar l) outs -> In (lvar m) outs -> lvar l <> lvar m ->
       (alike K hist l m <-> (exists c, In c cls /\ ((In l c /\ In m c) \/ (In (lneg l) c /\ In (lneg m) c))) \/
                             (In l bbs /\ In m bbs) \/ (In (lneg l) bbs /\ In (lneg m) bbs))) /\
    (forall c, In c cls -> 2 <= length c /\ forall l, In l c -> In (lvar l) outs /\ ~ always K hist l /\ ~ always K hist (lneg l)) /\
    good_conjectures size cls bbs.
Proof.
  intros HK Hne HW HO HC. destruct hist as [|vs0 hist]; [contradiction|]. set (hh := vs0 :: hist) in *.
  assert (NC : forall a b, hh = a ++ b -> a <> [] -> nc K outs a) by (intros a b E Ha l m Hl Hm EF; apply (HC a b); auto).
  destruct (first_update K size outs sched vs0 HK HO) as (ps1 & E1 & HI1); [apply HW; left; auto|apply (NC [vs0] hist); [reflexivity|discriminate]|].
  destruct (more_updates K size outs sched vs0 HK HO hist [vs0] ps1 HI1) as (ps & E2 & HI); [discriminate|exact HW|intros a b E; apply (NC ([vs0] ++ a) b); [unfold hh; rewrite E; auto|discriminate]|].
  cbn [app] in E2, HI. fold hh in E2, HI. pose proof (NC hh [] ltac:(rewrite app_nil_r; auto) ltac:(discriminate)) as NCH.
  assert (SZ : forall v, In v outs -> v < size) by (intros v Hv; apply HO; auto).
  destruct HI as [HP HN HIN HD]. unfold vectors, vec in *. change (vs0 :: hist) with hh in HP, HD, E2.
  destruct (conj_ok (fingerprint hh) (Bh vs0 hh) (V0 vs0) ps HP HN) with (outs := outs) as (cls & bbs & EC & C1 & C2 & C3 & C4 & C5); auto.
  { intros v Hv. apply (nc_self K outs HK hh v); auto. }
  { intros l m Hl Hm E. apply (alike_fp K size); rewrite ?lvar_neg; auto. apply alike_neg, NCH; auto. }
  { intros l m Hl Hm E. assert (HA : alike K hh l m) by (apply NCH; auto). assert (IFF : forall x y, In (lvar x) outs -> In (lvar y) outs -> alike K hh x y -> Bh vs0 hh (lvar x) = true -> Bh vs0 hh (lvar y) = true).
    { intros x y Hx Hy A BX. apply (Bh_lit K size sched vs0 HK hist x) in BX; auto. apply (Bh_lit K size sched vs0 HK hist y); auto. destruct BX as [BX|BX]; [left; apply (alike_always K hh x); auto|right; apply (alike_always K hh (lneg x)); auto; apply alike_neg; auto]. }
    pose proof (IFF l m (HIN _ Hl) (HIN _ Hm) HA). pose proof (IFF m l (HIN _ Hm) (HIN _ Hl) (alike_sym _ _ _ _ HA)). destruct (Bh vs0 hh (lvar l)), (Bh vs0 hh (lvar m)); auto; symmetry; auto. }
  assert (BBS : forall l, In l bbs <-> In (lvar l) outs /\ always K hh l).
  { intros l. rewrite C1. split.
    - intros (H1 & H2 & H3). split; auto. apply (Bh_spec K size vs0) in H2; auto. rewrite <- H3, <- lit_eta in H2. auto.
    - intros (H1 & H2). pose proof (always_sign K size sched vs0 HK hist l HW (SZ _ H1) H2) as ES. assert (HB : Bh vs0 hh (lvar l) = true) by (apply (Bh_spec K size vs0); auto; rewrite <- ES, <- lit_eta; auto). split; auto. destruct (in_dec Nat.eq_dec (lvar l) (vids ps)) as [Hi|Hi]; auto. destruct (HD _ H1 Hi). congruence. }
  exists (length hh, ps), cls, bbs. cbn [updates snd]. unfold hh at 1. cbn [updates]. rewrite E1. cbn [bind]. split; [exact E2|]. split; [exact EC|]. split; auto. split; [|split].
  - intros l m Hl Hm Hlm. split.
    + intros HA. destruct (Bh vs0 hh (lvar l)) eqn:EB.
      * right. pose proof (proj1 (Bh_lit K size sched vs0 HK hist l HW (SZ _ Hl)) EB) as [HL|HL].
        -- left. split; apply BBS; split; auto. apply (alike_always K hh l); auto.
        -- right. split; apply BBS; rewrite lvar_neg; split; auto. apply (alike_always K hh (lneg l)); auto. apply alike_neg. auto.
      * left. assert (PRES : forall x y, In (lvar x) outs -> In (lvar y) outs -> lvar x <> lvar y -> alike K hh x y -> In (lvar x) (vids ps)).
        { intros x y Hx Hy Hxy HXY. destruct (in_dec Nat.eq_dec (lvar x) (vids ps)) as [Hi|Hi]; auto. exfalso. destruct (HD _ Hx Hi) as (_ & D). destruct (lsign x) eqn:S; [apply (D y)|apply (D (lneg y))]; rewrite ?lvar_neg; auto; [rewrite <- S, <- lit_eta; auto|]. replace (mkLit (lvar x) true) with (lneg x) by (rewrite lneg_eta, S; auto). apply alike_neg. auto. }
        apply C3; auto; [apply (PRES l m); auto|apply (PRES m l); auto; apply alike_sym; auto|apply (alike_fp K size); auto].
    + intros [(c & Hc & [(H1 & H2)|(H1 & H2)])|[(H1 & H2)|(H1 & H2)]].
      * destruct (C2 c l m Hc H1 H2) as (_ & _ & E). apply NCH; auto.
      * destruct (C2 c _ _ Hc H1 H2) as (_ & _ & E). apply NCH in E; rewrite ?lvar_neg; auto. apply alike_neg in E. rewrite !lneg_invol in E. auto.
      * apply BBS in H1, H2. intros a Ha. destruct H1 as (_ & H1), H2 as (_ & H2). rewrite (H1 a Ha), (H2 a Ha). auto.
      * apply BBS in H1, H2. intros a Ha. destruct H1 as (_ & H1), H2 as (_ & H2). specialize (H1 a Ha). specialize (H2 a Ha). rewrite lit_val_neg in H1, H2. destruct (lit_val a l), (lit_val a m); auto; discriminate.
  - intros c Hc. split; auto. intros l Hl. destruct (C2 c l l Hc Hl Hl) as (H1 & H2 & _). split; auto. split; intros HA; assert (Bh vs0 hh (lvar l) = true) by (apply (Bh_lit K size sched vs0 HK hist l); auto); congruence.
  - split; auto. intros l Hl. apply SZ. apply in_app_iff in Hl. destruct Hl as [Hl|Hl]; [|apply BBS; auto]. apply in_concat in Hl. destruct Hl as (c & Hc & Hl). apply HIN, (C2 c l l Hc Hl Hl).
Qed.
