(** The partition: groups, compression, conjectures, for an arbitrary assignment of group ids to literals. *)
Require Import List Arith Bool NArith Lia ZifyBool ZifyNat ZifyN.
Require Import Verif.Base Verif.Outcome Verif.CNFModel Verif.CNFProofs Verif.TrailProofs Verif.GateModel Verif.SimModel Verif.SimSpec.
Import ListNotations.

Lemma mapM_ok {A B} (f : A -> out B) (P : A -> B -> Prop) l : (forall x, In x l -> exists y, f x = Ok y /\ P x y) -> exists r, mapM f l = Ok r /\ Forall2 P l r.
Proof.
  induction l as [|x l IH]; intros H; cbn [mapM]; [exists []; auto|]. destruct (H x (or_introl eq_refl)) as (y & E & HP). destruct IH as (r & Er & HF); [intros; apply H; right; auto|]. exists (y :: r). rewrite E, Er. cbn [bind]. auto.
Qed.
Lemma nodup_map_inj {A B} (f : A -> B) l x y : NoDup (map f l) -> In x l -> In y l -> f x = f y -> x = y.
Proof.
  induction l as [|a l IH]; intros ND Hx Hy E; [destruct Hx|]. cbn [map] in ND. inversion ND as [|? ? N1 N2]; subst. destruct Hx as [->|Hx], Hy as [->|Hy]; auto; exfalso; apply N1; [rewrite E|rewrite <- E]; apply in_map; auto.
Qed.
Lemma nodup_map_incl {A B} (f : A -> B) l w : NoDup (map f l) -> NoDup w -> (forall x, In x w -> In x l) -> NoDup (map f w).
Proof.
  intros ND HW HI. induction w as [|x w IH]; cbn [map]; [constructor|]. inversion HW as [|? ? N1 N2]; subst. constructor; [|apply IH; auto; intros; apply HI; right; auto]. intros HX. apply in_map_iff in HX. destruct HX as (y & E & Hy). apply N1. rewrite <- (nodup_map_inj f l y x); auto; [apply HI; right; auto|apply HI; left; auto].
Qed.
Lemma nodup_flat_map {A B} (f : A -> list B) l : NoDup l -> (forall x, In x l -> NoDup (f x)) -> (forall x y b, In x l -> In y l -> In b (f x) -> In b (f y) -> x = y) -> NoDup (flat_map f l).
Proof.
  induction l as [|x l IH]; intros ND H1 H2; cbn [flat_map]; [constructor|]. inversion ND as [|? ? N1 N2]; subst. assert (R : NoDup (flat_map f l)) by (apply IH; auto; [intros; apply H1; right; auto|intros a b c Ha Hb; apply H2; right; auto]).
  assert (D : forall b, In b (f x) -> ~ In b (flat_map f l)). { intros b Hb HX. apply in_flat_map in HX. destruct HX as (y & Hy & Hb'). apply N1. rewrite (H2 x y b); auto; [left; auto|right; auto]. }
  specialize (H1 x (or_introl eq_refl)). clear - H1 R D. induction (f x) as [|b r IHr]; cbn [app]; auto. inversion H1 as [|? ? M1 M2]; subst. constructor; [rewrite in_app_iff; intros [HX|HX]; [auto|apply (D b (or_introl eq_refl) HX)]|]. apply IHr; auto. intros c Hc. apply D. right. auto.
Qed.

(** ** groups *)
Definition entries (ps : pairs) : list entry := flat_map (fun q => [fst q; snd q]) ps.
Lemma has_gid_spec g es : has_gid g es = true <-> exists e, In e es /\ gid e = g.
Proof. unfold has_gid. rewrite existsb_exists. split; intros (e & He & E); exists e; split; auto; [apply N.eqb_eq|apply N.eqb_eq]; auto. Qed.
Lemma by_id_gen ps : forall es ord, (forall g, In g ord <-> exists e, In e es /\ gid e = g) -> NoDup ord -> (forall q, In q ps -> gid (fst q) <> gid (snd q)) ->
  exists ord', fold_left add_pair ps (es, ord) = (es ++ entries ps, ord') /\ (forall g, In g ord' <-> exists e, In e (es ++ entries ps) /\ gid e = g) /\ NoDup ord'.
Proof.
  induction ps as [|(p, n) ps IH]; intros es ord HO HN HD; cbn [fold_left entries flat_map]; [exists ord; rewrite app_nil_r; auto|]. cbn [fst snd].
  cbn [add_pair]. set (o1 := if has_gid (gid p) es then ord else ord ++ [gid p]). set (o2 := if has_gid (gid n) es then o1 else o1 ++ [gid n]).
  assert (HNE : gid p <> gid n) by (apply (HD (p, n)); left; auto).
  assert (M1 : forall g, In g o1 <-> In g ord \/ g = gid p). { intros g. unfold o1. destruct (has_gid (gid p) es) eqn:E; [|rewrite in_app_iff; cbn; intuition]. apply has_gid_spec in E. apply HO in E. intuition. subst. auto. }
  assert (D1 : NoDup o1). { unfold o1. destruct (has_gid (gid p) es) eqn:E; auto. apply NoDup_app_cons_r || idtac. apply (NoDup_Add (l := ord) (a := gid p)); [pose proof (Add_app (gid p) ord []) as X; rewrite app_nil_r in X; exact X|]. split; auto. intros HX. apply HO in HX. apply has_gid_spec in HX. congruence. }
  assert (M2 : forall g, In g o2 <-> In g ord \/ g = gid p \/ g = gid n). { intros g. unfold o2. destruct (has_gid (gid n) es) eqn:E; [|rewrite in_app_iff, M1; cbn; intuition]. apply has_gid_spec in E. apply HO in E. rewrite M1. intuition. subst. auto. }
  assert (D2 : NoDup o2). { unfold o2. destruct (has_gid (gid n) es) eqn:E; auto. apply (NoDup_Add (l := o1) (a := gid n)); [pose proof (Add_app (gid n) o1 []) as X; rewrite app_nil_r in X; exact X|]. split; auto. intros HX. apply M1 in HX. destruct HX as [HX|HX]; [apply HO in HX; apply has_gid_spec in HX; congruence|congruence]. }
  destruct (IH (es ++ [p; n]) o2) as (ord' & E1 & E2 & E3); auto.
  - intros g. rewrite M2, HO. split.
    + intros [(e & He & E)|[->| ->]]; [exists e; rewrite in_app_iff; auto|exists p|exists n]; (split; [apply in_or_app; right; cbn; auto|auto]).
    + intros (e & He & <-). apply in_app_iff in He. destruct He as [He|[<-|[<-|[]]]]; [left; exists e; auto|auto|auto].
  - intros q Hq. apply HD. right. auto.
  - exists ord'. rewrite <- app_assoc in E1, E2. auto.
Qed.
Lemma by_id_ok ps : (forall q, In q ps -> gid (fst q) <> gid (snd q)) ->
  exists ord, getPartitionsByID ps = (entries ps, ord) /\ (forall g, In g ord <-> exists e, In e (entries ps) /\ gid e = g) /\ NoDup ord.
Proof. intros H. apply (by_id_gen ps [] []); auto; [|constructor]. intros g. split; [intros []|intros (e & [] & _)]. Qed.
Lemma group_in es g e : In e (group es g) <-> In e es /\ gid e = g.
Proof. unfold group. rewrite filter_In, N.eqb_eq. reflexivity. Qed.

(** ** pairs with given ids: G for literals, B says which variables are backbones, V the backbone value *)
Section P.
Variables (G : lit -> N) (B V : var -> bool).
Definition is_pair (q : entry * entry) : Prop :=
  vid (snd q) = vid (fst q) /\ gid (fst q) = G (mkLit (vid (fst q)) true) /\ gid (snd q) = G (mkLit (vid (fst q)) false) /\
  pol (fst q) = true /\ pol (snd q) = false /\ bb (snd q) = false /\ bb (fst q) = B (vid (fst q)) /\ bbv (fst q) = V (vid (fst q)).
Definition vids (ps : pairs) : list var := map (fun q => vid (fst q)) ps.
Variable (ps : pairs).
Hypothesis HP : forall q, In q ps -> is_pair q.
Hypothesis HN : NoDup (vids ps).
Hypothesis HG : forall v, In v (vids ps) -> G (mkLit v true) <> G (mkLit v false).
Lemma pair_ne q : In q ps -> gid (fst q) <> gid (snd q).
Proof. intros Hq. destruct (HP q Hq) as (P1 & P2 & P3 & _). rewrite P2, P3. apply HG. apply (in_map (fun q => vid (fst q))). auto. Qed.
Lemma vid_in q : In q ps -> In (vid (fst q)) (vids ps).
Proof. apply (in_map (fun q => vid (fst q))). Qed.
(** an entry is a literal of a variable in the partition *)
Definition elit (e : entry) : lit := mkLit (vid e) (pol e).
Lemma entry_spec e : In e (entries ps) -> In (vid e) (vids ps) /\ gid e = G (elit e) /\ bb e = pol e && B (vid e).
Proof.
  unfold entries. rewrite in_flat_map. intros (q & Hq & He). pose proof (vid_in q Hq) as Hv. destruct (HP q Hq) as (P1 & P2 & P3 & P4 & P5 & P6 & P7 & P8). unfold elit. destruct He as [<-|[<-|[]]].
  - rewrite P2, P4, P7. auto.
  - rewrite P1, P3, P5, P6. auto.
Qed.
Lemma entry_of l : In (lvar l) (vids ps) -> exists e, In e (entries ps) /\ elit e = l.
Proof.
  intros H. unfold vids in H. apply in_map_iff in H. destruct H as (q & E & Hq). destruct (HP q Hq) as (P1 & P2 & P3 & P4 & P5 & P6 & P7 & P8). exists (if lsign l then fst q else snd q). split; [apply in_flat_map; exists q; split; auto; destruct (lsign l); cbn; auto|].
  unfold elit. destruct (lsign l) eqn:S; [rewrite E, P4|rewrite P1, E, P5]; rewrite <- S; symmetry; apply lit_eta.
Qed.
Lemma elit_inj e e' : In e (entries ps) -> In e' (entries ps) -> elit e = elit e' -> e = e'.
Proof.
  unfold entries. rewrite !in_flat_map. intros (q & Hq & He) (q' & Hq' & He') E. apply mkLit_inj in E. destruct E as (E1 & E2).
  destruct (HP q Hq) as (P1 & _ & _ & P4 & P5 & _). destruct (HP q' Hq') as (P1' & _ & _ & P4' & P5' & _).
  assert (vid (fst q) = vid (fst q')) by (destruct He as [<-|[<-|[]]], He' as [<-|[<-|[]]]; congruence). assert (q = q') by (apply (nodup_map_inj (fun q => vid (fst q)) ps); auto). subst q'.
  destruct He as [<-|[<-|[]]], He' as [<-|[<-|[]]]; auto; congruence.
Qed.
Lemma entries_nodup : NoDup (entries ps).
Proof.
  apply nodup_flat_map.
  - apply (NoDup_map_inv (fun q => vid (fst q))). auto.
  - intros q Hq. pose proof (pair_ne q Hq). constructor; [intros [E|[]]; congruence|]. constructor; [intros []|constructor].
  - intros q q' e Hq Hq' He He'. destruct (HP q Hq) as (P1 & _ & _ & P4 & P5 & _). destruct (HP q' Hq') as (P1' & _ & _ & P4' & P5' & _).
    apply (nodup_map_inj (fun q => vid (fst q)) ps); auto. destruct He as [<-|[<-|[]]], He' as [E|[E|[]]]; rewrite <- ?E in *; congruence.
Qed.
Lemma neg_gid_ok v : In v (vids ps) -> neg_gid ps v = G (mkLit v false).
Proof.
  intros H. unfold neg_gid. destruct (find _ (rev ps)) as [q|] eqn:E.
  - apply find_some in E. destruct E as (E1 & E2). apply in_rev in E1. apply Nat.eqb_eq in E2. destruct (HP q E1) as (_ & _ & P3 & _). rewrite P3, E2. auto.
  - exfalso. unfold vids in H. apply in_map_iff in H. destruct H as (q & E1 & Hq). apply in_rev in Hq. pose proof (find_none _ _ E q Hq) as E2. cbv beta in E2. cbv beta in E1. rewrite E1, Nat.eqb_refl in E2. discriminate.
Qed.
(** *** compression *)
Definition wb (e : entry) : entry * entry := (e, mkE (neg_gid ps (vid e)) (vid e) false false false).
Lemma write_back_ok part : forall done, length done + length (filter pol part) <= length ps -> write_back ps part done = Ok (done ++ map wb (filter pol part)).
Proof.
  induction part as [|e part IH]; intros done HL; cbn [write_back filter]; [cbn [map]; rewrite app_nil_r; auto|]. cbn [filter] in HL. destruct (pol e); [|auto]. cbn [length map] in *.
  destruct (Nat.ltb_spec (length done) (length ps)); [|lia]. rewrite IH; [|rewrite app_length; cbn [length]; lia]. rewrite <- app_assoc. reflexivity.
Qed.
Definition keep (g : N) : bool := match group (entries ps) g with [] => false | e0 :: _ => (1 <? length (group (entries ps) g)) || (pol e0 && bb e0) end.
Definition kept (ord : list N) : list entry := flat_map (fun g => if keep g then filter pol (group (entries ps) g) else []) ord.
Lemma compress_groups_ok ord : forall done, (forall g, In g ord -> exists e, In e (entries ps) /\ gid e = g) -> length done + length (kept ord) <= length ps ->
  compress_groups ps (entries ps) ord done = Ok (done ++ map wb (kept ord)).
Proof.
  induction ord as [|g ord IH]; intros done HO HL; cbn [compress_groups kept flat_map]; [rewrite app_nil_r; auto|]. cbn [kept flat_map] in HL. rewrite app_length in HL. fold (kept ord) in *.
  destruct (HO g (or_introl eq_refl)) as (e & He & Eg). assert (HI : In e (group (entries ps) g)) by (apply group_in; auto).
  revert HL HI. unfold keep. destruct (group (entries ps) g) as [|e0 r] eqn:EG; [intros _ []|]. destruct ((1 <? length (e0 :: r)) || (pol e0 && bb e0)); intros HL HI.
  - rewrite write_back_ok by lia. cbn [bind]. rewrite IH; [rewrite <- app_assoc, <- map_app; auto|intros; apply HO; right; auto|rewrite app_length, map_length; lia].
  - cbn [app]. apply IH; [intros; apply HO; right; auto|cbn [length] in HL; lia].
Qed.
Lemma kept_in ord e : In e (kept ord) -> In e (map fst ps) /\ In (gid e) ord.
Proof.
  unfold kept. rewrite in_flat_map. intros (g & Hg & He). destruct (keep g); [|destruct He]. apply filter_In in He. destruct He as (He & Ep). apply group_in in He. destruct He as (He & <-). split; auto.
  unfold entries in He. apply in_flat_map in He. destruct He as (q & Hq & [<-|[<-|[]]]); [apply in_map; auto|]. destruct (HP q Hq) as (_ & _ & _ & _ & P5 & _). congruence.
Qed.
Lemma kept_nodup ord : NoDup ord -> NoDup (kept ord).
Proof.
  intros ND. apply nodup_flat_map; auto.
  - intros g _. destruct (keep g); [|constructor]. apply NoDup_filter, NoDup_filter, entries_nodup.
  - intros g g' e _ _ He He'. destruct (keep g); [|destruct He]. destruct (keep g'); [|destruct He']. apply filter_In in He, He'. destruct He as (He & _), He' as (He' & _). apply group_in in He, He'. destruct He, He'. congruence.
Qed.
Lemma compress_ok : exists ps', compress ps = Ok ps' /\ (forall q, In q ps' -> is_pair q) /\ NoDup (vids ps') /\ (forall v, In v (vids ps') -> In v (vids ps)) /\
  (forall v, In v (vids ps) -> ~ In v (vids ps') -> B v = false /\ forall m, In (lvar m) (vids ps) -> lvar m <> v -> G (mkLit v true) <> G m).
Proof.
  destruct (by_id_ok ps pair_ne) as (ord & E & HO & ND). unfold compress. rewrite E.
  assert (KN := kept_nodup ord ND). assert (KL : length (kept ord) <= length ps) by (rewrite <- (map_length fst ps); apply NoDup_incl_length; auto; intros e He; apply (kept_in ord e He)).
  assert (EV : forall es, map (fun q => vid (fst q)) (map wb es) = map vid es) by (intros es; rewrite map_map; auto).
  exists (map wb (kept ord)). split; [apply (compress_groups_ok ord []); [intros g; apply HO|auto]|]. split; [|split; [|split]].
  - intros q Hq. apply in_map_iff in Hq. destruct Hq as (e & <- & He). apply kept_in in He. destruct He as (He & _). apply in_map_iff in He. destruct He as (q & <- & Hq). destruct (HP q Hq) as (P1 & P2 & P3 & P4 & P5 & P6 & P7 & P8). unfold wb, is_pair. cbn [fst snd vid gid pol bb]. rewrite neg_gid_ok by (apply vid_in; auto). auto 10.
  - unfold vids. rewrite EV. apply (nodup_map_incl vid (map fst ps)); auto; [unfold vids in HN; rewrite map_map; auto|]. intros e He. apply (kept_in ord e He).
  - intros v Hv. unfold vids in Hv. rewrite EV in Hv. apply in_map_iff in Hv. destruct Hv as (e & <- & He). apply kept_in in He. destruct He as (He & _). apply in_map_iff in He. destruct He as (q & <- & Hq). apply vid_in. auto.
  - intros v Hv Hn. unfold vids in Hv. apply in_map_iff in Hv. destruct Hv as (q & <- & Hq). assert (HE : In (fst q) (entries ps)) by (apply in_flat_map; exists q; cbn; auto). destruct (HP q Hq) as (P1 & P2 & P3 & P4 & P5 & P6 & P7 & P8).
    assert (HK : keep (gid (fst q)) = false). { destruct (keep (gid (fst q))) eqn:EK; auto. exfalso. apply Hn. unfold vids. rewrite EV. apply in_map. unfold kept. apply in_flat_map. exists (gid (fst q)). split; [apply HO; exists (fst q); auto|]. rewrite EK. apply filter_In. split; auto. apply group_in. auto. }
    assert (HI : In (fst q) (group (entries ps) (gid (fst q)))) by (apply group_in; auto). unfold keep in HK. revert HI HK. destruct (group (entries ps) (gid (fst q))) as [|e0 r] eqn:EG; [intros []|]. intros HI HK. apply orb_false_iff in HK. destruct HK as (HK1 & HK2). cbn [length] in HK1. destruct r as [|e1 r]; [|discriminate]. destruct HI as [->|[]]. split; [rewrite P4, P7 in HK2; auto|].
    intros m Hm Hne EQ. destruct (entry_of m Hm) as (e & He & El). assert (HX : In e (group (entries ps) (gid (fst q)))). { apply group_in. split; auto. destruct (entry_spec e He) as (_ & -> & _). rewrite El. congruence. }
    rewrite EG in HX. destruct HX as [<-|[]]. apply Hne. rewrite <- El. unfold elit. rewrite lvar_mk. auto.
Qed.
(** *** conjectures *)
Hypothesis HGn : forall l m, In (lvar l) (vids ps) -> In (lvar m) (vids ps) -> G l = G m -> G (lneg l) = G (lneg m).
Hypothesis HGb : forall l m, In (lvar l) (vids ps) -> In (lvar m) (vids ps) -> G l = G m -> B (lvar l) = B (lvar m).
Definition part (g : N) : list entry := group (entries ps) g.
(** the groups with the positive entry of the variable *)
Definition seen_in (pre : list N) (v : var) : bool := existsb (fun g => existsb (fun e => pol e && (vid e =? v)) (part g)) pre.
Lemma ignoring_ok es : forall seen a b c, (forall e, In e es -> vid e < length seen) -> (forall e e', In e es -> In e' es -> pol e = true -> pol e' = false -> vid e <> vid e') ->
  exists seen', ignoring es seen a b c = Ok ((a || existsb (fun e => negb (pol e) && nth (vid e) seen false) es) || negb (b || existsb pol es) || (c || existsb bb es), seen') /\
    length seen' = length seen /\ forall v, v < length seen -> nth v seen' false = nth v seen false || existsb (fun e => pol e && (vid e =? v)) es.
Proof.
  induction es as [|e es IH]; intros seen a b c HL HD; cbn [ignoring existsb]; [exists seen; rewrite !orb_false_r; split; auto; split; auto; intros; rewrite orb_false_r; auto|].
  assert (He : vid e < length seen) by (apply HL; left; auto). rewrite (nth_error_nth' seen false He). set (s := nth (vid e) seen false). set (seen1 := set_nth (vid e) (s || pol e) seen).
  assert (L1 : length seen1 = length seen) by apply set_nth_length.
  assert (N1 : forall v, v < length seen -> nth v seen1 false = nth v seen false || (pol e && (vid e =? v))). { intros v Hv. unfold seen1. destruct (Nat.eq_dec v (vid e)) as [->|Hne]; [rewrite nth_set_nth_same, Nat.eqb_refl, andb_true_r by auto; auto|]. rewrite nth_set_nth_other by auto. destruct (Nat.eqb_spec (vid e) v); [congruence|]. rewrite andb_false_r, orb_false_r. auto. }
  destruct (IH seen1 (a || negb (pol e) && s) (b || pol e) (c || bb e)) as (seen' & E & L2 & N2).
  - intros e' He'. rewrite L1. apply HL. right. auto.
  - intros x y Hx Hy. apply HD; right; auto.
  - exists seen'. split; [|split; [congruence|]].
    + rewrite E. f_equal. f_equal. f_equal; [|rewrite orb_assoc; auto]. f_equal; [|rewrite orb_assoc; auto]. rewrite <- orb_assoc. f_equal. f_equal. apply existsb_ext_in || idtac.
      assert (EX : forall l, (forall x, In x l -> In x es) -> existsb (fun e0 => negb (pol e0) && nth (vid e0) seen1 false) l = existsb (fun e0 => negb (pol e0) && nth (vid e0) seen false) l).
      { induction l as [|x l IHl]; intros HI; cbn [existsb]; auto. rewrite IHl by (intros; apply HI; right; auto). f_equal. assert (Hx : In x es) by (apply HI; left; auto). destruct (pol x) eqn:Px; cbn [negb andb]; auto. rewrite N1 by (apply HL; right; auto).
        destruct (pol e) eqn:Pe; cbn [andb]; [|rewrite orb_false_r; auto]. destruct (Nat.eqb_spec (vid e) (vid x)) as [EE|]; [|rewrite orb_false_r; auto]. exfalso. apply (HD e x); auto; [left; auto|right; auto]. }
      apply EX. auto.
    + intros v Hv. rewrite N2, N1 by lia. rewrite orb_assoc. auto.
Qed.
Definition ignored (pre : list N) (g : N) : bool :=
  existsb (fun e => negb (pol e) && seen_in pre (vid e)) (part g) || negb (existsb pol (part g)) || existsb bb (part g).
Fixpoint emit (pre ord : list N) : list (list lit) :=
  match ord with [] => [] | g :: ord' => (if ignored pre g then [] else add_class (part g) []) ++ emit (pre ++ [g]) ord' end.
Lemma part_pol g e e' : In e (part g) -> In e' (part g) -> pol e = true -> pol e' = false -> vid e <> vid e'.
Proof.
  intros He He' P P' EV. apply group_in in He, He'. destruct He as (He & Eg), He' as (He' & Eg'). destruct (entry_spec e He) as (Hv & E1 & _). destruct (entry_spec e' He') as (Hv' & E1' & _). unfold elit in *. rewrite P in E1. rewrite P', <- EV in E1'. apply (HG (vid e) Hv). congruence.
Qed.
Lemma seen_app pre g v : seen_in (pre ++ [g]) v = seen_in pre v || existsb (fun e => pol e && (vid e =? v)) (part g).
Proof. unfold seen_in. rewrite existsb_app. cbn [existsb]. rewrite orb_false_r. auto. Qed.
Lemma conj_groups_ok size : (forall v, In v (vids ps) -> v < size) -> forall ord pre seen cls, length seen = size -> (forall v, v < size -> nth v seen false = seen_in pre v) ->
  conj_groups (entries ps) ord seen cls = Ok (cls ++ emit pre ord).
Proof.
  intros HS. induction ord as [|g ord IH]; intros pre seen cls HL HV; cbn [conj_groups emit]; [rewrite app_nil_r; auto|].
  assert (HB : forall e, In e (part g) -> vid e < length seen) by (intros e He; apply group_in in He; destruct He as (He & _); rewrite HL; apply HS, (entry_spec e He)).
  destruct (ignoring_ok (part g) seen false false false) as (seen' & E & L' & N'); auto; [apply part_pol|]. fold (part g). rewrite E. cbn [bind orb].
  assert (EI : existsb (fun e => negb (pol e) && nth (vid e) seen false) (part g) = existsb (fun e => negb (pol e) && seen_in pre (vid e)) (part g)).
  { clear E N'. induction (part g) as [|x l IHl]; cbn [existsb]; auto. rewrite IHl by (intros; apply HB; right; auto). f_equal. f_equal. apply HV. rewrite <- HL. apply HB. left. auto. }
  rewrite EI. fold (ignored pre g). rewrite (IH (pre ++ [g])); [|congruence|].
  - f_equal. destruct (ignored pre g); auto. unfold add_class. destruct (_ && _); auto. rewrite <- app_assoc. auto.
  - intros v Hv. rewrite N' by lia. rewrite seen_app, HV by auto. auto.
Qed.
Lemma max_ge l v : In v l -> v <= fold_left Nat.max l 0.
Proof.
  assert (H : forall l m, m <= fold_left Nat.max l m /\ (In v l -> v <= fold_left Nat.max l m)). { clear. induction l as [|x l IH]; intros m; cbn [fold_left]; [split; auto; intros []|]. destruct (IH (Nat.max m x)) as (H1 & H2). split; [lia|]. intros [->|H]; [lia|auto]. }
  apply H.
Qed.
Lemma in_emit ord : forall pre c, In c (emit pre ord) <-> exists a g b, ord = a ++ g :: b /\ ignored (pre ++ a) g = false /\ c = class_of (part g) /\ 2 <= length (class_of (part g)).
Proof.
  induction ord as [|g ord IH]; intros pre c; cbn [emit]; [split; [intros []|intros ([|] & g & b & E & _); discriminate]|]. rewrite in_app_iff, IH. split.
  - intros [H|(a & g' & b & -> & H)]; [|exists (g :: a), g', b; rewrite <- app_assoc in H; auto]. exists [], g, ord. rewrite app_nil_r. destruct (ignored pre g); [destruct H|]. unfold add_class in H. destruct (_ && _) eqn:E; [|destruct H]. apply andb_true_iff in E. destruct E as (_ & E). apply Nat.leb_le in E. destruct H as [<-|[]]. auto.
  - intros (a & g' & b & E & H1 & H2 & H3). destruct a as [|x a]; injection E as -> ->.
    + left. rewrite app_nil_r in H1. rewrite H1. unfold add_class. assert (HLE : length (class_of (part g')) <= length (part g')) by (unfold class_of; rewrite map_length; clear; induction (part g') as [|e l IHl]; cbn; auto; destruct (negb (bb e)); cbn; lia).
      destruct (Nat.ltb_spec 1 (length (part g'))); [|lia]. destruct (Nat.leb_spec 2 (length (class_of (part g')))); [|lia]. left. auto.
    + right. exists a, g', b. rewrite <- app_assoc. auto.
Qed.
(** the members of the class of a group *)
Lemma class_in g l : In l (class_of (part g)) <-> In (lvar l) (vids ps) /\ G l = g /\ (lsign l = true -> B (lvar l) = false).
Proof.
  unfold class_of. rewrite in_map_iff. split.
  - intros (e & <- & He). apply filter_In in He. destruct He as (He & Hb). apply group_in in He. destruct He as (He & Eg). destruct (entry_spec e He) as (H1 & H2 & H3). rewrite lvar_mk, lsign_mk. split; auto. split; [unfold elit in H2; congruence|]. intros P. rewrite H3, P in Hb. apply negb_true_iff in Hb. auto.
  - intros (H1 & H2 & H3). destruct (entry_of l H1) as (e & He & El). exists e. split; auto. apply filter_In. destruct (entry_spec e He) as (E1 & E2 & E3). split; [apply group_in; split; auto; congruence|]. rewrite E3. apply negb_true_iff. rewrite <- El in H3. unfold elit in H3. rewrite lvar_mk, lsign_mk in H3. destruct (pol e); auto.
Qed.
(** which groups are ignored *)
Lemma seen_spec pre v : In v (vids ps) -> (seen_in pre v = true <-> In (G (mkLit v true)) pre).
Proof.
  intros Hv. unfold seen_in. rewrite existsb_exists. split.
  - intros (g & Hg & E). apply existsb_exists in E. destruct E as (e & He & E). apply andb_true_iff in E. destruct E as (E1 & E2). apply Nat.eqb_eq in E2. apply group_in in He. destruct He as (He & Eg). destruct (entry_spec e He) as (_ & H & _). unfold elit in H. rewrite E1, E2 in H. congruence.
  - intros Hg. exists (G (mkLit v true)). split; auto. apply existsb_exists. destruct (entry_of (mkLit v true)) as (e & He & El); [rewrite lvar_mk; auto|]. destruct (entry_spec e He) as (_ & H & _). exists e. split; [apply group_in; split; congruence|]. unfold elit in El. apply mkLit_inj in El. destruct El as (-> & ->). rewrite Nat.eqb_refl. auto.
Qed.
Lemma ignored_spec pre g l : In (lvar l) (vids ps) -> G l = g ->
  (ignored pre g = false <-> (forall m, In (lvar m) (vids ps) -> G m = g -> lsign m = false -> ~ In (G (lneg l)) pre) /\ (exists m, In (lvar m) (vids ps) /\ G m = g /\ lsign m = true) /\ B (lvar l) = false).
Proof.
  intros Hl Eg. assert (PI : forall e, In e (part g) -> In (vid e) (vids ps) /\ G (elit e) = g /\ bb e = pol e && B (vid e)) by (intros e He; apply group_in in He; destruct He as (He & E); destruct (entry_spec e He) as (A1 & A2 & A3); split; auto; split; auto; congruence).
  assert (PO : forall m, In (lvar m) (vids ps) -> G m = g -> exists e, In e (part g) /\ elit e = m) by (intros m Hm E; destruct (entry_of m Hm) as (e & He & El); exists e; split; auto; apply group_in; split; auto; destruct (entry_spec e He) as (_ & -> & _); congruence).
  assert (NB : forall e, In e (part g) -> B (vid e) = B (lvar l)). { intros e He. destruct (PI e He) as (A1 & A2 & _). assert (lvar (elit e) = vid e) by apply lvar_mk. rewrite <- H. apply HGb; auto; [rewrite H; auto|congruence]. }
  assert (NN : forall m, In (lvar m) (vids ps) -> G m = g -> G (lneg m) = G (lneg l)) by (intros m Hm E; apply HGn; auto; congruence).
  unfold ignored. rewrite !orb_false_iff, negb_false_iff. split.
  - intros ((H1 & H2) & H3). apply existsb_exists in H2. destruct H2 as (e & He & Pe). destruct (PI e He) as (A1 & A2 & A3). split; [|split; [exists (elit e); unfold elit in *; rewrite lvar_mk, lsign_mk; auto|]].
    + intros m Hm Em Sm HX. rewrite <- (NN m Hm Em) in HX. assert (E : existsb (fun e => negb (pol e) && seen_in pre (vid e)) (part g) = true); [|congruence]. apply existsb_exists. destruct (PO m Hm Em) as (e' & He' & El). exists e'. split; auto. unfold elit in El. assert (Ev : vid e' = lvar m) by (rewrite <- El, lvar_mk; auto). assert (Ep : pol e' = false) by (rewrite <- Sm, <- El, lsign_mk; auto).
      rewrite Ep, Ev. cbn [negb andb]. apply seen_spec; auto. replace (mkLit (lvar m) true) with (lneg m); auto. assert (EN : lneg m = mkLit (lvar m) (negb (lsign m))) by (rewrite (lit_eta m) at 1; apply lneg_mk). rewrite EN, Sm. auto.
    + destruct (B (lvar l)) eqn:EB; auto. assert (E : existsb bb (part g) = true); [|congruence]. apply existsb_exists. exists e. split; auto. rewrite A3, Pe, (NB e He). auto.
  - intros (H1 & (m & Hm & Em & Sm) & H3). split; [split|].
    + destruct (existsb _ _) eqn:EX; auto. exfalso. apply existsb_exists in EX. destruct EX as (e & He & E). apply andb_true_iff in E. destruct E as (Pe & E). apply negb_true_iff in Pe. destruct (PI e He) as (A1 & A2 & A3). apply seen_spec in E; auto. unfold elit in A2. rewrite Pe in A2. apply (H1 (mkLit (vid e) false)); rewrite ?lvar_mk, ?lsign_mk; auto. rewrite <- (NN (mkLit (vid e) false)); rewrite ?lvar_mk; auto. rewrite lneg_mk. auto.
    + apply existsb_exists. destruct (PO m Hm Em) as (e & He & El). exists e. split; auto. rewrite <- Sm, <- El. unfold elit. rewrite lsign_mk. auto.
    + destruct (existsb bb (part g)) eqn:EX; auto. apply existsb_exists in EX. destruct EX as (e & He & E). destruct (PI e He) as (_ & _ & A3). rewrite A3, (NB e He), H3, andb_false_r in E. discriminate.
Qed.
Lemma conj_ok outs : (forall v, In v (vids ps) -> In v outs) ->
  exists cls bbs, getConjectures outs ps = Ok (cls, bbs) /\
    (forall l, In l bbs <-> In (lvar l) (vids ps) /\ B (lvar l) = true /\ lsign l = V (lvar l)) /\
    (forall c l m, In c cls -> In l c -> In m c -> In (lvar l) (vids ps) /\ B (lvar l) = false /\ G l = G m) /\
    (forall l m, In (lvar l) (vids ps) -> In (lvar m) (vids ps) -> lvar l <> lvar m -> B (lvar l) = false -> G l = G m ->
       exists c, In c cls /\ ((In l c /\ In m c) \/ (In (lneg l) c /\ In (lneg m) c))) /\
    (forall c, In c cls -> 2 <= length c) /\
    NoDup (map lvar (concat cls ++ bbs)).
Proof.
  intros HO. destruct (by_id_ok ps pair_ne) as (ord & E & HI & ND). unfold getConjectures. rewrite E. rewrite (conj_groups_ok (S (fold_left Nat.max outs 0))) with (pre := []).
  2: { intros v Hv. apply Nat.lt_succ_r, max_ge. auto. } 2: { apply repeat_length. } 2: { intros v Hv. rewrite nth_repeat. auto. }
  cbn [bind app]. eexists. eexists. split; [reflexivity|].
  assert (BBI : forall l, In l (map (fun q => mkLit (vid (fst q)) (bbv (fst q))) (filter (fun q => bb (fst q)) ps)) <-> In (lvar l) (vids ps) /\ B (lvar l) = true /\ lsign l = V (lvar l)).
  { intros l. rewrite in_map_iff. split.
    - intros (q & <- & Hq). apply filter_In in Hq. destruct Hq as (Hq & Hb). destruct (HP q Hq) as (P1 & P2 & P3 & P4 & P5 & P6 & P7 & P8). rewrite lvar_mk, lsign_mk. split; [apply vid_in; auto|]. split; congruence.
    - intros (H1 & H2 & H3). unfold vids in H1. apply in_map_iff in H1. destruct H1 as (q & Ev & Hq). destruct (HP q Hq) as (P1 & P2 & P3 & P4 & P5 & P6 & P7 & P8). exists q. split; [rewrite P8, Ev, <- H3; symmetry; apply lit_eta|]. apply filter_In. split; auto. congruence. }
  assert (CI : forall pre o c l, In c (emit pre o) -> In l c -> In (lvar l) (vids ps) /\ B (lvar l) = false /\ In (G l) o /\ exists a b, o = a ++ G l :: b /\ ignored (pre ++ a) (G l) = false /\ c = class_of (part (G l))).
  { intros pre o c l Hc Hl. apply in_emit in Hc. destruct Hc as (a & g & b & -> & H1 & -> & _). pose proof Hl as Hl'. apply class_in in Hl'. destruct Hl' as (L1 & <- & L3). split; auto. split; [apply (ignored_spec _ (G l) l L1 eq_refl) in H1; tauto|]. split; [apply in_or_app; right; left; auto|]. exists a, b. auto. }
  split; auto. split; [|split; [|split]].
  - intros c l m Hc Hl Hm. destruct (CI _ _ _ _ Hc Hl) as (L1 & L2 & _ & a & b & _ & _ & ->). apply class_in in Hm. destruct Hm as (_ & -> & _). auto.
  - intros l m Hl Hm Hne Hb EG. 
    assert (BM : B (lvar m) = false) by (rewrite <- (HGb l m); auto).
    (* one of the two mirrored groups is emitted *)
    assert (ST : forall l m a b, In (lvar l) (vids ps) -> In (lvar m) (vids ps) -> lvar l <> lvar m -> B (lvar l) = false -> B (lvar m) = false -> G l = G m -> ord = a ++ G l :: b -> ~ In (G (lneg l)) a ->
      exists c, In c (emit [] ord) /\ ((In l c /\ In m c) \/ (In (lneg l) c /\ In (lneg m) c))).
    { clear l m Hl Hm Hne Hb EG BM. intros l m a b Hl Hm Hne Hb BM EG EO HA.
      assert (TWO : forall x y, In (lvar x) (vids ps) -> In (lvar y) (vids ps) -> lvar x <> lvar y -> B (lvar x) = false -> B (lvar y) = false -> G x = G y -> In x (class_of (part (G x))) /\ In y (class_of (part (G x))) /\ 2 <= length (class_of (part (G x)))).
      { intros x y Hx Hy Hxy Bx By EXY. assert (I1 : In x (class_of (part (G x)))) by (apply class_in; auto). assert (I2 : In y (class_of (part (G x)))) by (apply class_in; auto). split; auto. split; auto. destruct (class_of (part (G x))) as [|z [|z' r]]; [destruct I1| |cbn; lia]. exfalso. destruct I1 as [->|[]], I2 as [->|[]]. auto. }
      destruct (existsb pol (part (G l))) eqn:EP.
      - (* has a positive entry *)
        destruct (TWO l m) as (I1 & I2 & I3); auto. exists (class_of (part (G l))). split; [|left; auto]. apply in_emit. exists a, (G l), b. split; auto. split; auto. apply (ignored_spec _ (G l) l Hl eq_refl). split; [intros; auto|]. split; auto.
        apply existsb_exists in EP. destruct EP as (e & He & Pe). apply group_in in He. destruct He as (He & Eg). destruct (entry_spec e He) as (A1 & A2 & A3). exists (elit e). unfold elit in *. rewrite lvar_mk, lsign_mk. split; auto. split; auto. congruence.
      - (* all negative: the mirrored group is all positive *)
        assert (AN : forall x, In (lvar x) (vids ps) -> G x = G l -> lsign x = false). { intros x Hx EX. destruct (lsign x) eqn:S; auto. exfalso. destruct (entry_of x Hx) as (e & He & El). destruct (entry_spec e He) as (A1 & A2 & A3). assert (EE : existsb pol (part (G l)) = true); [|congruence]. apply existsb_exists. exists e. split; [apply group_in; split; auto; congruence|]. rewrite <- S, <- El. unfold elit. rewrite lsign_mk. auto. }
        assert (HN1 : G (lneg l) = G (lneg m)) by (apply HGn; auto). assert (HlN : In (lvar (lneg l)) (vids ps)) by (rewrite lvar_neg; auto). assert (HmN : In (lvar (lneg m)) (vids ps)) by (rewrite lvar_neg; auto).
        destruct (TWO (lneg l) (lneg m)) as (I1 & I2 & I3); rewrite ?lvar_neg; auto. exists (class_of (part (G (lneg l)))). split; [|right; auto].
        assert (HIN : In (G (lneg l)) ord). { apply HI. destruct (entry_of (lneg l) HlN) as (e & He & El). exists e. split; auto. destruct (entry_spec e He) as (_ & -> & _). congruence. }
        apply in_split in HIN. destruct HIN as (a' & b' & EO'). apply in_emit. exists a', (G (lneg l)), b'. split; auto. split; auto. apply (ignored_spec _ (G (lneg l)) (lneg l) HlN eq_refl). rewrite lvar_neg. split; [|split; auto].
        + intros x Hx EX SX. exfalso. assert (E2 : G (lneg x) = G l) by (rewrite <- (lneg_invol l); apply HGn; auto). apply AN in E2; [|rewrite lvar_neg; auto]. rewrite lsign_neg, SX in E2. discriminate.
        + exists (lneg l). split; auto. split; auto. rewrite lsign_neg, (AN l); auto. }
    assert (HIN : forall x, In (lvar x) (vids ps) -> In (G x) ord) by (intros x Hx; apply HI; destruct (entry_of x Hx) as (e & He & El); exists e; split; auto; destruct (entry_spec e He) as (_ & -> & _); congruence).
    pose proof (HIN l Hl) as I1. apply in_split in I1. destruct I1 as (a & b & EO). destruct (in_dec N.eq_dec (G (lneg l)) a) as [HA|HA].
    + apply in_split in HA. destruct HA as (a1 & a2 & Ea). destruct (ST (lneg l) (lneg m) a1 (a2 ++ G l :: b)) as (c & Hc & HH); rewrite ?lvar_neg; auto.
      * rewrite EO, Ea, <- app_assoc. reflexivity.
      * rewrite lneg_invol. intros HX. rewrite EO, Ea in ND. rewrite <- app_assoc in ND. apply in_split in HX. destruct HX as (y & z & ->). rewrite <- app_assoc in ND. apply NoDup_remove_2 in ND. apply ND. apply in_or_app. right. apply in_or_app. right. right. apply in_or_app. right. left. auto.
      * exists c. split; auto. rewrite !lneg_invol in HH. tauto.
    + apply (ST l m a b); auto.
  - intros c Hc. apply in_emit in Hc. destruct Hc as (a & g & b & _ & _ & -> & H). auto.
  - (* every variable at most once *)
    rewrite map_app.
    assert (CN : forall g, NoDup (map lvar (class_of (part g)))). { intros g. unfold class_of. rewrite map_map. rewrite (map_ext _ vid) by (intros e; apply lvar_mk). 
      assert (PN : NoDup (filter (fun e => negb (bb e)) (part g))) by apply NoDup_filter, NoDup_filter, entries_nodup.
      assert (PV : forall e e', In e (part g) -> In e' (part g) -> vid e = vid e' -> e = e'). { intros e e' He He' EV. destruct (Bool.bool_dec (pol e) (pol e')) as [EP|EP].
        - apply elit_inj; [apply (group_in _ g e); auto|apply (group_in _ g e'); auto|unfold elit; congruence].
        - exfalso. destruct (pol e) eqn:P1, (pol e') eqn:P2; try congruence; [apply (part_pol g e e')|apply (part_pol g e' e)]; auto. }
      assert (PF : forall e, In e (filter (fun e => negb (bb e)) (part g)) -> In e (part g)) by (intros e He; apply filter_In in He; tauto).
      induction (filter (fun e => negb (bb e)) (part g)) as [|e r IH]; cbn [map]; [constructor|]. inversion PN as [|? ? N1 N2]; subst. constructor; [|apply IH; auto; intros; apply PF; right; auto]. intros HX. apply in_map_iff in HX. destruct HX as (e' & EV & He'). apply N1. rewrite <- (PV e' e); auto; apply PF; [right|left]; auto. }
    assert (NC : forall o pre, ord = pre ++ o -> NoDup (map lvar (concat (emit pre o)))).
    { induction o as [|g o IH]; intros pre EO; cbn [emit concat]; [constructor|]. assert (IH' : NoDup (map lvar (concat (emit (pre ++ [g]) o)))) by (apply IH; rewrite EO, <- app_assoc; auto). rewrite concat_app, map_app.
      destruct (ignored pre g) eqn:IG; [cbn [concat map app]; auto|]. unfold add_class. destruct (_ && _); [|cbn [concat map app]; auto]. cbn [app concat]. rewrite app_nil_r.
      assert (DJ : forall v, In v (map lvar (class_of (part g))) -> ~ In v (map lvar (concat (emit (pre ++ [g]) o)))).
      { intros v Hv Hv'. apply in_map_iff in Hv. destruct Hv as (l & El & Hl). apply in_map_iff in Hv'. destruct Hv' as (m & Em & Hm). apply in_concat in Hm. destruct Hm as (c & Hc & Hm). destruct (CI _ _ _ _ Hc Hm) as (M1 & M2 & M3 & a & b & EO2 & IG2 & _). apply class_in in Hl. destruct Hl as (L1 & L2 & L3).
        destruct (same_var l m) as [ELM|ELM]; [congruence| |].
        - subst l. rewrite EO, <- L2 in ND. apply NoDup_remove_2 in ND. apply ND, in_or_app. right. auto.
        - apply (ignored_spec _ g l L1 L2) in IG. destruct IG as (_ & (x & X1 & X2 & X3) & _). apply (ignored_spec _ (G m) m M1 eq_refl) in IG2. destruct IG2 as (Q & _). assert (EM : m = lneg l) by (rewrite ELM, ?lneg_invol; auto). 
          apply (Q (lneg x)).
          + rewrite lvar_neg. auto.
          + rewrite EM. apply HGn; auto. congruence.
          + rewrite lsign_neg, X3. auto.
          + rewrite EM, lneg_invol, L2. apply in_or_app. left. apply in_or_app. right. left. auto. }
      specialize (CN g). clear - CN IH' DJ. induction (map lvar (class_of (part g))) as [|v r IHr]; cbn [app]; auto. inversion CN as [|? ? N1 N2]; subst. constructor; [rewrite in_app_iff; intros [HX|HX]; [auto|apply (DJ v (or_introl eq_refl) HX)]|]. apply IHr; auto. intros c Hc. apply DJ. right. auto. }
    specialize (NC ord [] eq_refl).
    assert (NB : NoDup (map lvar (map (fun q => mkLit (vid (fst q)) (bbv (fst q))) (filter (fun q => bb (fst q)) ps)))).
    { rewrite map_map. rewrite (map_ext _ (fun q => vid (fst q))) by (intros q; apply lvar_mk). apply (nodup_map_incl (fun q => vid (fst q)) ps); auto; [apply NoDup_filter, (NoDup_map_inv (fun q => vid (fst q))); auto|intros q Hq; apply filter_In in Hq; tauto]. }
    assert (DB : forall v, In v (map lvar (concat (emit [] ord))) -> ~ In v (map lvar (map (fun q => mkLit (vid (fst q)) (bbv (fst q))) (filter (fun q => bb (fst q)) ps)))).
    { intros v Hv Hv'. apply in_map_iff in Hv. destruct Hv as (l & El & Hl). apply in_concat in Hl. destruct Hl as (c & Hc & Hl). destruct (CI _ _ _ _ Hc Hl) as (_ & L2 & _). apply in_map_iff in Hv'. destruct Hv' as (m & Em & Hm). apply BBI in Hm. destruct Hm as (_ & M2 & _). congruence. }
    clear - NC NB DB. induction (map lvar (concat (emit [] ord))) as [|v r IHr]; cbn [app]; auto. inversion NC as [|? ? N1 N2]; subst. constructor; [rewrite in_app_iff; intros [HX|HX]; [auto|apply (DB v (or_introl eq_refl) HX)]|]. apply IHr; auto. intros c Hc. apply DB. right. auto.
Qed.
End P.
