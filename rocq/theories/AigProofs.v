(** Proofs about AIGProblem: what createAIG builds from an array of gates. *)
Require Import List Arith Bool Lia Permutation Sorted.
From Coq Require Import ZifyBool ZifyNat.
Require Import Verif.Base Verif.Outcome Verif.CNFModel Verif.CNFProofs Verif.TrailProofs Verif.GateModel Verif.AigModel Verif.AigSpec.
Import ListNotations.

Definition agree (k : nat) (x y : assignment) : Prop := forall v, v <= k -> x v = y v.
Definition vars_le (k : nat) (c : clause) : Prop := forall l, In l c -> lvar l <= k.
Definition PS (x : assignment) (P : list (lit * clause)) : Prop := forall o c, In (o, c) P -> lit_val x o = forallb (lit_val x) c.
Definition BS (x : assignment) (Q : list band) : Prop := forall o l r, In (o, l, r) Q -> lit_val x o = lit_val x l && operand x r.
Definition bout (b : band) : lit := fst (fst b).
Definition band_le (k : nat) (b : band) : Prop := let '(o, l, r) := b in lvar o <= k /\ lvar l <= k /\ forall q, r = Some q -> lvar q <= k.
Definition setv (x : assignment) (v : var) (b : bool) : assignment := fun u => if u =? v then b else x u.

Lemma agree_val k x y l : agree k x y -> lvar l <= k -> lit_val x l = lit_val y l.
Proof. intros H Hl. unfold lit_val. rewrite (H _ Hl). auto. Qed.
Lemma agree_all k x y c : agree k x y -> vars_le k c -> forallb (lit_val x) c = forallb (lit_val y) c.
Proof. intros H Hc. induction c as [|l c IH]; cbn; auto. rewrite (agree_val k x y l H (Hc l (or_introl eq_refl))), (IH (fun q Hq => Hc q (or_intror Hq))). auto. Qed.
Lemma agree_any k x y c : agree k x y -> vars_le k c -> existsb (lit_val x) c = existsb (lit_val y) c.
Proof. intros H Hc. induction c as [|l c IH]; cbn; auto. rewrite (agree_val k x y l H (Hc l (or_introl eq_refl))), (IH (fun q Hq => Hc q (or_intror Hq))). auto. Qed.
Lemma agree_le k j x y : agree k x y -> j <= k -> agree j x y.
Proof. intros H Hl v Hv. apply H. lia. Qed.
Lemma agree_trans k x y z : agree k x y -> agree k y z -> agree k x z.
Proof. intros H H' v Hv. rewrite H, H'; auto. Qed.
Lemma agree_sym k x y : agree k x y -> agree k y x.
Proof. intros H v Hv. rewrite H; auto. Qed.
Lemma agree_refl k x : agree k x x.
Proof. intros v _. auto. Qed.
Lemma setv_agree k x v b : k < v -> agree k x (setv x v b).
Proof. intros H u Hu. unfold setv. destruct (Nat.eqb_spec u v); auto; lia. Qed.
Lemma setv_pos x v b : lit_val (setv x v b) (mkLit v false) = b.
Proof. unfold lit_val, setv. rewrite lvar_mk, lsign_mk, Nat.eqb_refl. destruct b; auto. Qed.
Lemma setv_neg x v b : lit_val (setv x v b) (mkLit v true) = negb b.
Proof. unfold lit_val, setv. rewrite lvar_mk, lsign_mk, Nat.eqb_refl. destruct b; auto. Qed.
Lemma vars_le_app k a b : vars_le k (a ++ b) -> vars_le k a /\ vars_le k b.
Proof. intros H. split; intros l Hl; apply H, in_or_app; auto. Qed.
Lemma vars_le_mono k j c : vars_le k c -> k <= j -> vars_le j c.
Proof. intros H Hl l Hc. specialize (H l Hc). lia. Qed.
Lemma PS_agree k x y P : agree k x y -> (forall o c, In (o, c) P -> lvar o <= k /\ vars_le k c) -> PS x P -> PS y P.
Proof. intros H HP HS o c Hc. destruct (HP o c Hc). rewrite <- (agree_val k x y), <- (agree_all k x y); auto. Qed.
Lemma BS_agree k x y Q : agree k x y -> (forall b, In b Q -> band_le k b) -> BS x Q -> BS y Q.
Proof.
  intros H HP HS o l r Hb. destruct (HP _ Hb) as (H1 & H2 & H3). rewrite <- (agree_val k x y o), <- (agree_val k x y l); auto. rewrite (HS _ _ _ Hb). f_equal. destruct r as [q|]; cbn; auto. apply (agree_val k); auto.
Qed.
Lemma BS_app x P Q : BS x (P ++ Q) <-> BS x P /\ BS x Q.
Proof. split; [intros H; split; intros o l r Hb; apply H, in_or_app; auto|]. intros (H1 & H2) o l r Hb. apply in_app_or in Hb. destruct Hb; auto. Qed.
Lemma PS_app x P Q : PS x (P ++ Q) <-> PS x P /\ PS x Q.
Proof. split; [intros H; split; intros o c Hb; apply H, in_or_app; auto|]. intros (H1 & H2) o c Hb. apply in_app_or in Hb. destruct Hb; auto. Qed.
Lemma PS_one x o c : PS x [(o, c)] <-> lit_val x o = forallb (lit_val x) c.
Proof. split; [intros H; apply H; left; auto|]. intros H o' c' [E|[]]. injection E as <- <-. auto. Qed.
Lemma BS_one x o l r : BS x [(o, l, r)] <-> lit_val x o = lit_val x l && operand x r.
Proof. split; [intros H; apply H; left; auto|]. intros H o' l' r' [E|[]]. injection E as <- <- <-. auto. Qed.
Lemma band_le_mono k j b : band_le k b -> k <= j -> band_le j b.
Proof. destruct b as ((o, l), r). intros (H1 & H2 & H3) H. split; [lia|]. split; [lia|]. intros q E. specialize (H3 q E). lia. Qed.
Definition pos (v : var) : lit := mkLit v false.
Definition neg (v : var) : lit := mkLit v true.
Lemma seq_join a b c : a <= b -> b <= c -> seq (S a) (b - a) ++ seq (S b) (c - b) = seq (S a) (c - a).
Proof. intros H H'. replace (c - a) with ((b - a) + (c - b)) by lia. rewrite seq_app. f_equal. f_equal. lia. Qed.

(** ** Binary gates *)
Lemma half_lt {A} (c : list A) a b : c = a :: b -> b <> [] -> 0 < length c / 2 < length c.
Proof. intros -> H. destruct b as [|x b]; [contradiction|]. cbn [length]. split; [apply Nat.div_str_pos; lia|apply Nat.div_lt; lia]. Qed.
Lemma conv_rec : forall fuel cj vc ands, cj <> [] -> length cj <= fuel -> vars_le vc cj ->
  exists l vc' Q, convertNaryRecursive fuel cj vc ands = Ok (l, vc', ands ++ Q) /\ vc <= vc' /\ lvar l <= vc' /\ (forall b, In b Q -> band_le vc' b) /\
    map bout Q = map pos (seq (S vc) (vc' - vc)) /\ (In l cj \/ vc < lvar l) /\ (forall o p r, In (o, p, r) Q -> forall q, q = p \/ r = Some q -> In q cj \/ vc < lvar q) /\
    (forall x, BS x Q -> lit_val x l = forallb (lit_val x) cj) /\ (forall x, exists x', agree vc x x' /\ BS x' Q).
Proof.
  induction fuel as [|fuel IH]; intros cj vc ands NE HL HV; [destruct cj; [contradiction|cbn in HL; lia]|].
  destruct cj as [|a [|b r]]; [contradiction| |].
  - exists a, vc, []. cbn [convertNaryRecursive]. rewrite app_nil_r, Nat.sub_diag. split; auto. split; auto. split; [apply HV; left; auto|]. split; [intros ? []|]. split; auto. split; [left; left; auto|]. split; [intros ? ? ? []|]. split; [intros x _; cbn; rewrite andb_true_r; auto|]. intros x. exists x. split; [apply agree_refl|]. intros ? ? ? [].
  - set (cj := a :: b :: r) in *. assert (HH : 0 < length cj / 2 < length cj) by (apply (half_lt cj a (b :: r)); [auto|discriminate]). set (p := length cj / 2) in *.
    assert (ES : firstn p cj ++ skipn p cj = cj) by apply firstn_skipn. assert (V2 : vars_le vc (firstn p cj) /\ vars_le vc (skipn p cj)) by (apply vars_le_app; rewrite ES; auto). destruct V2 as (V1 & V2).
    assert (L1 : length (firstn p cj) = p) by (rewrite firstn_length; lia). assert (L2 : length (skipn p cj) = length cj - p) by apply skipn_length.
    destruct (IH (firstn p cj) vc ands) as (l1 & vc1 & Q1 & E1 & A1 & B1 & C1 & D1 & F1 & K1 & G1 & H1); [intros E; rewrite E in L1; change (0 = p) in L1; lia|lia|auto|].
    destruct (IH (skipn p cj) vc1 (ands ++ Q1)) as (l2 & vc2 & Q2 & E2 & A2 & B2 & C2 & D2 & F2 & K2 & G2 & H2); [intros E; rewrite E in L2; change (0 = length cj - p) in L2; lia|lia|apply (vars_le_mono vc); auto|].
    exists (pos (S vc2)), (S vc2), (Q1 ++ Q2 ++ [(pos (S vc2), l1, Some l2)]).
    assert (EQ : convertNaryRecursive (S fuel) cj vc ands = Ok (pos (S vc2), S vc2, ands ++ Q1 ++ Q2 ++ [(pos (S vc2), l1, Some l2)])).
    { unfold cj at 1. cbn [convertNaryRecursive]. fold cj. fold p. rewrite E1. cbn [bind]. rewrite E2. cbn [bind]. unfold pos. rewrite <- !app_assoc. auto. }
    split; [exact EQ|]. split; [lia|]. unfold pos at 1. rewrite lvar_mk. split; auto.
    assert (IC : forall q, (In q (firstn p cj) \/ In q (skipn p cj)) -> In q cj) by (intros q Hq; rewrite <- ES; apply in_or_app; auto).
    split; [|split; [|split; [|split; [|split]]]].
    + intros q Hq. rewrite !in_app_iff in Hq. destruct Hq as [Hq|[Hq|[<-|[]]]]; [apply (band_le_mono vc1); auto; lia|apply (band_le_mono vc2); auto|]. split; [unfold pos; rewrite lvar_mk; lia|]. split; [lia|]. intros z Ez. injection Ez as <-. lia.
    + rewrite !map_app, D1, D2. cbn [map bout fst]. change [pos (S vc2)] with (map pos (seq (S vc2) 1)). rewrite <- !map_app. f_equal. replace 1 with (S vc2 - vc2) by lia. rewrite (seq_join vc1 vc2), (seq_join vc vc1); auto; lia.
    + right. unfold pos. rewrite lvar_mk. lia.
    + intros o q z Hb w Hw. rewrite !in_app_iff in Hb. destruct Hb as [Hb|[Hb|[Hb|[]]]].
      * destruct (K1 o q z Hb w Hw); auto.
      * destruct (K2 o q z Hb w Hw); [auto|right; lia].
      * injection Hb as <- <- <-. destruct Hw as [->|Hw]; [destruct F1; auto|]. injection Hw as ->. destruct F2; [auto|right; lia].
    + intros x HB. rewrite !BS_app, BS_one in HB. destruct HB as (HB1 & HB2 & HB3). rewrite HB3. cbn [operand]. rewrite (G1 x HB1), (G2 x HB2), <- forallb_app, ES. auto.
    + intros x. destruct (H1 x) as (x1 & X1 & Y1). destruct (H2 x1) as (x2 & X2 & Y2). exists (setv x2 (S vc2) (lit_val x2 l1 && lit_val x2 l2)). set (x3 := setv _ _ _).
      assert (X3 : agree vc2 x2 x3) by (apply setv_agree; lia). split; [apply (agree_trans vc x x1); auto; apply (agree_trans vc x1 x2); [apply (agree_le vc1); auto|apply (agree_le vc2); auto; lia]|].
      rewrite !BS_app, BS_one. split; [apply (BS_agree vc2 x2); auto; [intros q Hq; apply (band_le_mono vc1); auto|apply (BS_agree vc1 x1); auto]|]. split; [apply (BS_agree vc2 x2); auto|].
      cbn [operand]. rewrite <- (agree_val vc2 x2 x3 l1), <- (agree_val vc2 x2 x3 l2); auto; [|lia]. apply setv_pos.
Qed.
Lemma conv_all : forall ps vc ands, (forall o c, In (o, c) ps -> c <> [] /\ lvar o <= vc /\ vars_le vc c) ->
  exists vc' Q, convertNaryAndsToBinaryAnds ps vc ands = Ok (vc', ands ++ Q) /\ vc <= vc' /\ (forall b, In b Q -> band_le vc' b) /\
    Permutation (map bout Q) (map fst ps ++ map pos (seq (S vc) (vc' - vc))) /\
    (forall o p r, In (o, p, r) Q -> forall q, q = p \/ r = Some q -> (exists c, In (o, c) ps /\ In q c) \/ vc < lvar q \/ (vc < lvar o /\ exists o' c, In (o', c) ps /\ In q c)) /\
    (forall x, BS x Q -> PS x ps) /\ (forall x, PS x ps -> exists x', agree vc x x' /\ BS x' Q).
Proof.
  induction ps as [|(o, c) ps IH]; intros vc ands HP.
  - exists vc, []. cbn. rewrite app_nil_r, Nat.sub_diag. split; auto. split; auto. split; [intros ? []|]. split; auto. split; [intros ? ? ? []|]. split; [intros x _ ? ? []|]. intros x _. exists x. split; [apply agree_refl|intros ? ? ? []].
  - destruct (HP o c (or_introl eq_refl)) as (NE & HO & HV).
    assert (HP' : forall vc1, vc <= vc1 -> forall o' c', In (o', c') ps -> c' <> [] /\ lvar o' <= vc1 /\ vars_le vc1 c') by (intros vc1 H1 o' c' H; destruct (HP o' c' (or_intror H)) as (A1 & A2 & A3); split; auto; split; [lia|apply (vars_le_mono vc); auto]).
    assert (MM : forall (vc2 vc' : nat) (Q Q' : list band), vc <= vc2 -> vc2 <= vc' -> map bout Q = map pos (seq (S vc) (vc2 - vc)) ++ [o] -> Permutation (map bout Q') (map fst ps ++ map pos (seq (S vc2) (vc' - vc2))) ->
      Permutation (map bout (Q ++ Q')) (map fst ((o, c) :: ps) ++ map pos (seq (S vc) (vc' - vc)))).
    { intros vc2 vc' Q Q' H1 H2 EQ EQ'. rewrite map_app, EQ, EQ'. cbn [map fst app]. rewrite <- (seq_join vc vc2 vc') by auto. rewrite map_app, <- app_assoc. cbn [app]. rewrite <- Permutation_middle. constructor. rewrite !app_assoc. apply Permutation_app_tail, Permutation_app_comm. }
    destruct c as [|a [|b r]]; [contradiction| |].
    + destruct (IH vc (ands ++ [(o, a, None)]) (HP' vc (le_n _))) as (vc' & Q & E & A & B & C & K & D & F). exists vc', ((o, a, None) :: Q). cbn [convertNaryAndsToBinaryAnds]. rewrite E, <- app_assoc. cbn [app]. split; auto. split; auto. split; [|split; [|split; [|split]]].
      * intros q [<-|Hq]; auto. split; [lia|]. split; [|discriminate]. apply (vars_le_mono vc vc') in HV; auto. apply HV. left. auto.
      * change ((o, a, None) :: Q) with ([(o, a, None)] ++ Q). apply (MM vc vc'); auto. rewrite Nat.sub_diag. auto.
      * intros o' p z [Eb|Hb] q Hq; [injection Eb as <- <- <-; left; exists [a]; split; [left; auto|]; destruct Hq as [->|Hq]; [left; auto|discriminate]|].
        destruct (K o' p z Hb q Hq) as [(c' & H1 & H2)|[H|(H & o2 & c' & H1 & H2)]]; [left; exists c'; split; auto; right; auto|auto|right; right; split; auto; exists o2, c'; split; auto; right; auto].
      * intros x HB o' c' [Eb|Hb]; [|apply (D x); auto; intros ? ? ? ?; apply HB; right; auto]. injection Eb as <- <-. rewrite (HB o a None (or_introl eq_refl)). auto.
      * intros x HS. destruct (F x (fun o' c' H => HS o' c' (or_intror H))) as (x' & X1 & X2). exists x'. split; auto. intros o' p z [Eb|Hb]; [|apply X2; auto]. injection Eb as <- <- <-. cbn [operand]. rewrite <- (agree_val vc x x' o), <- (agree_val vc x x' a); auto; [|apply HV; left; auto]. rewrite (HS o [a] (or_introl eq_refl)). auto.
    + set (cj := a :: b :: r) in *. assert (HH : 0 < length cj / 2 < length cj) by (apply (half_lt cj a (b :: r)); [auto|discriminate]). set (p := length cj / 2) in *.
      assert (ES : firstn p cj ++ skipn p cj = cj) by apply firstn_skipn. assert (V2 : vars_le vc (firstn p cj) /\ vars_le vc (skipn p cj)) by (apply vars_le_app; rewrite ES; auto). destruct V2 as (V1 & V2).
      assert (L1 : length (firstn p cj) = p) by (rewrite firstn_length; lia). assert (L2 : length (skipn p cj) = length cj - p) by apply skipn_length.
      destruct (conv_rec (length cj) (firstn p cj) vc ands) as (l1 & vc1 & Q1 & E1 & A1 & B1 & C1 & D1 & F1 & K1 & G1 & H1); [intros E; rewrite E in L1; change (0 = p) in L1; lia|lia|auto|].
      destruct (conv_rec (length cj) (skipn p cj) vc1 (ands ++ Q1)) as (l2 & vc2 & Q2 & E2 & A2 & B2 & C2 & D2 & F2 & K2 & G2 & H2); [intros E; rewrite E in L2; change (0 = length cj - p) in L2; lia|lia|apply (vars_le_mono vc); auto|].
      destruct (IH vc2 (ands ++ Q1 ++ Q2 ++ [(o, l1, Some l2)]) (HP' vc2 ltac:(lia))) as (vc' & Q & E & A & B & C & K & D & F).
      assert (IC : forall q, (In q (firstn p cj) \/ In q (skipn p cj)) -> In q cj) by (intros q Hq; rewrite <- ES; apply in_or_app; auto).
      assert (BL : forall q, In q (Q1 ++ Q2 ++ [(o, l1, Some l2)]) -> band_le vc2 q). { intros q Hq. rewrite !in_app_iff in Hq. destruct Hq as [Hq|[Hq|[<-|[]]]]; [apply (band_le_mono vc1); auto|auto|]. split; [lia|]. split; [lia|]. intros z Ez. injection Ez as <-. lia. }
      exists vc', ((Q1 ++ Q2 ++ [(o, l1, Some l2)]) ++ Q). split; [|split; [lia|split; [|split; [|split; [|split]]]]].
      * unfold cj at 1. cbn [convertNaryAndsToBinaryAnds]. fold cj. fold p. rewrite E1. cbn [bind]. rewrite E2. cbn [bind]. rewrite !app_assoc in *. exact E.
      * intros q Hq. apply in_app_or in Hq. destruct Hq as [Hq|Hq]; auto. apply (band_le_mono vc2); auto.
      * apply (MM vc2 vc'); auto; [lia|]. rewrite !map_app, D1, D2. cbn [map bout fst]. rewrite app_assoc. f_equal. rewrite <- map_app. f_equal. apply seq_join; lia.
      * intros o' p' z Hb q Hq. apply in_app_or in Hb. destruct Hb as [Hb|Hb]; [rewrite !in_app_iff in Hb; destruct Hb as [Hb|[Hb|[Hb|[]]]]|].
        -- destruct (K1 _ _ _ Hb q Hq) as [H|H]; [right; right|right; left; lia]. split; [|exists o, cj; split; [left; auto|auto]]. assert (HI : In o' (map bout Q1)) by (apply in_map_iff; exists (o', p', z); auto). rewrite D1 in HI. apply in_map_iff in HI. destruct HI as (v & <- & HI). apply in_seq in HI. unfold pos. rewrite lvar_mk. lia.
        -- destruct (K2 _ _ _ Hb q Hq) as [H|H]; [right; right|right; left; lia]. split; [|exists o, cj; split; [left; auto|auto]]. assert (HI : In o' (map bout Q2)) by (apply in_map_iff; exists (o', p', z); auto). rewrite D2 in HI. apply in_map_iff in HI. destruct HI as (v & <- & HI). apply in_seq in HI. unfold pos. rewrite lvar_mk. lia.
        -- injection Hb as <- <- <-. assert (HX : In q cj \/ vc < lvar q) by (destruct Hq as [->|Hq]; [destruct F1; auto|injection Hq as ->; destruct F2; [auto|right; lia]]). destruct HX as [HX|HX]; [left; exists cj; split; auto; left; auto|auto].
        -- destruct (K o' p' z Hb q Hq) as [(c' & X1 & X2)|[X|(X & o2 & c' & X1 & X2)]]; [left; exists c'; split; auto; right; auto|right; left; lia|right; right; split; [lia|]; exists o2, c'; split; auto; right; auto].
      * intros x HB. rewrite !BS_app, BS_one in HB. destruct HB as ((HB1 & HB2 & HB3) & HB4). intros o' c' [Eb|Hb]; [|apply (D x HB4); auto]. injection Eb as <- <-. rewrite HB3. cbn [operand]. rewrite (G1 x HB1), (G2 x HB2), <- forallb_app, ES. auto.
      * intros x HS. destruct (H1 x) as (x1 & X1 & Y1). destruct (H2 x1) as (x2 & X2 & Y2). assert (X12 : agree vc x x2) by (apply (agree_trans vc x x1); auto; apply (agree_le vc1); auto).
        destruct (F x2) as (x' & X3 & Y3). { apply (PS_agree vc x x2 ps X12); [intros o' c' H; destruct (HP o' c' (or_intror H)); tauto|intros o' c' H; apply HS; right; auto]. }
        exists x'. split; [apply (agree_trans vc x x2); auto; apply (agree_le vc2); auto; lia|]. apply BS_app. split; auto. apply (BS_agree vc2 x2); auto. rewrite !BS_app, BS_one. split; [apply (BS_agree vc1 x1); auto|]. split; auto.
        cbn [operand]. rewrite (G2 x2 Y2). rewrite (agree_val vc1 x2 x1 l1 (agree_sym _ _ _ X2) B1), (G1 x1 Y1). rewrite (agree_all vc x1 x2 (firstn p cj)); [|apply (agree_le vc1); auto|auto]. rewrite <- forallb_app, ES. rewrite <- (agree_val vc x x2 o X12 HO), <- (agree_all vc x x2 cj X12 HV). apply HS. left. auto.
Qed.
