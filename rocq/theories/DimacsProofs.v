(** Proofs about the stream buffer and the parser. *)
Require Import List Arith Bool ZArith NArith Lia.
From Coq Require Import ZifyBool ZifyNat ZifyN.
Require Import Verif.Base Verif.CNFModel Verif.DimacsModel Verif.DimacsSpec.
Import ListNotations.

Lemma skipn_app_len {A} (a b : list A) n : n = length a -> skipn n (a ++ b) = b.
Proof. intros ->. rewrite skipn_app, skipn_all, Nat.sub_diag. auto. Qed.
Lemma firstn_app_len {A} (a b : list A) n : n = length a -> firstn n (a ++ b) = a.
Proof. intros ->. rewrite firstn_app, firstn_all, Nat.sub_diag. cbn. apply app_nil_r. Qed.

Lemma nth_skip {A} (d : A) n : forall l, nth n l d = nth 0 (skipn n l) d.
Proof. induction n as [|n IH]; intros [|x l]; cbn [skipn nth]; auto. Qed.

Lemma skipn_skipn {A} a b : forall l : list A, skipn a (skipn b l) = skipn (b + a) l.
Proof. induction b as [|b IH]; intros [|x l]; cbn [Nat.add skipn]; auto. destruct a; auto. Qed.

Section Buf.
Variable B : nat.
Hypothesis HB : 0 < B.
Variable wh : bool. (* the whole rest of the text is in the buffer *)

Record Inv (s : sb) (G T J R : list nat) : Prop := {
  i_len : length (buf s) = B;
  i_rest : skipn (pos s) (buf s) = G ++ T ++ J;
  i_off : off s = length T;
  i_fit : size s <= B;
  i_size : size s = pos s + length G + length T;
  i_R : R = G ++ T ++ file s;
  i_G : G = [] -> R = [];
  i_nl : (T = [] /\ file s = []) \/ exists G', G = G' ++ [10];
  i_wh : wh = true -> T = [] /\ file s = [] }.
Definition IV (s : sb) (R : list nat) : Prop := exists G T J, Inv s G T J R.

Lemma lines_fit_app a b : lines_fit B (a ++ b) -> lines_fit B b.
Proof. intros H x y E. apply (H (a ++ x) y). rewrite E, app_assoc. auto. Qed.
Lemma lines_fit_cons c b : lines_fit B (c :: b) -> lines_fit B b.
Proof. apply (lines_fit_app [c] b). Qed.

Lemma after_newline_ok l : In 10 l -> exists k, after_newline (rev l) = Some k /\ exists G' T, l = (G' ++ [10]) ++ T /\ length T = k.
Proof.
  induction l as [|x l IH] using rev_ind; [intros []|]. intros H. rewrite rev_app_distr. cbn [rev app after_newline]. destruct (Nat.eqb_spec x 10) as [->|Hx].
  - exists 0. split; auto. exists l, []. rewrite app_nil_r. auto.
  - apply in_app_or in H. destruct H as [H|[H|[]]]; [|congruence]. destruct (IH H) as (k & E & G' & T & El & EL). rewrite E. cbn [option_map]. exists (S k). split; auto. exists G', (T ++ [x]). rewrite El, <- !app_assoc. split; auto. rewrite app_length. cbn. lia.
Qed.
Lemma after_newline_none l : ~ In 10 l -> after_newline (rev l) = None.
Proof.
  rewrite in_rev. induction (rev l) as [|x r IH]; cbn; auto. intros H. destruct (Nat.eqb_spec x 10); [subst; tauto|]. rewrite IH by tauto. auto.
Qed.

(** a refill at the end of the region *)
Lemma refill_ok s T J : length (buf s) = B -> eof s = true -> size s - off s + length T <= B -> skipn (size s - off s) (buf s) = T ++ J -> off s = length T -> lines_fit B (T ++ file s) ->
  (wh = true -> length (T ++ file s) < B) -> exists s', refill B s = POk s' /\ IV s' (T ++ file s).
Proof.
  intros HL HE HS HT HO HF HW. unfold refill. rewrite HE, HT. rewrite (firstn_app_len T J) by auto.
  set (data := firstn (B - off s) (file s)). set (size1 := off s + length data). set (buf1 := T ++ data ++ skipn size1 (buf s)).
  assert (Hd : length data = min (B - off s) (length (file s))) by apply firstn_length.
  assert (HT2 : length T <= B) by lia. assert (Hs1 : size1 <= B) by lia.
  assert (HB1 : length buf1 = B) by (unfold buf1; rewrite !app_length, skipn_length; lia).
  assert (HR : T ++ file s = (T ++ data) ++ skipn (B - off s) (file s)) by (unfold data; rewrite <- app_assoc, firstn_skipn; auto).
  assert (Hf1 : firstn size1 buf1 = T ++ data) by (unfold buf1; rewrite app_assoc; apply firstn_app_len; rewrite app_length; lia).
  destruct (Nat.ltb_spec size1 B) as [Hl|Hl].
  - assert (HN : skipn (B - off s) (file s) = []) by (apply skipn_all2; lia).
    eexists. split; [reflexivity|]. exists (T ++ data), [], (skipn size1 (buf s)). constructor; cbn [buf pos off size file]; auto.
    + unfold buf1. cbn [skipn]. rewrite app_assoc. auto.
    + rewrite app_length. cbn. lia.
    + intros E. rewrite HR, E. auto.
  - rewrite Hf1. destruct (after_newline_ok (T ++ data)) as (k & E & G' & T' & EL & EK).
    { specialize (HF [] (T ++ file s) eq_refl). rewrite HR in HF at 2. rewrite firstn_app_len in HF by (rewrite app_length; lia). apply HF. rewrite HR, app_length, app_length. lia. }
    rewrite E. eexists. split; [reflexivity|]. exists (G' ++ [10]), T', (skipn size1 (buf s)). constructor; cbn [buf pos off size file]; auto.
    + unfold buf1. cbn [skipn]. rewrite app_assoc, EL, <- !app_assoc. auto.
    + assert (H : length (T ++ data) = length ((G' ++ [10]) ++ T')) by (rewrite EL; auto). repeat rewrite app_length in H. repeat rewrite app_length. cbn [length] in H |- *. unfold size1. lia.
    + rewrite HR, EL, <- !app_assoc. auto.
    + intros E'. destruct G'; discriminate.
    + right. eauto.
    + intros W. exfalso. specialize (HW W). rewrite HR, !app_length in HW. lia.
Qed.
Lemma IV_eof s R : IV s R -> eof s = match R with [] => true | _ => false end.
Proof.
  intros (G & T & J & [I1 I2 I3 I0 I4 I5 I6 I7 I8]). unfold eof. rewrite I3, I4. destruct G as [|g G].
  - rewrite (I6 eq_refl). cbn. apply Nat.leb_le. lia.
  - rewrite I5. cbn [app length]. apply Nat.leb_gt. lia.
Qed.
Lemma IV_cur s c R : IV s (c :: R) -> cur s = c.
Proof.
  intros (G & T & J & [I1 I2 I3 I0 I4 I5 I6 I7 I8]). unfold cur. destruct G as [|g G]; [discriminate (I6 eq_refl)|]. injection I5 as <- _.
  rewrite nth_skip, I2. reflexivity.
Qed.
(** advancing by a prefix of the region *)
Lemma inc_region s X G T J R : Inv s (X ++ G) T J (X ++ R) -> lines_fit B R -> exists s', incPos B (length X) s = POk s' /\ IV s' R.
Proof.
  intros [I1 I2 I3 I0 I4 I5 I6 I7 I8] HF. rewrite <- app_assoc in I5. apply app_inv_head in I5. unfold incPos. set (s1 := mkSb _ _ _ _ _).
  assert (HP : skipn (pos s1) (buf s1) = G ++ T ++ J).
  { unfold s1. cbn [pos buf]. rewrite <- skipn_skipn, I2, <- app_assoc. apply skipn_app_len. auto. }
  assert (HL : pos s1 + length G + length T = size s) by (unfold s1; cbn [pos]; rewrite I4, app_length; lia).
  assert (HLc : eof s1 = match G with [] => true | _ => false end).
  { unfold eof, s1. cbn [size off pos]. unfold s1 in HL. cbn [pos] in HL. rewrite I3. destruct G; cbn [length] in *; [apply Nat.leb_le|apply Nat.leb_gt]; lia. }
  destruct G as [|g G].
  - assert (HS1 : size s1 - off s1 = pos s1) by (unfold s1 in *; cbn [size off pos length] in *; lia).
    rewrite I5. apply (refill_ok s1 T J); auto.
    + rewrite HS1. cbn [length] in HL. lia.
    + rewrite HS1, HP. auto.
    + rewrite I5 in HF. auto.
    + intros W. destruct (I8 W) as (-> & E). unfold s1. cbn [file]. rewrite E. cbn. auto.
  - unfold refill. rewrite HLc. eexists. split; [reflexivity|]. exists (g :: G), T, J. constructor; unfold s1 in *; cbn [buf pos off size file] in *; auto; try lia; try discriminate.
    destruct I7 as [I7|(G' & I7)]; auto. right. exists (removelast (g :: G)). rewrite (app_removelast_last 0) at 1 by discriminate. f_equal. f_equal.
    assert (H : last (X ++ g :: G) 0 = 10) by (rewrite I7, last_last; auto). rewrite <- H. clear. induction X as [|x X IH]; auto. rewrite IH. destruct X; reflexivity.
Qed.
Lemma inc_ok s c R : IV s (c :: R) -> lines_fit B R -> exists s', incPos B 1 s = POk s' /\ IV s' R.
Proof.
  intros (G & T & J & HI) HF. destruct G as [|g G]; [discriminate (i_G _ _ _ _ _ HI eq_refl)|]. pose proof (i_R _ _ _ _ _ HI) as E. injection E as <- _. apply (inc_region s [c] G T J R HI HF).
Qed.

(** ** Skipping *)
Lemma isspace_white c : isspace c = true <-> white c.
Proof. unfold isspace, white. rewrite orb_true_iff, andb_true_iff, !Nat.leb_le, Nat.eqb_eq. lia. Qed.
Lemma skip_ok w : forall fuel s R, length w < fuel -> Forall white w -> (forall c r, R = c :: r -> ~ white c) -> lines_fit B (w ++ R) -> IV s (w ++ R) ->
  exists s', skipWhitespace B fuel s = POk s' /\ IV s' R.
Proof.
  induction w as [|c w IH]; intros [|fuel] s R HL HW HR HF HI; cbn [length] in HL; try lia; cbn [app] in *.
  - cbn [skipWhitespace]. rewrite (IV_eof _ _ HI). destruct R as [|c R]; cbn [negb andb]; [eauto|]. rewrite (IV_cur _ _ _ HI). destruct (isspace c) eqn:E; eauto. apply isspace_white in E. exfalso. apply (HR _ _ eq_refl E).
  - inversion HW; subst. cbn [skipWhitespace]. rewrite (IV_eof _ _ HI), (IV_cur _ _ _ HI), (proj2 (isspace_white c) H1). cbn [negb andb]. destruct (inc_ok s c _ HI (lines_fit_cons _ _ HF)) as (s1 & E & HI1). rewrite E. cbn [pbind].
    apply IH; auto; try lia. apply (lines_fit_cons _ _ HF).
Qed.
(** from anywhere: skips the leading whitespace *)
Fixpoint drop_white (l : list nat) : list nat := match l with c :: r => if isspace c then drop_white r else l | [] => [] end.
Lemma drop_white_split l : exists w, l = w ++ drop_white l /\ Forall white w /\ (forall c r, drop_white l = c :: r -> ~ white c).
Proof.
  induction l as [|c l (w & E & HW & HR)]; cbn [drop_white]; [exists []; split; auto; split; auto; discriminate|]. destruct (isspace c) eqn:EC.
  - exists (c :: w). cbn [app]. rewrite <- E. split; auto. split; auto. constructor; auto. apply isspace_white; auto.
  - exists []. split; auto. split; auto. intros c' r H. injection H as <- <-. rewrite <- isspace_white, EC. discriminate.
Qed.
Lemma skip_white fuel s R : length R < fuel -> lines_fit B R -> IV s R -> exists s', skipWhitespace B fuel s = POk s' /\ IV s' (drop_white R) /\ lines_fit B (drop_white R) /\ length (drop_white R) <= length R.
Proof.
  intros HL HF HI. destruct (drop_white_split R) as (w & E & HW & HR). assert (HE : length R = length w + length (drop_white R)) by (rewrite E at 1; apply app_length).
  destruct (skip_ok w fuel s (drop_white R)) as (s' & E1 & E2); auto; [lia|rewrite <- E; auto|rewrite <- E; auto|]. exists s'. split; auto. split; auto. split; [|lia]. apply (lines_fit_app w). rewrite <- E. auto.
Qed.
Lemma skipRest_ok body : forall fuel s R, length body < fuel -> (forall c, In c body -> ~ line_end c) -> (forall c r, R = c :: r -> line_end c) -> lines_fit B (body ++ R) -> IV s (body ++ R) ->
  exists s', skipRest B fuel s = POk s' /\ IV s' R.
Proof.
  assert (K : forall c, negb (isspace c) || isblank c = true <-> ~ line_end c).
  { intros c. unfold isspace, isblank, line_end. lia. }
  induction body as [|c w IH]; intros [|fuel] s R HL HW HR HF HI; cbn [length] in HL; try lia; cbn [app] in *.
  - cbn [skipRest]. rewrite (IV_eof _ _ HI). destruct R as [|c R]; cbn [negb andb]; [eauto|]. rewrite (IV_cur _ _ _ HI). destruct (negb (isspace c) || isblank c) eqn:E; eauto. apply K in E. exfalso. apply E. apply (HR _ _ eq_refl).
  - cbn [skipRest]. rewrite (IV_eof _ _ HI), (IV_cur _ _ _ HI), (proj2 (K c)) by (apply HW; cbn; auto). cbn [negb andb]. destruct (inc_ok s c _ HI (lines_fit_cons _ _ HF)) as (s1 & E & HI1). rewrite E. cbn [pbind].
    apply IH; auto; try lia. { intros c' Hc. apply HW. cbn; auto. } apply (lines_fit_cons _ _ HF).
Qed.
Lemma skipString_ok str : forall s R, lines_fit B (str ++ R) -> IV s (str ++ R) -> exists s', skipString B str s = POk s' /\ IV s' R.
Proof.
  induction str as [|c str IH]; intros s R HF HI; cbn [app skipString] in *; eauto. rewrite (IV_eof _ _ HI), (IV_cur _ _ _ HI), Nat.eqb_refl. cbn [negb orb].
  destruct (inc_ok s c _ HI (lines_fit_cons _ _ HF)) as (s1 & E & HI1). rewrite E. cbn [pbind]. apply IH; auto. apply (lines_fit_cons _ _ HF).
Qed.

(** ** Numbers *)
Lemma isdigit_digit c : isdigit c = true <-> digit c. Proof. unfold isdigit, digit. lia. Qed.
Lemma digits_ok ds : forall acc k d l, Forall digit ds -> ~ digit d -> digits (ds ++ d :: l) acc k = Some (fold_left (fun a c => (a * 10 + (Z.of_nat c - 48))%Z) ds acc, k + length ds).
Proof.
  induction ds as [|c ds IH]; intros acc k d l HD Hd; cbn [app digits fold_left length].
  - rewrite Nat.add_0_r. destruct (isdigit d) eqn:E; auto. apply isdigit_digit in E. contradiction.
  - inversion HD; subst. rewrite (proj2 (isdigit_digit c) H1). rewrite IH by auto. f_equal. f_equal. lia.
Qed.
Lemma signed_ok z n d l : number z n -> ~ digit d -> signed (n ++ d :: l) = Some (z, length n).
Proof.
  intros HN Hd. inversion HN as [ds H1 H2 E1 E2|ds H1 H2 E1 E2|ds H1 H2 E1 E2]; subst.
  - destruct n as [|c ds]; [congruence|]. inversion H2; subst. unfold digit in *. cbn [app signed]. destruct (Nat.eqb_spec c 45); [lia|]. destruct (Nat.eqb_spec c 43); [lia|]. cbn [orb].
    change (c :: ds ++ d :: l) with ((c :: ds) ++ d :: l). rewrite digits_ok by auto. cbn [length Nat.add]. reflexivity.
  - cbn [app signed Nat.eqb orb]. rewrite digits_ok by auto. destruct ds; [congruence|]. cbn [length Nat.add]. reflexivity.
  - cbn [app signed Nat.eqb orb]. rewrite digits_ok by auto. destruct ds; [congruence|]. cbn [length Nat.add]. reflexivity.
Qed.
Lemma number_head z n : number z n -> exists c r, n = c :: r /\ ~ white c /\ c <> 112 /\ c <> 99 /\ c <> 100 /\ ~ In 10 n /\ length n = S (length r).
Proof.
  assert (K : forall ds, Forall digit ds -> ~ In 10 ds) by (intros ds H Hi; rewrite Forall_forall in H; specialize (H _ Hi); unfold digit in H; lia).
  intros HN. inversion HN as [ds H1 H2 E1 E2|ds H1 H2 E1 E2|ds H1 H2 E1 E2]; subst.
  - destruct n as [|c ds]; [congruence|]. exists c, ds. pose proof (K _ H2). inversion H2; subst. unfold digit, white in *. repeat split; auto; lia.
  - exists 43, ds. unfold white. specialize (K _ H2). repeat (split; [first [reflexivity|lia]|]). split; [|reflexivity]. intros [H|H]; [lia|auto].
  - exists 45, ds. unfold white. specialize (K _ H2). repeat (split; [first [reflexivity|lia]|]). split; [|reflexivity]. intros [H|H]; [lia|auto].
Qed.
Lemma number_nonempty z n : number z n -> length n <> 0.
Proof. intros H. destruct (number_head z n H) as (c & r & -> & _). cbn. lia. Qed.
Lemma strtol_ok w : forall z n d l, Forall white w -> number z n -> ~ digit d -> strtol (w ++ n ++ d :: l) = Some (z, length (w ++ n)).
Proof.
  induction w as [|c w IH]; intros z n d l HW HN Hd; cbn [app].
  - destruct (number_head z n HN) as (c & r & E & Hc & _). pose proof (signed_ok z n d l HN Hd) as H. rewrite E in *. cbn [app strtol] in *. destruct (isspace c) eqn:EC; [apply isspace_white in EC; contradiction|]. apply H.
  - inversion HW; subst. cbn [strtol]. rewrite (proj2 (isspace_white c) H1), (IH z n d l) by auto. cbn [length]. rewrite app_length. pose proof (number_nonempty _ _ HN). destruct (length w + length n) eqn:E; [lia|]. reflexivity.
Qed.
Definition sep_ok (w : list nat) : Prop := Forall (separator wh) w.
Lemma sep_white w : sep_ok w -> Forall white w.
Proof. intros H. eapply Forall_impl; [|apply H]. intros a (Ha & _). auto. Qed.
(** the number and its terminator are inside the region *)
Lemma region_split s w n d R : sep_ok w -> ~ In 10 n -> IV s (w ++ n ++ d :: R) -> exists G T J, Inv s ((w ++ n) ++ d :: G) T J ((w ++ n) ++ d :: R).
Proof.
  intros HW HN (G & T & J & HI). rewrite app_assoc in HI. set (X := w ++ n) in *. pose proof (i_R _ _ _ _ _ HI) as E.
  assert (HG : length X < length G).
  { destruct (i_nl _ _ _ _ _ HI) as [(E1 & E2)|(G' & E1)].
    - rewrite E1, E2, !app_nil_r in E. rewrite <- E, app_length. cbn. lia.
    - destruct wh eqn:EW.
      + destruct (i_wh _ _ _ _ _ HI EW) as (E2 & E3). rewrite E2, E3, !app_nil_r in E. rewrite <- E, app_length. cbn. lia.
      + destruct (Nat.lt_ge_cases (length X) (length G)) as [|HL]; auto. exfalso.
        assert (H10 : In 10 X).
        { assert (HF : firstn (length G) (X ++ d :: R) = G) by (rewrite E; apply firstn_app_len; auto). rewrite firstn_app in HF. replace (length G - length X) with 0 in HF by lia. cbn [firstn] in HF. rewrite app_nil_r in HF.
          rewrite <- (firstn_skipn (length G) X), HF, E1. apply in_or_app. left. apply in_or_app. right. cbn. auto. }
        unfold X in H10. apply in_app_or in H10. destruct H10 as [H10|]; auto. unfold sep_ok in HW. rewrite Forall_forall in HW. destruct (HW _ H10) as (_ & H). specialize (H eq_refl). congruence. }
  assert (HX : exists d' G2, G = X ++ d' :: G2).
  { assert (HF : firstn (length X) (X ++ d :: R) = X) by (apply firstn_app_len; auto). rewrite E in HF. rewrite firstn_app in HF. replace (length X - length G) with 0 in HF by lia. cbn [firstn] in HF. rewrite app_nil_r in HF.
    pose proof (firstn_skipn (length X) G) as HS. rewrite HF in HS. destruct (skipn (length X) G) as [|d' G2] eqn:ES.
    - rewrite app_nil_r in HS. rewrite HS in HG. lia.
    - exists d', G2. auto. }
  destruct HX as (d' & G2 & ->). rewrite <- !app_assoc in E. apply app_inv_head in E. cbn [app] in E. injection E as <- _. exists G2, T, J. auto.
Qed.
Lemma readInteger_any s w z n d R : sep_ok w -> number z n -> ~ digit d -> lines_fit B (d :: R) -> IV s (w ++ n ++ d :: R) ->
  ((Z.abs z < 2 ^ 31)%Z -> exists s', readInteger B s = POk (z, s') /\ IV s' (d :: R)) /\
  ((2 ^ 31 <= Z.abs z)%Z -> readInteger B s = if (2 ^ 62 <=? Z.abs z)%Z && (- 2 ^ 63 <=? z)%Z && (z <? 2 ^ 63)%Z then PUB else PThrow).
Proof.
  intros HW HN Hd HF HI. pose proof (number_head z n HN) as (c & r & E & _ & _ & _ & _ & Hn & _).
  assert (HE : eof s = false). { rewrite (IV_eof _ _ HI). destruct w, n; try reflexivity. }
  destruct (region_split s w n d R HW Hn HI) as (G & T & J & HI'). unfold readInteger. rewrite HE. rewrite (i_rest _ _ _ _ _ HI'). rewrite <- !app_assoc. cbn [app].
  rewrite (strtol_ok w z n d (G ++ T ++ J) (sep_white w HW) HN Hd). split; intros HZ.
  - destruct (Z.ltb_spec z (- 2 ^ 63)); [lia|]. destruct (Z.ltb_spec (2 ^ 63 - 1) z); [lia|]. cbn [orb]. destruct (Z.leb_spec (2 ^ 62) (Z.abs z)); [lia|]. destruct (Z.leb_spec (2 ^ 32 - 1) (2 * Z.abs z)); [lia|].
    destruct (Nat.eqb_spec (length (w ++ n)) 0) as [E0|_]; [rewrite app_length in E0; pose proof (number_nonempty _ _ HN); lia|].
    destruct (inc_region s (w ++ n) (d :: G) T J (d :: R) HI' HF) as (s' & Es & Hs). rewrite Es. cbn [pbind]. eauto.
  - destruct (Z.ltb_spec z (- 2 ^ 63)); cbn [orb]. { destruct (Z.leb_spec (- 2 ^ 63) z); [lia|]. rewrite andb_false_r. auto. }
    destruct (Z.ltb_spec (2 ^ 63 - 1) z). { destruct (Z.ltb_spec z (2 ^ 63)); [lia|]. rewrite andb_false_r. auto. }
    destruct (Z.leb_spec (- 2 ^ 63) z); [|lia]. destruct (Z.ltb_spec z (2 ^ 63)); [|lia]. rewrite !andb_true_r. destruct (Z.leb_spec (2 ^ 62) (Z.abs z)); auto. destruct (Z.leb_spec (2 ^ 32 - 1) (2 * Z.abs z)); auto. lia.
Qed.
Lemma white_nodigit c : white c -> ~ digit c. Proof. unfold white, digit. lia. Qed.

(** ** Clauses and files *)
Lemma read_lits_ok t zs : clause_text wh t zs -> forall fuel w s c R acc, length t < fuel -> sep_ok w -> white c -> lines_fit B (w ++ t ++ c :: R) -> IV s (w ++ t ++ c :: R) ->
  exists s', read_lits B fuel s acc = POk (acc ++ map zlit zs, s') /\ IV s' (c :: R).
Proof.
  induction 1 as [n HN|z n w' t zs HN HZ HB' Hw' HW' HC IH]; intros [|fuel] w s c R acc HL HW Hc HF HI; try lia; cbn [read_lits].
  - assert (HF' : lines_fit B (c :: R)) by (apply (lines_fit_app (w ++ n)); rewrite <- app_assoc; auto). destruct (readInteger_any s w 0 n c R HW HN (white_nodigit _ Hc) HF' HI) as (H & _). destruct (H ltac:(lia)) as (s' & E & HI').
    rewrite E. cbn [pbind map]. rewrite Z.eqb_refl, app_nil_r. eauto.
  - destruct w' as [|d w']; [congruence|]. inversion HW' as [|d' l Hd HW2]; subst. rewrite <- !app_assoc in HI, HF. cbn [app] in HI, HF.
    assert (HF' : lines_fit B (d :: w' ++ t ++ c :: R)) by (apply (lines_fit_app (w ++ n)); rewrite <- app_assoc; auto).
    destruct (readInteger_any s w z n d _ HW HN (white_nodigit _ (proj1 Hd)) HF' HI) as (H & _). destruct (H ltac:(lia)) as (s' & E & HI').
    rewrite E. cbn [pbind]. destruct (Z.eqb_spec z 0); [contradiction|]. unfold lit_of. destruct (Z.leb_spec (Z.abs z) (2 ^ 30)); [|lia]. cbn [pbind]. cbn [map].
    destruct (IH fuel (d :: w') s' c R (acc ++ [zlit z])) as (s2 & E2 & HI2); auto.
    + pose proof (number_nonempty _ _ HN). rewrite !app_length in HL. cbn [length] in HL. lia.
    + exists s2. split; auto. fold (zlit z). rewrite E2, <- app_assoc. reflexivity.
Qed.
Lemma clause_text_head t zs : clause_text wh t zs -> exists c r, t = c :: r /\ ~ white c /\ c <> 112 /\ c <> 99 /\ c <> 100.
Proof.
  intros H. inversion H as [n HN|z n w' t' zs' HN]; subst; destruct (number_head _ _ HN) as (c & r & -> & A); exists c; eexists; (split; [reflexivity|tauto]).
Qed.
Lemma dimacs_drop t cs : dimacs wh t cs -> dimacs wh (drop_white t) cs.
Proof.
  induction 1 as [|c t cs Hc HD IH|body e t cs Hb He HD IH|w1 z1 n1 w2 z2 n2 c t cs|ct zs c t cs HC Hc HD IH]; cbn [drop_white]; try (constructor; auto; fail).
  - rewrite (proj2 (isspace_white c) Hc). auto.
  - cbn [app drop_white]. replace (isspace 112) with false by reflexivity. apply (dm_header wh w1 z1 n1 w2 z2 n2 c t cs); auto.
  - destruct (clause_text_head _ _ HC) as (x & r & E & Hx & _). assert (ES : isspace x = false). { destruct (isspace x) eqn:ES; auto. apply isspace_white in ES. contradiction. } rewrite E. cbn [app drop_white]. rewrite ES. rewrite app_comm_cons, <- E. constructor; auto.
Qed.
Definition stop (R : list nat) : Prop := forall c r, R = c :: r -> ~ white c.
Lemma drop_white_app t R : stop R -> drop_white (t ++ R) = drop_white t ++ R.
Proof.
  intros HR. induction t as [|c t IH]; cbn [app drop_white].
  - destruct R as [|c R]; auto. cbn [drop_white]. destruct (isspace c) eqn:E; auto. apply isspace_white in E. exfalso. apply (HR _ _ eq_refl E).
  - destruct (isspace c); auto.
Qed.
Lemma dimacs_head c t cs : dimacs wh (c :: t) cs -> white c \/ c = 99 \/ c = 112 \/ exists ct zs e r, c :: t = ct ++ e :: r /\ clause_text wh ct zs.
Proof. intros H. inversion H; subst; auto. right. right. right. exists ct, zs, c0, t0. auto. Qed.
(** the loop consumes a well-formed text *)
Lemma dimacs_loop_app F R : stop R -> forall fuel t cs s p, dimacs wh t cs -> length (t ++ R) < fuel -> length (t ++ R) < F -> lines_fit B (t ++ R) -> IV s (t ++ R) ->
  exists fuel' s', dimacs_loop B F fuel s p = dimacs_loop B F fuel' s' (readClauses p (map (map zlit) cs)) /\ IV s' R /\ length R < fuel'.
Proof.
  intros HR. induction fuel as [|fuel IHf]; intros t cs s p HD Hf HFl HF HI; [lia|]. apply dimacs_drop in HD.
  destruct (skip_white F s (t ++ R) HFl HF HI) as (s1 & E1 & HI1 & HF1 & HL1). rewrite drop_white_app in HI1, HF1, HL1 by auto.
  destruct (drop_white_split t) as (w & Ew & _ & HNW). set (u := drop_white t) in *.
  assert (ES : dimacs_loop B F (S fuel) s p = dimacs_loop B F (S fuel) s1 p).
  { cbn [dimacs_loop]. rewrite (IV_eof _ _ HI), (IV_eof _ _ HI1), E1. cbn [pbind].
    assert (E2 : skipWhitespace B F s1 = POk s1).
    { destruct F as [|F']; [lia|]. cbn [skipWhitespace]. rewrite (IV_eof _ _ HI1). destruct (u ++ R) as [|c r] eqn:Eu; auto. rewrite (IV_cur _ _ _ HI1). destruct (isspace c) eqn:EC; auto. apply isspace_white in EC. exfalso.
      destruct u as [|c' u']; [apply (HR c r Eu EC)|]. injection Eu as <- _. apply (HNW _ _ eq_refl EC). }
    rewrite E2. cbn [pbind]. rewrite (IV_eof _ _ HI1). destruct (t ++ R) eqn:E3; [apply app_eq_nil in E3; destruct E3 as (E3 & ->); unfold u; rewrite E3; reflexivity|]. destruct (u ++ R); reflexivity. }
  rewrite ES. clear ES. destruct u as [|u0 u'] eqn:Eu.
  { exists (S fuel), s1. inversion HD; subst; try discriminate; [|destruct ct; discriminate]. cbn [map readClauses fold_left app] in *. split; auto. split; auto. lia. }
  assert (HNW0 : ~ white u0) by (apply (HNW _ _ eq_refl)). cbn [dimacs_loop]. rewrite (IV_eof _ _ HI1). cbn [app].
  assert (E2 : skipWhitespace B F s1 = POk s1).
  { destruct F as [|F']; [lia|]. cbn [skipWhitespace]. rewrite (IV_eof _ _ HI1), (IV_cur _ _ _ HI1). cbn [app negb andb]. destruct (isspace u0) eqn:EC; auto. apply isspace_white in EC. contradiction. }
  rewrite E2. cbn [pbind]. rewrite (IV_eof _ _ HI1). cbn [app]. clear E1 E2 HI HF Ew.
  assert (HLu : length ((u0 :: u') ++ R) < F /\ length ((u0 :: u') ++ R) < S fuel) by lia. clear HFl Hf HL1. destruct HLu as (HFl & Hf).
  change (u0 :: u' ++ R) with ((u0 :: u') ++ R) in *. remember (u0 :: u') as v eqn:Ev. assert (HNv : forall c r, v = c :: r -> ~ white c) by (intros c0 r0 E0; rewrite Ev in E0; injection E0 as <- <-; auto). assert (HV0 : v <> []) by (rewrite Ev; discriminate). clear Ev HNW HNW0 Eu u0 u' u.
  inversion HD as [Ex Ec|c t' cs' Hc HD' Ex Ec|body e t' cs' Hb He HD' Ex Ec|w1 z1 n1 w2 z2 n2 c t' cs' W1 N1 Z1 Hw2 W2 N2 Z2 Hc HD' Ex Ec|ct zs c t' cs' HC Hc HD' Ex Ec]; subst v cs.
  - congruence.
  - exfalso. apply (HNv _ _ eq_refl Hc).
  - cbn [app] in HI1. rewrite (IV_cur _ _ _ HI1). cbn [Nat.eqb]. destruct F as [|F']; [lia|]. unfold skipLine.
    cbn [app] in HF1. rewrite <- app_assoc in HI1, HF1. cbn [app] in HI1, HF1. repeat (rewrite app_length in HFl || cbn [length app] in HFl). repeat (rewrite app_length in Hf || cbn [length app] in Hf).
    destruct (skipRest_ok (99 :: body) (S F') s1 (e :: t' ++ R)) as (s2 & E2 & HI2); auto; [cbn [length]; lia|intros c [<-|Hc]; auto; unfold line_end; lia|intros c r E; injection E as <- <-; auto|].
    rewrite E2. cbn [pbind]. assert (HF2 : lines_fit B (e :: t' ++ R)) by (apply (lines_fit_app (99 :: body)); auto).
    destruct (skip_white (S F') s2 (e :: t' ++ R)) as (s3 & E3 & HI3 & HF3 & HL3); auto; [cbn [length]; rewrite app_length; lia|]. rewrite E3. cbn [pbind].
    change (e :: t' ++ R) with ((e :: t') ++ R) in *. rewrite drop_white_app in HI3, HF3, HL3 by auto. rewrite app_length in HL3. cbn [length app] in HL3. rewrite app_length in HL3.
    apply (IHf (drop_white (e :: t')) cs' s3 p); auto; try (rewrite app_length; lia). apply dimacs_drop. constructor; auto. unfold line_end, white in *. lia.
  - rewrite <- !app_assoc in HI1, HF1, HFl, Hf. cbn [app] in HI1, HF1. rewrite (IV_cur _ _ _ HI1). cbn [Nat.eqb]. destruct (skipString_ok pcnf s1 (w1 ++ n1 ++ w2 ++ n2 ++ c :: t' ++ R)) as (s2 & E2 & HI2); [rewrite <- ?app_assoc in HF1; auto|rewrite <- ?app_assoc in HI1; auto|]. rewrite E2. cbn [pbind].
    destruct w2 as [|d w2]; [congruence|]. assert (HF2 : lines_fit B (d :: w2 ++ n2 ++ c :: t' ++ R)) by (apply (lines_fit_app (pcnf ++ w1 ++ n1)); rewrite <- !app_assoc; auto).
    inversion W2; subst. destruct (readInteger_any s2 w1 z1 n1 d _ W1 N1 (white_nodigit _ (proj1 H1)) HF2 HI2) as (K1 & _). destruct (K1 ltac:(lia)) as (s3 & E3 & HI3). rewrite E3. cbn [pbind].
    assert (HF3 : lines_fit B (c :: t' ++ R)) by (apply (lines_fit_app ((d :: w2) ++ n2)); rewrite <- !app_assoc; auto).
    destruct (readInteger_any s3 (d :: w2) z2 n2 c _ W2 N2 (white_nodigit _ Hc) HF3 HI3) as (K2 & _). destruct (K2 ltac:(lia)) as (s4 & E4 & HI4). rewrite E4. cbn [pbind].
    destruct (Z.ltb_spec z1 0); [lia|]. destruct (Z.ltb_spec z2 0); [lia|]. cbn [orb]. repeat (rewrite app_length in HFl || cbn [length app] in HFl). repeat (rewrite app_length in Hf || cbn [length app] in Hf).
    apply (IHf (c :: t') cs' s4 p); auto; cbn [app length]; rewrite ?app_length; try lia. constructor; auto.
  - destruct (clause_text_head _ _ HC) as (x & r & Ex & Hx & X1 & X2 & _). assert (HL3 : 1 <= length ct) by (rewrite Ex; cbn; lia). rewrite <- app_assoc in HI1, HF1, HFl, Hf. rewrite app_length in HFl, Hf. cbn [app length] in HI1, HF1, HFl, Hf. rewrite app_length in HFl, Hf. assert (HL2 : length ct < F) by lia. rewrite Ex in HI1. cbn [app] in HI1. rewrite (IV_cur _ _ _ HI1). destruct (Nat.eqb_spec x 112); [contradiction|]. destruct (Nat.eqb_spec x 99); [contradiction|].
    rewrite app_comm_cons, <- Ex in HI1. destruct (read_lits_ok ct zs HC F [] s1 c (t' ++ R) [] HL2 (Forall_nil _) Hc HF1 HI1) as (s2 & E2 & HI2). rewrite E2. cbn [pbind app].
    destruct (IHf (c :: t') cs' s2 (readClause p (map zlit zs))) as (f' & s' & A & A2); cbn [app length]; rewrite ?app_length; auto; try lia.
    + constructor; auto.
    + apply (lines_fit_app ct). auto.
    + exists f', s'. split; auto.
Qed.
Lemma dimacs_loop_ok F fuel t cs s p : dimacs wh t cs -> length t < fuel -> length t < F -> lines_fit B t -> IV s t ->
  dimacs_loop B F fuel s p = POk (readClauses p (map (map zlit) cs)).
Proof.
  intros HD Hf HFl HF HI. rewrite <- (app_nil_r t) in Hf, HFl, HF, HI. destruct (dimacs_loop_app F [] ltac:(discriminate) fuel t cs s p HD Hf HFl HF HI) as (f' & s' & E & HI' & HL). rewrite E. destruct f'; [cbn in HL; lia|]. cbn [dimacs_loop]. rewrite (IV_eof _ _ HI'). auto.
Qed.
Lemma sb_new_ok junk text : length junk = B -> lines_fit B text -> (wh = true -> length text < B) -> exists s, sb_new B junk text = POk s /\ IV s text.
Proof. intros HJ HF HW. apply (refill_ok (mkSb text junk 0 0 0) [] junk); auto. cbn. lia. Qed.
End Buf.

Lemma readDimacs_ok B wh junk text cs p : 0 < B -> length junk = B -> lines_fit B text -> (wh = true -> length text < B) -> dimacs wh text cs ->
  readDimacs B junk text p = POk (readClauses p (map (map zlit) cs)).
Proof.
  intros HB HJ HF HW HD. unfold readDimacs. destruct (sb_new_ok B HB wh junk text HJ HF HW) as (s & E & HI). rewrite E. cbn [pbind]. apply (dimacs_loop_ok B HB wh _ _ text); auto; lia.
Qed.
