(** Rejection of bad numbers; printing; the defects of the stream buffer. *)
Require Import List Arith Bool ZArith NArith Lia Sorted.
From Coq Require Import ZifyBool ZifyNat ZifyN.
Require Import Verif.Base Verif.CNFModel Verif.CNFSpec Verif.CNFProofs Verif.DimacsModel Verif.DimacsSpec Verif.DimacsProofs.
Import ListNotations.

(** ** Bad numbers *)
Definition bad (z : Z) : pres cnf := if (2 ^ 62 <=? Z.abs z)%Z && (- 2 ^ 63 <=? z)%Z && (z <? 2 ^ 63)%Z then PUB else PThrow.
Section Bad.
Variable B : nat.
Hypothesis HB : 0 < B.
Variable wh : bool.
Lemma read_lits_bad t : lits_text wh t -> forall fuel w s z n c R acc, length (t ++ n) < fuel -> sep_ok wh w -> number z n -> (2 ^ 31 <= Z.abs z)%Z -> white c -> lines_fit B (w ++ t ++ n ++ c :: R) -> IV B wh s (w ++ t ++ n ++ c :: R) ->
  read_lits B fuel s acc = if (2 ^ 62 <=? Z.abs z)%Z && (- 2 ^ 63 <=? z)%Z && (z <? 2 ^ 63)%Z then PUB else PThrow.
Proof.
  induction 1 as [|z' n' w' t HN HZ HB' Hw' HW' HC IH]; intros [|fuel] w s z n c R acc HL HW HN2 Hz Hc HF HI; try lia; cbn [read_lits].
  - cbn [app] in *. assert (HF' : lines_fit B (c :: R)) by (apply (lines_fit_app B (w ++ n)); rewrite <- app_assoc; auto). destruct (readInteger_any B HB wh s w z n c R HW HN2 (white_nodigit B HB _ Hc) HF' HI) as (_ & H). rewrite H by auto.
    destruct ((2 ^ 62 <=? Z.abs z)%Z && (- 2 ^ 63 <=? z)%Z && (z <? 2 ^ 63)%Z); reflexivity.
  - destruct w' as [|d w']; [congruence|]. inversion HW' as [|d' l Hd HW2]; subst. rewrite <- !app_assoc in HI, HF. cbn [app] in HI, HF.
    assert (HF' : lines_fit B (d :: w' ++ t ++ n ++ c :: R)) by (apply (lines_fit_app B (w ++ n')); rewrite <- app_assoc; auto).
    destruct (readInteger_any B HB wh s w z' n' d _ HW HN (white_nodigit B HB _ (proj1 Hd)) HF' HI) as (H & _). destruct (H ltac:(lia)) as (s' & E & HI').
    rewrite E. cbn [pbind]. destruct (Z.eqb_spec z' 0); [contradiction|]. unfold lit_of. destruct (Z.leb_spec (Z.abs z') (2 ^ 30)); [|lia]. cbn [pbind].
    apply (IH fuel (d :: w') s' z n c R); auto. pose proof (number_nonempty B HB _ _ HN). repeat (rewrite app_length in HL || rewrite app_length || cbn [length] in HL). lia.
Qed.
Lemma strtol_garbage w c l : Forall white w -> ~ white c -> ~ digit c -> c <> 45 -> c <> 43 -> strtol (w ++ c :: l) = Some (0%Z, 0).
Proof.
  intros HW H1 H2 H3 H4. induction HW as [|x w Hx HW IH]; cbn [app strtol].
  - destruct (isspace c) eqn:E; [apply (isspace_white B HB) in E; contradiction|]. cbn [signed]. destruct (Nat.eqb_spec c 45); [lia|]. destruct (Nat.eqb_spec c 43); [lia|]. cbn [orb digits]. destruct (isdigit c) eqn:ED; [apply (isdigit_digit B HB) in ED; contradiction|]. reflexivity.
  - rewrite (proj2 (isspace_white B HB x) Hx), IH. reflexivity.
Qed.
Lemma readInteger_garbage s w c R : sep_ok wh w -> ~ white c -> ~ digit c -> c <> 45 -> c <> 43 -> IV B wh s (w ++ c :: R) -> readInteger B s = PUB.
Proof.
  intros HW H1 H2 H3 H4 HI. unfold readInteger. rewrite (IV_eof B HB wh _ _ HI). destruct (region_split B HB wh s w [] c R HW ltac:(cbn; tauto) HI) as (G & T & J & HI'). rewrite (i_rest _ _ _ _ _ _ _ HI'). rewrite app_nil_r, <- app_assoc. cbn [app].
  rewrite strtol_garbage by (auto; apply (sep_white wh); auto). destruct w; reflexivity.
Qed.
Lemma read_lits_garbage t : lits_text wh t -> forall fuel w s c R acc, length t < fuel -> sep_ok wh w -> ~ white c -> ~ digit c -> c <> 45 -> c <> 43 -> lines_fit B (w ++ t ++ c :: R) -> IV B wh s (w ++ t ++ c :: R) ->
  read_lits B fuel s acc = PUB.
Proof.
  induction 1 as [|z' n' w' t HN HZ HB' Hw' HW' HC IH]; intros [|fuel] w s c R acc HL HW C1 C2 C3 C4 HF HI; try lia; cbn [read_lits].
  - cbn [app] in *. rewrite (readInteger_garbage s w c R); auto.
  - destruct w' as [|d w']; [congruence|]. inversion HW' as [|d' l Hd HW2]; subst. rewrite <- !app_assoc in HI, HF. cbn [app] in HI, HF.
    assert (HF' : lines_fit B (d :: w' ++ t ++ c :: R)) by (apply (lines_fit_app B (w ++ n')); rewrite <- app_assoc; auto).
    destruct (readInteger_any B HB wh s w z' n' d _ HW HN (white_nodigit B HB _ (proj1 Hd)) HF' HI) as (H & _). destruct (H ltac:(lia)) as (s' & E & HI').
    rewrite E. cbn [pbind]. destruct (Z.eqb_spec z' 0); [contradiction|]. unfold lit_of. destruct (Z.leb_spec (Z.abs z') (2 ^ 30)); [|lia]. cbn [pbind].
    apply (IH fuel (d :: w') s' c R); auto. pose proof (number_nonempty B HB _ _ HN). repeat (rewrite app_length in HL || cbn [length] in HL). lia.
Qed.
Lemma lits_text_head t : lits_text wh t -> t = [] \/ exists c r, t = c :: r /\ ~ white c /\ c <> 112 /\ c <> 99.
Proof. intros H. inversion H as [|z n w' t' HN]; subst; auto. right. destruct (number_head B HB _ _ HN) as (c & r & -> & A). exists c; eexists; (split; [reflexivity|tauto]). Qed.
(** the loop at the beginning of a clause *)
Lemma loop_clause F fuel s p x r : IV B wh s (x :: r) -> ~ white x -> x <> 112 -> x <> 99 -> 0 < F -> 0 < fuel -> exists fuel', dimacs_loop B F fuel s p = ('(ls, s) <~ read_lits B F s [] ;; dimacs_loop B F fuel' s (readClause p ls)).
Proof.
  intros HI H1 H2 H3 HF Hf. destruct fuel as [|fuel]; [lia|]. destruct F as [|F]; [lia|]. exists fuel. cbn [dimacs_loop]. rewrite (IV_eof B HB wh _ _ HI). cbn [skipWhitespace]. rewrite (IV_eof B HB wh _ _ HI), (IV_cur B wh _ _ _ HI). cbn [negb andb].
  destruct (isspace x) eqn:E; [apply (isspace_white B HB) in E; contradiction|]. cbn [pbind]. rewrite (IV_eof B HB wh _ _ HI), (IV_cur B wh _ _ _ HI). destruct (Nat.eqb_spec x 112); [lia|]. destruct (Nat.eqb_spec x 99); [lia|]. reflexivity.
Qed.
End Bad.
Lemma range_thm B ml junk t cs pre z n c rest p : 0 < B -> length junk = B -> dimacs ml t cs -> lits_text ml pre -> number z n -> (2 ^ 31 <= Z.abs z)%Z -> white c ->
  let text := t ++ pre ++ n ++ c :: rest in lines_fit B text -> (ml = true -> length text < B) -> readDimacs B junk text p = bad z.
Proof.
  intros HB HJ HD HP HN HZ Hc text HF HM. unfold readDimacs. destruct (sb_new_ok B HB ml junk text HJ HF HM) as (s & E & HI). rewrite E. cbn [pbind]. set (F := 3 * length text + 3).
  assert (HX : exists x r, pre ++ n ++ c :: rest = x :: r /\ ~ white x /\ x <> 112 /\ x <> 99).
  { destruct (number_head B HB _ _ HN) as (x & r & -> & A). destruct (lits_text_head B HB ml pre HP) as [->|(y & r' & -> & A')]; eexists _, _; (split; [reflexivity|tauto]). }
  destruct HX as (x & r & EX & X1 & X2 & X3).
  destruct (dimacs_loop_app B HB ml F (pre ++ n ++ c :: rest)) with (fuel := F) (t := t) (cs := cs) (s := s) (p := p) as (f' & s' & E' & HI' & HL); auto; try (unfold F, text; lia).
  { intros c0 r0 E0. rewrite EX in E0. injection E0 as <- <-. auto. }
  rewrite E'. assert (HLT : length text = length t + length (pre ++ n ++ c :: rest)) by (unfold text; apply app_length). pose proof HI' as HI2. rewrite EX in HI2.
  destruct (loop_clause B HB ml F f' s' (readClauses p (map (map zlit) cs)) x r HI2 X1 X2 X3 ltac:(unfold F; lia) ltac:(lia)) as (f2 & E2). rewrite E2.
  rewrite (read_lits_bad B HB ml pre HP F [] s' z n c rest []); auto.
  - unfold bad. destruct ((2 ^ 62 <=? Z.abs z)%Z && (- 2 ^ 63 <=? z)%Z && (z <? 2 ^ 63)%Z); reflexivity.
  - unfold F. rewrite HLT. repeat (rewrite app_length || cbn [length]). lia.
  - constructor.
  - cbn [app]. apply (lines_fit_app B t). auto.
Qed.
Lemma garbage_thm B ml junk t cs pre c rest p : 0 < B -> length junk = B -> dimacs ml t cs -> lits_text ml pre -> ~ white c -> ~ digit c -> c <> 45 -> c <> 43 -> (pre = [] -> c <> 112 /\ c <> 99) ->
  let text := t ++ pre ++ c :: rest in lines_fit B text -> (ml = true -> length text < B) -> readDimacs B junk text p = PUB.
Proof.
  intros HB HJ HD HP C1 C2 C3 C4 C5 text HF HM. unfold readDimacs. destruct (sb_new_ok B HB ml junk text HJ HF HM) as (s & E & HI). rewrite E. cbn [pbind]. set (F := 3 * length text + 3).
  assert (HX : exists x r, pre ++ c :: rest = x :: r /\ ~ white x /\ x <> 112 /\ x <> 99).
  { destruct (lits_text_head B HB ml pre HP) as [E0|(y & r' & E0 & A')]; [specialize (C5 E0)|]; rewrite E0; eexists _, _; (split; [reflexivity|tauto]). }
  destruct HX as (x & r & EX & X1 & X2 & X3).
  destruct (dimacs_loop_app B HB ml F (pre ++ c :: rest)) with (fuel := F) (t := t) (cs := cs) (s := s) (p := p) as (f' & s' & E' & HI' & HL); auto; try (unfold F, text; lia).
  { intros c0 r0 E0. rewrite EX in E0. injection E0 as <- <-. auto. }
  rewrite E'. assert (HLT : length text = length t + length (pre ++ c :: rest)) by (unfold text; apply app_length). pose proof HI' as HI2. rewrite EX in HI2.
  destruct (loop_clause B HB ml F f' s' (readClauses p (map (map zlit) cs)) x r HI2 X1 X2 X3 ltac:(unfold F; lia) ltac:(lia)) as (f2 & E2). rewrite E2.
  rewrite (read_lits_garbage B HB ml pre HP F [] s' c rest []); auto.
  - unfold F. rewrite HLT. repeat (rewrite app_length || cbn [length]). lia.
  - constructor.
  - cbn [app]. apply (lines_fit_app B t). auto.
Qed.

(** the loop at a header *)
Section Header.
Variable B : nat.
Hypothesis HB : 0 < B.
Variable wh : bool.
Lemma loop_header F fuel s p r : IV B wh s (112 :: r) -> 0 < F -> 0 < fuel -> exists fuel',
  dimacs_loop B F fuel s p = (s <~ skipString B pcnf s ;; '(v, s) <~ readInteger B s ;; '(c, s) <~ readInteger B s ;; if (v <? 0)%Z || (c <? 0)%Z then PThrow else dimacs_loop B F fuel' s p).
Proof.
  intros HI HF Hf. destruct fuel as [|fuel]; [lia|]. destruct F as [|F]; [lia|]. exists fuel. cbn [dimacs_loop]. rewrite (IV_eof B HB wh _ _ HI). cbn [skipWhitespace]. rewrite (IV_eof B HB wh _ _ HI), (IV_cur B wh _ _ _ HI). cbn [negb andb].
  replace (isspace 112) with false by reflexivity. cbn [pbind]. rewrite (IV_eof B HB wh _ _ HI), (IV_cur B wh _ _ _ HI). reflexivity.
Qed.
Lemma skipString_wrong str : forall s R, lines_fit B R -> IV B wh s R -> (forall r, R <> str ++ r) -> skipString B str s = PThrow.
Proof.
  induction str as [|c str IH]; intros s R HF HI HN; [exfalso; apply (HN R); reflexivity|]. cbn [skipString]. rewrite (IV_eof B HB wh _ _ HI). destruct R as [|d R]; [rewrite orb_true_r; reflexivity|].
  rewrite (IV_cur B wh _ _ _ HI). destruct (Nat.eqb_spec c d) as [->|]; cbn [negb orb]; auto. destruct (inc_ok B HB wh s d _ HI (lines_fit_cons B _ _ HF)) as (s1 & E & HI1). rewrite E. cbn [pbind].
  apply (IH s1 R); auto. - apply (lines_fit_cons B _ _ HF). - intros r ->. apply (HN r). reflexivity.
Qed.
End Header.
Lemma header_thm B ml junk t cs w1 z1 n1 w2 z2 n2 c rest p : 0 < B -> length junk = B -> dimacs ml t cs ->
  Forall (separator ml) w1 -> number z1 n1 -> (Z.abs z1 < 2 ^ 31)%Z -> w2 <> [] -> Forall (separator ml) w2 -> number z2 n2 -> (Z.abs z2 < 2 ^ 31)%Z -> white c ->
  (z1 < 0)%Z \/ (z2 < 0)%Z ->
  let text := t ++ [112; 32; 99; 110; 102] ++ w1 ++ n1 ++ w2 ++ n2 ++ c :: rest in lines_fit B text -> (ml = true -> length text < B) -> readDimacs B junk text p = PThrow.
Proof.
  intros HB HJ HD W1 N1 Z1 Hw2 W2 N2 Z2 Hc HN text HF HM. unfold readDimacs. destruct (sb_new_ok B HB ml junk text HJ HF HM) as (s & E & HI). rewrite E. cbn [pbind]. set (F := 3 * length text + 3).
  set (h := [112; 32; 99; 110; 102] ++ w1 ++ n1 ++ w2 ++ n2 ++ c :: rest) in *.
  destruct (dimacs_loop_app B HB ml F h) with (fuel := F) (t := t) (cs := cs) (s := s) (p := p) as (f' & s' & E' & HI' & HL); auto; try (unfold F, text; lia).
  { intros c0 r0 E0. unfold h in E0. injection E0 as <- <-. unfold white. lia. }
  rewrite E'. destruct (loop_header B HB ml F f' s' (readClauses p (map (map zlit) cs)) _ HI' ltac:(unfold F; lia) ltac:(lia)) as (f2 & E2). rewrite E2. clear E2.
  assert (HFh : lines_fit B h) by (apply (lines_fit_app B t); auto).
  destruct (skipString_ok B HB ml pcnf s' (w1 ++ n1 ++ w2 ++ n2 ++ c :: rest) HFh HI') as (s2 & E2 & HI2). rewrite E2. cbn [pbind].
  destruct w2 as [|d w2]; [congruence|]. assert (HF2 : lines_fit B (d :: w2 ++ n2 ++ c :: rest)). { apply (lines_fit_app B (pcnf ++ w1 ++ n1)). rewrite <- !app_assoc. exact HFh. }
  pose proof (Forall_inv W2) as Hd. destruct (readInteger_any B HB ml s2 w1 z1 n1 d _ W1 N1 (white_nodigit B HB _ (proj1 Hd)) HF2 HI2) as (K1 & _). destruct (K1 Z1) as (s3 & E3 & HI3). rewrite E3. cbn [pbind].
  assert (HF3 : lines_fit B (c :: rest)). { apply (lines_fit_app B ((d :: w2) ++ n2)). rewrite <- !app_assoc. exact HF2. }
  destruct (readInteger_any B HB ml s3 (d :: w2) z2 n2 c _ W2 N2 (white_nodigit B HB _ Hc) HF3 HI3) as (K2 & _). destruct (K2 Z2) as (s4 & E4 & HI4). rewrite E4. cbn [pbind].
  destruct (Z.ltb_spec z1 0); cbn [orb]; auto. destruct (Z.ltb_spec z2 0); auto. lia.
Qed.
Lemma misspelled_thm B ml junk t cs r p : 0 < B -> length junk = B -> dimacs ml t cs -> (forall q, 112 :: r <> [112; 32; 99; 110; 102] ++ q) ->
  let text := t ++ 112 :: r in lines_fit B text -> (ml = true -> length text < B) -> readDimacs B junk text p = PThrow.
Proof.
  intros HB HJ HD HN text HF HM. unfold readDimacs. destruct (sb_new_ok B HB ml junk text HJ HF HM) as (s & E & HI). rewrite E. cbn [pbind]. set (F := 3 * length text + 3).
  destruct (dimacs_loop_app B HB ml F (112 :: r)) with (fuel := F) (t := t) (cs := cs) (s := s) (p := p) as (f' & s' & E' & HI' & HL); auto; try (unfold F, text; lia).
  { intros c0 r0 E0. injection E0 as <- <-. unfold white. lia. }
  rewrite E'. destruct (loop_header B HB ml F f' s' (readClauses p (map (map zlit) cs)) _ HI' ltac:(unfold F; lia) ltac:(lia)) as (f2 & E2). rewrite E2. clear E2.
  rewrite (skipString_wrong B HB ml pcnf s' (112 :: r)); auto. apply (lines_fit_app B t). auto.
Qed.

(** ** Printing *)
Lemma decimal_snoc ds d : decimal (ds ++ [d]) = (decimal ds * 10 + (Z.of_nat d - 48))%Z.
Proof. unfold decimal. rewrite fold_left_app. reflexivity. Qed.
Lemma dec_from_ok fuel : forall n acc, (n < 10 ^ N.of_nat fuel)%N -> 0 < fuel -> exists ds, dec_from fuel n acc = ds ++ acc /\ ds <> [] /\ Forall digit ds /\ decimal ds = Z.of_N n /\ (forall k, 0 < k -> (n < 10 ^ N.of_nat k)%N -> length ds <= k).
Proof.
  induction fuel as [|fuel IH]; intros n acc Hn Hf; [lia|]. cbn [dec_from]. set (d := 48 + N.to_nat (n mod 10)). assert (Hm : (n mod 10 < 10)%N) by (apply N.mod_upper_bound; discriminate).
  assert (Hd : digit d) by (unfold digit, d; lia). destruct (N.ltb_spec n 10) as [Hl|Hl].
  - exists [d]. split; auto. split; [discriminate|]. split; auto. split; [|intros; cbn; lia]. unfold decimal, d. cbn [fold_left]. rewrite N.mod_small by auto. lia.
  - rewrite Nat2N.inj_succ, N.pow_succ_r' in Hn. assert (Hq : (n / 10 < 10 ^ N.of_nat fuel)%N) by (apply N.div_lt_upper_bound; lia).
    assert (Hf' : 0 < fuel). { destruct fuel; [|lia]. cbn in Hn. lia. }
    destruct (IH (n / 10)%N (d :: acc) Hq Hf') as (ds & E & H1 & H2 & H3 & H4). exists (ds ++ [d]). rewrite E, <- app_assoc. split; auto. split; [destruct ds; discriminate|]. split; [apply Forall_app; auto|]. split.
    + rewrite decimal_snoc, H3. unfold d. pose proof (N.div_mod n 10 ltac:(discriminate)). lia.
    + intros k Hk Hnk. rewrite app_length. cbn [length]. destruct k as [|k]; [lia|]. rewrite Nat2N.inj_succ, N.pow_succ_r' in Hnk.
      assert (length ds <= k); [|lia]. apply H4; [destruct k; [cbn in Hnk; lia|lia]|]. apply N.div_lt_upper_bound; lia.
Qed.
Lemma dec_ok n : number (Z.of_N n) (dec n) /\ (forall k, 0 < k -> (n < 10 ^ N.of_nat k)%N -> length (dec n) <= k) /\ ~ In 10 (dec n).
Proof.
  destruct (dec_from_ok (S (N.to_nat (N.log2 n))) n []) as (ds & E & H1 & H2 & H3 & H4); [|lia|].
  - rewrite Nat2N.inj_succ, N2Nat.id. destruct n as [|q]; [reflexivity|]. destruct (N.log2_spec (N.pos q) ltac:(lia)) as (_ & H). eapply N.lt_le_trans; [apply H|]. apply N.pow_le_mono_l. lia.
  - unfold dec. rewrite E, app_nil_r. split; [|split]; auto.
    + rewrite <- H3. apply n_plain; auto.
    + intros Hi. rewrite Forall_forall in H2. specialize (H2 _ Hi). unfold digit in H2. lia.
Qed.
Definition litz (l : lit) : Z := if lsign l then (- (Z.of_nat (lvar l) + 1))%Z else (Z.of_nat (lvar l) + 1)%Z.
Lemma zlit_litz l : zlit (litz l) = l.
Proof.
  unfold zlit, litz. destruct (lsign l) eqn:E.
  - replace (Z.to_nat (Z.abs (- (Z.of_nat (lvar l) + 1)) - 1)) with (lvar l) by lia. destruct (Z.ltb_spec (- (Z.of_nat (lvar l) + 1)) 0); [|lia]. rewrite <- E. symmetry; apply lit_eta.
  - replace (Z.to_nat (Z.abs (Z.of_nat (lvar l) + 1) - 1)) with (lvar l) by lia. destruct (Z.ltb_spec (Z.of_nat (lvar l) + 1) 0); [lia|]. rewrite <- E. symmetry; apply lit_eta.
Qed.
Lemma print_lit_number l : number (litz l) (print_lit l).
Proof.
  unfold print_lit, litz. destruct (dec_ok (N.of_nat (lvar l) + 1)) as (H & _). replace (Z.of_nat (lvar l) + 1)%Z with (Z.of_N (N.of_nat (lvar l) + 1)) by lia. destruct (lsign l); cbn [app]; auto.
  destruct (dec_from_ok (S (N.to_nat (N.log2 (N.of_nat (lvar l) + 1)))) (N.of_nat (lvar l) + 1) []) as (ds & E & H1 & H2 & H3 & H4); [|lia|].
  - rewrite Nat2N.inj_succ, N2Nat.id. destruct (N.log2_spec (N.of_nat (lvar l) + 1) ltac:(lia)) as (_ & H'). eapply N.lt_le_trans; [apply H'|]. apply N.pow_le_mono_l. lia.
  - unfold dec. rewrite E, app_nil_r, <- H3. apply n_minus; auto.
Qed.
Definition small (l : lit) : Prop := (Z.of_nat (lvar l) < 2 ^ 30)%Z.
Lemma print_lit_len l : small l -> length (print_lit l) <= 11.
Proof.
  intros H. unfold small in H. unfold print_lit. rewrite app_length. destruct (dec_ok (N.of_nat (lvar l) + 1)) as (_ & HL & _). specialize (HL 10 ltac:(lia)). assert (length (dec (N.of_nat (lvar l) + 1)) <= 10) by (apply HL; change (N.of_nat 10) with 10%N; lia).
  destruct (lsign l); cbn [length]; lia.
Qed.
Lemma print_clause_text c : Forall small c -> clause_text false (concat (map (fun l => print_lit l ++ [32]) c) ++ [48]) (map litz c).
Proof.
  induction c as [|l c IH]; intros H; cbn [map concat app].
  - apply ct_zero. apply (n_plain [48]); [discriminate|]. constructor; auto. unfold digit. lia.
  - inversion H; subst. rewrite <- !app_assoc. apply (ct_lit false (litz l) (print_lit l) [32]).
    + apply print_lit_number.
    + unfold litz. destruct (lsign l); lia.
    + unfold small, litz in *. destruct (lsign l); lia.
    + discriminate.
    + constructor; auto. split; [unfold white; lia|lia].
    + apply IH. auto.
Qed.
Lemma print_clauses_text cs : Forall (Forall small) cs -> dimacs false (concat (map print_clause cs)) (map (map litz) cs).
Proof.
  induction cs as [|c cs IH]; intros H; cbn [map concat]; [constructor|]. inversion H; subst. unfold print_clause at 1.
  replace ((concat (map (fun l => print_lit l ++ [32]) c) ++ [48; 10]) ++ concat (map print_clause cs)) with ((concat (map (fun l => print_lit l ++ [32]) c) ++ [48]) ++ 10 :: concat (map print_clause cs)) by (rewrite <- !app_assoc; reflexivity).
  apply dm_clause; auto.
  - apply print_clause_text. auto.
  - unfold white. lia.
Qed.
Lemma lines_concat B ls : Forall (fun l => length l <= B /\ exists b, l = b ++ [10]) ls -> 0 < B -> lines_fit B (concat ls).
Proof.
  intros H HB. induction H as [|l ls (HL & b0 & Eb) HF IH]; cbn [concat]; intros a b E HLb.
  - symmetry in E. apply app_eq_nil in E. destruct E as (_ & ->). cbn in HLb. lia.
  - destruct (Nat.le_gt_cases (length l) (length a)) as [Hle|Hgt].
    + assert (Ha : a = l ++ skipn (length l) a).
      { rewrite <- (firstn_skipn (length l) a) at 1. f_equal. assert (HE : firstn (length l) (l ++ concat ls) = l) by (apply firstn_app_len; auto). rewrite E, firstn_app in HE. replace (length l - length a) with 0 in HE by lia. cbn [firstn] in HE. rewrite app_nil_r in HE. auto. }
      rewrite Ha, <- app_assoc in E. apply app_inv_head in E. apply (IH _ _ E HLb).
    + assert (Hl : l = a ++ skipn (length a) l).
      { rewrite <- (firstn_skipn (length a) l) at 1. f_equal. assert (HE : firstn (length a) (a ++ b) = a) by (apply firstn_app_len; auto). rewrite <- E, firstn_app in HE. replace (length a - length l) with 0 in HE by lia. cbn [firstn] in HE. rewrite app_nil_r in HE. auto. }
      set (l2 := skipn (length a) l) in *. clearbody l2. assert (Hb : b = l2 ++ concat ls) by (rewrite Hl, <- app_assoc in E; apply app_inv_head in E; auto).
      assert (HL2 : length l2 <= B) by (rewrite Hl, app_length in HL; lia).
      assert (H10 : In 10 l2).
      { assert (Hn : l2 <> []) by (intros E2; rewrite E2, app_nil_r in Hl; rewrite Hl in Hgt; lia). rewrite (app_removelast_last 0 Hn). apply in_or_app. right. left.
        assert (HE : last l 0 = 10) by (rewrite Eb, last_last; auto). rewrite Hl in HE. rewrite <- HE. clear - Hn. induction a as [|x a IHa]; auto. rewrite IHa. cbn [app last]. destruct (a ++ l2) eqn:E; auto. apply app_eq_nil in E. destruct E. contradiction. }
      rewrite Hb, firstn_app. rewrite firstn_all2 by auto. apply in_or_app. auto.
Qed.
Lemma print_clause_len c : Forall small c -> length (print_clause c) <= 12 * length c + 2.
Proof.
  intros H. unfold print_clause. rewrite app_length. cbn [length]. assert (length (concat (map (fun l => print_lit l ++ [32]) c)) <= 12 * length c); [|lia].
  induction H as [|l c Hl Hc IH]; cbn [map concat]; [cbn; lia|]. rewrite !app_length. cbn [length]. pose proof (print_lit_len l Hl). unfold lit in *. lia.
Qed.
Lemma print_lines p : Forall (Forall small) (problem p) -> Forall (fun c => (N.of_nat (length c) < 65536)%N) (problem p) -> (Z.of_nat (variables p) <= 2 ^ 30)%Z -> (Z.of_nat (length (problem p)) < 2 ^ 31)%Z ->
  lines_fit buffer_size (printDIMACS p).
Proof.
  intros HS HC HV HN. unfold buffer_size. unfold printDIMACS. set (h := pcnf ++ [32] ++ dec (N.of_nat (variables p)) ++ [32] ++ dec (N.of_nat (length (problem p)))).
  replace (pcnf ++ [32] ++ dec (N.of_nat (variables p)) ++ [32] ++ dec (N.of_nat (length (problem p))) ++ [10] ++ concat (map print_clause (problem p))) with (concat ((h ++ [10]) :: map print_clause (problem p))) by (unfold h; cbn [concat]; rewrite <- !app_assoc; auto).
  apply lines_concat; [|lia]. constructor.
  - split; [|eauto]. unfold h. rewrite !app_length. cbn [length pcnf]. destruct (dec_ok (N.of_nat (variables p))) as (_ & L1 & _). specialize (L1 10 ltac:(lia)). destruct (dec_ok (N.of_nat (length (problem p)))) as (_ & L2 & _). specialize (L2 10 ltac:(lia)). change (N.of_nat 10) with 10%N in *.
    assert (length (dec (N.of_nat (variables p))) <= 10) by (apply L1; lia). assert (length (dec (N.of_nat (length (problem p)))) <= 10) by (apply L2; lia). lia.
  - apply Forall_forall. intros x Hx. apply in_map_iff in Hx. destruct Hx as (c & <- & Hi). split.
    + rewrite Forall_forall in HS, HC. pose proof (print_clause_len c (HS c Hi)). specialize (HC c Hi). unfold lit in *. lia.
    + unfold print_clause. change [48; 10] with ([48] ++ [10]). rewrite app_assoc. eauto.
Qed.
Lemma print_text p : Forall (Forall small) (problem p) -> (Z.of_nat (variables p) <= 2 ^ 30)%Z -> (Z.of_nat (length (problem p)) < 2 ^ 31)%Z -> dimacs false (printDIMACS p) (map (map litz) (problem p)).
Proof.
  intros HS HV HN. unfold printDIMACS. change ([10] ++ concat (map print_clause (problem p))) with (10 :: concat (map print_clause (problem p))).
  apply (dm_header false [32] (Z.of_N (N.of_nat (variables p))) (dec (N.of_nat (variables p))) [32] (Z.of_N (N.of_nat (length (problem p)))) (dec (N.of_nat (length (problem p))))); try (apply dec_ok); try lia.
  - constructor; auto. split; [unfold white|]; lia.
  - discriminate.
  - constructor; auto. split; [unfold white|]; lia.
  - unfold white. lia.
  - apply print_clauses_text. auto.
Qed.
Lemma sorted_unique (c : list nat) : forall u, StronglySorted lt c -> StronglySorted lt u -> (forall l, In l c <-> In l u) -> c = u.
Proof.
  induction c as [|x c IH]; intros [|y u] Hc Hu H; auto.
  - exfalso. apply (H y). cbn. auto.
  - exfalso. apply (H x). cbn. auto.
  - inversion Hc; subst. inversion Hu; subst. rewrite Forall_forall in H3, H5. assert (x = y).
    { destruct (proj1 (H x) (or_introl eq_refl)) as [|Hx]; auto. destruct (proj2 (H y) (or_introl eq_refl)) as [|Hy]; auto. specialize (H3 _ Hy). specialize (H5 _ Hx). lia. }
    subst y. f_equal. apply IH; auto. intros l. split; intros Hl.
    + destruct (proj1 (H l) (or_intror Hl)) as [<-|]; auto. specialize (H3 _ Hl). lia.
    + destruct (proj2 (H l) (or_intror Hl)) as [<-|]; auto. specialize (H5 _ Hl). lia.
Qed.
Lemma readClauses_normal cs : Forall (fun c => strictly_sorted c /\ ~ tautology c) cs -> problem (readClauses cnf_empty cs) = cs.
Proof.
  intros H. destruct (readClauses_spec cs cnf_empty) as (us & E & HF & _); [intros c []|]. rewrite E. cbn [problem cnf_empty app]. clear E. revert us HF. induction H as [|c cs (H1 & H2) H IH]; intros us HF; cbn [filter] in HF.
  - inversion HF; auto.
  - destruct (nontaut_dec c); [contradiction|]. inversion HF as [|c' u cs' us' (HA & HB) HC]; subst. f_equal; [symmetry; apply sorted_unique; auto|auto].
Qed.
Lemma roundtrip_thm junk cs : let p := readClauses cnf_empty cs in length junk = buffer_size -> (Z.of_nat (variables p) <= 2 ^ 30)%Z -> (Z.of_nat (length (problem p)) < 2 ^ 31)%Z -> (forall c, In c (problem p) -> N.of_nat (length c) < 65536)%N ->
  exists p', readDimacs buffer_size junk (printDIMACS p) cnf_empty = POk p' /\ problem p' = problem p /\ (tight p -> p' = p).
Proof.
  intros p HJ HV HN HC.
  assert (HSh : forall c, In c (problem p) -> strictly_sorted c /\ ~ tautology c) by (intros c Hc; destruct (readClauses_shape cs c Hc) as (A & A' & _); auto).
  assert (HO : forall c l, In c (problem p) -> In l c -> lvar l < variables p).
  { intros c l Hc Hl. destruct (readClauses_shape cs c Hc) as (_ & _ & d & Hd & Hs). destruct (readClauses_spec cs cnf_empty) as (us & _ & _ & _ & HV' & _); [intros c' []|]. apply (HV' d l Hd). apply Hs. auto. }
  assert (HS : Forall (Forall small) (problem p)) by (apply Forall_forall; intros c Hc; apply Forall_forall; intros l Hl; unfold small; specialize (HO c l Hc Hl); lia).
  assert (HCF : Forall (fun c => (N.of_nat (length c) < 65536)%N) (problem p)) by (apply Forall_forall; auto).
  rewrite (readDimacs_ok buffer_size false junk (printDIMACS p) (map (map litz) (problem p)) cnf_empty); auto; try discriminate; try (unfold buffer_size; lia); [|apply print_lines; auto|apply print_text; auto].
  assert (EM : map (map zlit) (map (map litz) (problem p)) = problem p).
  { rewrite map_map. rewrite <- (map_id (problem p)) at 2. apply map_ext. intros c. rewrite map_map. rewrite <- (map_id c) at 2. apply map_ext. apply zlit_litz. }
  rewrite EM. assert (EP : problem (readClauses cnf_empty (problem p)) = problem p) by (apply readClauses_normal; apply Forall_forall; auto).
  eexists. split; [reflexivity|]. split; auto. intros HT. destruct (readClauses_spec (problem p) cnf_empty) as (us & _ & _ & _ & HV' & HE'); [intros c' []|]. cbn [variables cnf_empty] in HE'.
  assert (EV : variables (readClauses cnf_empty (problem p)) = variables p).
  { destruct HT as [HT|(c & l & Hc & Hl & HT)].
    - destruct HE' as [HE'|(c & l & Hc & Hl & HE')]; [congruence|]. specialize (HO c l Hc Hl). lia.
    - specialize (HV' c l Hc Hl). destruct HE' as [HE'|(c' & l' & Hc' & Hl' & HE')]; [lia|]. specialize (HO c' l' Hc' Hl'). lia. }
  destruct (readClauses cnf_empty (problem p)) as [P V], p as [P' V']. cbn [problem variables] in *. subst. auto.
Qed.

(** ** Defects of the stream buffer *)
Lemma skip_region B f b sz o : forall k fuel p, k < fuel -> p + k < sz - o -> (forall i, i < k -> isspace (nth (p + i) b 0) = true) -> isspace (nth (p + k) b 0) = false ->
  skipWhitespace B fuel (mkSb f b p sz o) = POk (mkSb f b (p + k) sz o).
Proof.
  induction k as [|k IH]; intros [|fuel] p Hf Hp H1 H2; try lia; cbn [skipWhitespace]; unfold eof, cur; cbn [size off pos buf].
  - rewrite Nat.add_0_r in *. destruct (Nat.leb_spec (sz - o) p); [lia|]. cbn [negb andb]. rewrite H2. reflexivity.
  - destruct (Nat.leb_spec (sz - o) p); [lia|]. cbn [negb andb]. pose proof (H1 0 ltac:(lia)) as H10. rewrite Nat.add_0_r in H10. rewrite H10. unfold incPos, refill, eof. cbn [size off pos buf file]. destruct (Nat.leb_spec (sz - o) (p + 1)); [lia|]. cbn [pbind].
    rewrite IH; try lia; [f_equal; f_equal; lia| |].
    + intros i Hi. replace (p + 1 + i) with (p + S i) by lia. apply H1. lia.
    + replace (p + 1 + k) with (p + S k) by lia. auto.
Qed.
Lemma loop_clause_eq B F fuel s p s1 ls s2 : eof s = false -> skipWhitespace B F s = POk s1 -> eof s1 = false -> cur s1 <> 112 -> cur s1 <> 99 -> read_lits B F s1 [] = POk (ls, s2) -> dimacs_loop B F (S fuel) s p = dimacs_loop B F fuel s2 (readClause p ls).
Proof. intros H1 H2 H3 H4 H5 H6. cbn [dimacs_loop]. rewrite H1, H2. cbn [pbind]. rewrite H3. destruct (Nat.eqb_spec (cur s1) 112); [contradiction|]. destruct (Nat.eqb_spec (cur s1) 99); [contradiction|]. rewrite H6. reflexivity. Qed.
Lemma loop_end_eq B F fuel s p s1 : skipWhitespace B F s = POk s1 -> eof s1 = true -> dimacs_loop B F (S fuel) s p = POk p.
Proof. intros H2 H3. cbn [dimacs_loop]. rewrite H2. cbn [pbind]. rewrite H3. destruct (eof s); reflexivity. Qed.
(** "1 2\n0 " at the end of the buffer, "\n" behind it *)
Definition boundary_text (b : nat) : list nat := repeat 10 (5 + b) ++ [49; 32; 50; 10; 48; 32; 10].
Lemma nth_rep b : forall i, i < b -> forall l, nth i (repeat 10 b ++ l) 0 = 10.
Proof. intros i Hi l. rewrite app_nth1 by (rewrite repeat_length; auto). clear l. revert i Hi. induction b as [|b IH]; intros [|i] Hi; cbn; try lia; auto. apply IH. lia. Qed.
Lemma skipn_rep b l : skipn b (repeat 10 b ++ l) = l.
Proof. induction b; cbn; auto. Qed.
Lemma boundary_loop b junk : length junk = 11 + b -> exists p, readDimacs (11 + b) junk (boundary_text b) cnf_empty = POk p /\ problem p = [[0; 2]; []].
Proof.
  intros HJ. assert (HLt : length (boundary_text b) = 12 + b) by (unfold boundary_text; rewrite app_length, repeat_length; cbn; lia).
  unfold readDimacs. rewrite HLt. replace (3 * (12 + b) + 3) with (20 + (b + (b + b) + 19)) by lia. remember (b + (b + b) + 19) as F0 eqn:EF0. assert (HF0 : b <= F0) by lia. clear EF0.
  assert (E0 : sb_new (11 + b) junk (boundary_text b) = POk (mkSb [10] (repeat 10 (5 + b) ++ [49; 32; 50; 10; 48; 32]) 0 (11 + b) 2)).
  { unfold sb_new, refill, eof. cbn [size off pos buf file]. cbn [Nat.sub Nat.leb]. rewrite skipn_O. cbn [firstn app].
    assert (E1 : firstn (11 + b) (boundary_text b) = repeat 10 (5 + b) ++ [49; 32; 50; 10; 48; 32]).
    { unfold boundary_text. change [49; 32; 50; 10; 48; 32; 10] with ([49; 32; 50; 10; 48; 32] ++ [10]). rewrite app_assoc. apply firstn_app_len. rewrite app_length, repeat_length. cbn. lia. }
    assert (E2 : skipn (11 + b) (boundary_text b) = [10]).
    { unfold boundary_text. change [49; 32; 50; 10; 48; 32; 10] with ([49; 32; 50; 10; 48; 32] ++ [10]). rewrite app_assoc. rewrite skipn_app. rewrite skipn_all2; [|rewrite app_length, repeat_length; cbn; lia]. replace (11 + b - _) with 0; [reflexivity|]. rewrite app_length, repeat_length. cbn [length]. lia. }
    replace (11 + b - 0) with (11 + b) by lia. rewrite E1, E2. assert (E3 : length (repeat 10 (5 + b) ++ [49; 32; 50; 10; 48; 32]) = 11 + b) by (rewrite app_length, repeat_length; cbn [length]; lia).
    rewrite E3. change (0 + (11 + b)) with (11 + b). rewrite (skipn_all2 junk) by lia. rewrite Nat.ltb_irrefl. rewrite app_nil_r. rewrite firstn_all2 by lia. rewrite rev_app_distr. reflexivity. }
  rewrite E0. cbn [pbind]. clear E0. set (bf := repeat 10 (5 + b) ++ [49; 32; 50; 10; 48; 32]).
  assert (EB : forall k, skipn (5 + b + k) bf = skipn k [49; 32; 50; 10; 48; 32]).
  { intros k. unfold bf. rewrite skipn_app, repeat_length. rewrite skipn_all2 by (rewrite repeat_length; lia). cbn [app]. f_equal. lia. }
  assert (EN : forall k, nth (5 + b + k) bf 0 = nth k [49; 32; 50; 10; 48; 32] 0).
  { intros k. unfold bf. rewrite app_nth2; rewrite repeat_length; [f_equal|]; lia. }
  assert (ES : skipWhitespace (11 + b) (20 + F0) (mkSb [10] bf 0 (11 + b) 2) = POk (mkSb [10] bf (5 + b) (11 + b) 2)).
  { apply (skip_region (11 + b) [10] bf (11 + b) 2 (5 + b) (20 + F0) 0); try lia.
    - intros i Hi. unfold bf. cbn [Nat.add]. rewrite nth_rep by lia. reflexivity.
    - cbn [Nat.add]. specialize (EN 0). rewrite Nat.add_0_r in EN. cbn [Nat.add] in EN. rewrite EN. reflexivity. }
  assert (R1 : forall k n j, k < 4 -> strtol (skipn k [49; 32; 50; 10; 48; 32]) = Some (n, S j) -> (0 <= n <= 2)%Z -> readInteger (11 + b) (mkSb [10] bf (5 + b + k) (11 + b) 2) = (s1 <~ incPos (11 + b) (S j) (mkSb [10] bf (5 + b + k) (11 + b) 2) ;; POk (n, s1))).
  { intros k n j Hk Hs Hn. unfold readInteger, eof. cbn [size off pos buf]. destruct (Nat.leb_spec (11 + b - 2) (5 + b + k)); [lia|]. rewrite EB, Hs. destruct (Z.ltb_spec n (- 2 ^ 63)); [lia|]. destruct (Z.ltb_spec (2 ^ 63 - 1) n); [lia|]. cbn [orb]. destruct (Z.leb_spec (2 ^ 62) (Z.abs n)); [lia|]. destruct (Z.leb_spec (2 ^ 32 - 1) (2 * Z.abs n)); [lia|]. reflexivity. }
  assert (I1 : forall k j, k + j < 4 -> incPos (11 + b) j (mkSb [10] bf (5 + b + k) (11 + b) 2) = POk (mkSb [10] bf (5 + b + (k + j)) (11 + b) 2)).
  { intros k j Hk. unfold incPos, refill, eof. cbn [size off pos buf file]. destruct (Nat.leb_spec (11 + b - 2) (5 + b + k + j)); [lia|]. f_equal. f_equal. lia. }
  set (s2 := mkSb [] (48 :: 32 :: 10 :: skipn 3 bf) 0 3 0).
  assert (I2 : incPos (11 + b) 2 (mkSb [10] bf (5 + b + 3) (11 + b) 2) = POk s2).
  { unfold incPos, refill, eof. cbn [size off pos buf file]. destruct (Nat.leb_spec (11 + b - 2) (5 + b + 3 + 2)); [|lia]. replace (11 + b - 2) with (5 + b + 4) by lia. rewrite EB. rewrite firstn_all2 by (cbn; lia). rewrite skipn_all2 by (cbn; lia). reflexivity. }
  assert (L1 : read_lits (11 + b) (20 + F0) (mkSb [10] bf (5 + b + 0) (11 + b) 2) [] = POk ([0; 2], s2)).
  { cbn [read_lits Nat.add]. change (S (S (S (S (S (S (S (S (S (S (S b))))))))))) with (11 + b). change (S (S (S (S (S (b + 0)))))) with (5 + b + 0).
    rewrite (R1 0 1%Z 0) by (try reflexivity; lia). rewrite I1 by lia. cbn [pbind]. change (1 =? 0)%Z with false. cbn iota. change (lit_of 1) with (POk 0). cbn [pbind].
    change (5 + b + (0 + 1)) with (5 + b + 1). rewrite (R1 1 2%Z 1) by (try reflexivity; lia). rewrite I1 by lia. cbn [pbind]. change (2 =? 0)%Z with false. cbn iota. change (lit_of 2) with (POk 2). cbn [pbind].
    change (5 + b + (1 + 2)) with (5 + b + 3). rewrite (R1 3 0%Z 1) by (try reflexivity; lia). rewrite I2. reflexivity. }
  assert (E2 : eof s2 = false) by reflexivity.
  assert (S2 : skipWhitespace (11 + b) (20 + F0) s2 = POk s2) by reflexivity.
  assert (L2 : read_lits (11 + b) (20 + F0) s2 [] = POk ([], mkSb [] (48 :: 32 :: 10 :: skipn 3 bf) 1 3 0)) by reflexivity.
  assert (L3 : exists s3, skipWhitespace (11 + b) (20 + F0) (mkSb [] (48 :: 32 :: 10 :: skipn 3 bf) 1 3 0) = POk s3 /\ eof s3 = true) by (eexists; split; reflexivity).
  destruct L3 as (s3 & L3 & E3).
  exists (readClause (readClause cnf_empty [0; 2]) []). split; [|reflexivity].
  replace (dimacs_loop (11 + b) (20 + F0) (20 + F0)) with (dimacs_loop (11 + b) (20 + F0) (S (S (S (17 + F0))))) by (f_equal; lia).
  assert (EC : cur (mkSb [10] bf (5 + b + 0) (11 + b) 2) = 49) by (unfold cur; cbn [pos buf]; rewrite EN; reflexivity).
  assert (EE : eof (mkSb [10] bf (5 + b + 0) (11 + b) 2) = false) by (unfold eof; cbn [size off pos]; apply Nat.leb_gt; lia).
  rewrite Nat.add_0_r in *.
  rewrite (loop_clause_eq _ _ _ _ _ _ [0; 2] s2 (eq_refl : eof (mkSb [10] bf 0 (11 + b) 2) = false) ES EE); [|rewrite EC; discriminate|rewrite EC; discriminate|exact L1].
  rewrite (loop_clause_eq _ _ _ s2 _ s2 [] (mkSb [] (48 :: 32 :: 10 :: skipn 3 bf) 1 3 0) E2 S2 E2); [|discriminate|discriminate|exact L2].
  apply (loop_end_eq _ _ _ _ _ s3); auto.
Qed.
Lemma boundary_wf b : dimacs true (boundary_text b) [[1; 2]%Z] /\ lines_fit (11 + b) (boundary_text b).
Proof.
  split.
  - unfold boundary_text. assert (H : dimacs true [49; 32; 50; 10; 48; 32; 10] [[1; 2]%Z]).
    { apply (dm_clause true [49; 32; 50; 10; 48] [1; 2]%Z 32 [10] []); [|unfold white; lia|constructor; [unfold white; lia|constructor]].
      assert (HD : forall d, digit d -> number (Z.of_nat d - 48) [d]) by (intros d Hd; apply (n_plain [d]); [discriminate|auto]).
      apply (ct_lit true 1 [49] [32] [50; 10; 48]); try lia; try discriminate.
      - apply (HD 49). unfold digit. lia.
      - constructor; auto. split; auto. unfold white. lia.
      - apply (ct_lit true 2 [50] [10] [48]); try lia; try discriminate.
        + apply (HD 50). unfold digit. lia.
        + constructor; auto. split; auto. unfold white. lia.
        + apply ct_zero. apply (HD 48). unfold digit. lia. }
    induction (5 + b) as [|n IH]; cbn [repeat app]; auto. constructor; auto. unfold white. lia.
  - intros a r E HL. assert (length (boundary_text b) = 12 + b) by (unfold boundary_text; rewrite app_length, repeat_length; cbn; lia). assert (Ha : length a <= 1) by (rewrite E, app_length in H; lia).
    assert (nth (length a) (boundary_text b) 0 = 10) by (unfold boundary_text; apply nth_rep; lia). rewrite E, app_nth2, Nat.sub_diag in H0 by lia. destruct r as [|x r]; [cbn in HL; lia|]. cbn in H0. subst. cbn [Nat.add firstn]. left. auto.
Qed.
Lemma long_line_thm B junk text p : 0 < B -> length junk = B -> B <= length text -> ~ In 10 (firstn B text) -> readDimacs B junk text p = PUB.
Proof.
  intros HB HJ HL HN. unfold readDimacs, sb_new, refill, eof. cbn [size off pos buf file Nat.sub Nat.leb firstn app]. rewrite Nat.sub_0_r, firstn_length. replace (0 + min B (length text)) with B by lia. rewrite Nat.ltb_irrefl. rewrite (skipn_all2 junk), app_nil_r by lia. rewrite (firstn_all2 (firstn B text)) by (rewrite firstn_length; lia).
  assert (H : after_newline (rev (firstn B text)) = None); [|rewrite H; reflexivity]. assert (HN' : ~ In 10 (rev (firstn B text))) by (rewrite <- in_rev; auto). revert HN'. generalize (rev (firstn B text)). clear. induction l as [|x l IH]; intros H; cbn [after_newline]; auto. destruct (Nat.eqb_spec x 10); [exfalso; apply H; left; auto|]. rewrite IH; auto. intros Hi. apply H. right. auto.
Qed.
(** "1 0" without a newline, with the byte '5' left in memory *)
Lemma no_newline_thm b (j0 j1 j2 : nat) junk : length junk = b -> readDimacs (5 + b) (j0 :: j1 :: j2 :: 53 :: 32 :: junk) [49; 32; 48] cnf_empty = PThrow.
Proof. intros H. reflexivity. Qed.
Lemma no_newline_ok b (j0 j1 j2 : nat) junk : length junk = b -> exists p, readDimacs (5 + b) (j0 :: j1 :: j2 :: 0 :: 0 :: junk) [49; 32; 48] cnf_empty = POk p /\ problem p = [[0]].
Proof. intros H. eexists. split; reflexivity. Qed.
Lemma out_of_range_thm B ml junk t cs pre z n c rest p : 0 < B -> length junk = B -> dimacs ml t cs -> lits_text ml pre -> number z n ->
  (2 ^ 31 <= Z.abs z)%Z -> white c -> lines_fit B (t ++ pre ++ n ++ c :: rest) -> (ml = true -> length (t ++ pre ++ n ++ c :: rest) < B) ->
  ((Z.abs z < 2 ^ 62)%Z \/ (2 ^ 63 <= z)%Z \/ (z < - 2 ^ 63)%Z -> readDimacs B junk (t ++ pre ++ n ++ c :: rest) p = PThrow) /\
  ((2 ^ 62 <= Z.abs z)%Z -> (- 2 ^ 63 <= z < 2 ^ 63)%Z -> readDimacs B junk (t ++ pre ++ n ++ c :: rest) p = PUB).
Proof.
  intros HB HJ HD HP HN HZ Hc HF HM. rewrite (range_thm B ml junk t cs pre z n c rest p) by auto. unfold bad. split; [intros H|intros H H'];
  destruct (Z.leb_spec (2 ^ 62) (Z.abs z)); destruct (Z.leb_spec (- 2 ^ 63) z); destruct (Z.ltb_spec z (2 ^ 63)); cbn [andb]; auto; lia.
Qed.
Lemma boundary_thm b junk : length junk = 11 + b -> exists text p,
  dimacs true text [[1; 2]%Z] /\ lines_fit (11 + b) text /\ readDimacs (11 + b) junk text cnf_empty = POk p /\ problem p = [[0; 2]; []].
Proof. intros HJ. destruct (boundary_loop b junk HJ) as (p & H). exists (boundary_text b), p. destruct (boundary_wf b). tauto. Qed.
Ltac num := match goal with |- number _ (45 :: ?l) => apply (n_minus l) | |- number _ (43 :: ?l) => apply (n_plus l) | |- number _ ?l => apply (n_plain l) end; [discriminate|repeat constructor; unfold digit; lia].
Ltac sepw := match goal with |- white _ => unfold white; lia | |- Forall _ _ => repeat (apply Forall_cons; [split; [unfold white; lia|intros; lia]|]); apply Forall_nil end.
Lemma example_thm : let ex_text := [99; 32; 104; 105; 10;  112; 32; 99; 110; 102; 32; 51; 32; 50; 10;  49; 32; 45; 51; 32; 48; 10;  43; 50; 9; 48; 13; 10] in
  dimacs false ex_text [[1; -3]; [2]]%Z /\ lines_fit 10 ex_text /\
  readDimacs 10 (repeat 57 10) ex_text cnf_empty = POk (mkCnf [[0; 5]; [2]] 3).
Proof.
  cbn zeta. split; [|split; [|vm_compute; reflexivity]].
  - apply (dm_comment false [32; 104; 105] 10); [cbn; unfold line_end; intros c H; lia|unfold line_end; lia|].
    apply (dm_header false [32] 3 [51] [32] 2 [50] 10); try lia; try discriminate; try num; try sepw.
    apply (dm_clause false [49; 32; 45; 51; 32; 48] [1; -3]%Z 10); try sepw.
    + apply (ct_lit false 1 [49] [32]); try lia; try discriminate; try num; try sepw. apply (ct_lit false (-3) [45; 51] [32] [48]); try lia; try discriminate; try num; try sepw. apply ct_zero. num.
    + apply (dm_clause false [43; 50; 9; 48] [2]%Z 13); try sepw; [|apply dm_white; [sepw|apply dm_nil]]. apply (ct_lit false 2 [43; 50] [9] [48]); try lia; try discriminate; try num; try sepw. apply ct_zero. num.
  - change (lines_fit 10 (concat [[99; 32; 104; 105; 10];  [112; 32; 99; 110; 102; 32; 51; 32; 50; 10];  [49; 32; 45; 51; 32; 48; 10];  [43; 50; 9; 48; 13; 10]])). apply lines_concat; [|lia].
    repeat constructor; cbn; try lia; [exists [99; 32; 104; 105]|exists [112; 32; 99; 110; 102; 32; 51; 32; 50]|exists [49; 32; 45; 51; 32; 48]|exists [43; 50; 9; 48; 13]]; reflexivity.
Qed.
Lemma range_example : lits_text false [49; 32] /\ number 3000000000 [51; 48; 48; 48; 48; 48; 48; 48; 48; 48] /\
  readDimacs 40 (repeat 57 40) [49; 32; 51; 48; 48; 48; 48; 48; 48; 48; 48; 48; 32; 48; 10] cnf_empty = PThrow.
Proof.
  split; [|split; [num|vm_compute; reflexivity]]. apply (lt_cons false 1 [49] [32] []); try lia; try discriminate; try num; try sepw. apply lt_nil.
Qed.
Lemma header_example : number 3 [51] /\ number (-2) [45; 50] /\
  readDimacs 40 (repeat 57 40) [112; 32; 99; 110; 102; 32; 51; 32; 45; 50; 10] cnf_empty = PThrow /\
  readDimacs 40 (repeat 57 40) [112; 32; 100; 110; 102; 32; 51; 32; 50; 10] cnf_empty = PThrow /\
  forall q, [112; 32; 100; 110; 102; 32; 51; 32; 50; 10] <> [112; 32; 99; 110; 102] ++ q.
Proof. split; [num|]. split; [num|]. split; [vm_compute; reflexivity|]. split; [vm_compute; reflexivity|]. discriminate. Qed.
