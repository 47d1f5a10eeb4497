(** The cardinality constraints of the minimiser (Minimizer.h:55-136): what its clauses mean. *)
Require Import List Arith Bool NArith Lia.
Require Import Verif.Base Verif.CNFModel Verif.CNFProofs Verif.PropSpec Verif.MinModel Verif.MinSpec Verif.MinProofs.
Import ListNotations.

Lemma sat_snoc a c l : sat_clause a (c ++ [l]) <-> sat_clause a c \/ lit_holds a l.
Proof.
  split.
  - intros (x & Hx & H). apply in_app_or in Hx. destruct Hx as [Hx|[<-|[]]]; auto. left. exists x. auto.
  - intros [(x & Hx & H)|H]; [exists x|exists l]; split; auto; apply in_or_app; auto. right. left. auto.
Qed.
Lemma sat_map_snoc a l f : sat a (map (fun c => c ++ [l]) f) <-> lit_holds a l \/ sat a f.
Proof.
  split.
  - intros H. destruct (lit_val a l) eqn:E; [left; exact E|right]. intros c Hc. specialize (H (c ++ [l])). rewrite sat_snoc in H. destruct H as [H|H]; auto; [apply in_map_iff; exists c; auto|]. unfold lit_holds in H. congruence.
  - intros H d Hd. apply in_map_iff in Hd. destruct Hd as (c & <- & Hc). apply sat_snoc. destruct H as [H|H]; [auto|left; apply H; auto].
Qed.
Lemma sat_unit a l : sat a [[l]] <-> lit_holds a l.
Proof. split; [intros H; destruct (H [l] (or_introl eq_refl)) as (x & [<-|[]] & E); auto|]. intros H c [<-|[]]. exists l. split; auto. left. auto. Qed.
Lemma sat_app2 a f g : sat a (f ++ g) <-> sat a f /\ sat a g.
Proof. split; [intros H; split; intros c Hc; apply H, in_or_app; auto|intros (H1 & H2) c Hc; apply in_app_or in Hc; destruct Hc; auto]. Qed.
Lemma bit_neg a o : lit_holds a (lneg o) <-> bit a o = 0.
Proof. unfold lit_holds, bit. rewrite lit_val_neg. destruct (lit_val a o); cbn; intuition discriminate. Qed.
Lemma bit_le a o : bit a o = 0 \/ bit a o = 1.
Proof. unfold bit. destruct (lit_val a o); auto. Qed.
Lemma pow_pos k : 0 < 2 ^ k.
Proof. induction k; cbn; lia. Qed.

Lemma less_than_gen a : forall outs k acc, sat a (lessThan outs k acc) <-> number a outs < k mod 2 ^ length outs \/ (number a outs = k mod 2 ^ length outs /\ sat a acc).
Proof.
  induction outs as [|o r IH]; intros k acc.
  - cbn [lessThan number length]. change (2 ^ 0) with 1. rewrite Nat.mod_1_r. intuition lia.
  - cbn [lessThan number length]. rewrite IH. clear IH. set (k' := Nat.div2 k mod 2 ^ length r).
    assert (EK : k mod 2 ^ S (length r) = Nat.b2n (Nat.odd k) + 2 * k').
    { pose proof (Nat.div2_odd k) as D. unfold k'. pose proof (pow_pos (length r)) as P. rewrite Nat.pow_succ_r'.
      rewrite Nat.mod_mul_r by lia. rewrite <- Nat.div2_div. f_equal. rewrite <- Nat.bit0_mod. rewrite Nat.bit0_odd. auto. }
    rewrite EK. destruct (Nat.odd k); cbn [Nat.b2n].
    + rewrite sat_map_snoc, bit_neg. destruct (bit_le a o) as [E|E]; rewrite E; split; intros [H|H]; try (destruct H as [H1 H2]; try destruct H2 as [H2|H2]; try discriminate);
        first [left; lia | right; split; [lia|auto; fail] | idtac].
      assert (C : number a r < k' \/ number a r = k') by lia. destruct C; [left; auto|right; split; auto].
    + rewrite sat_app2, sat_unit, bit_neg. destruct (bit_le a o) as [E|E]; rewrite E; split; intros [H|H]; try (destruct H as (H1 & H2)); try (destruct H2 as (H2 & H3));
        first [discriminate | left; lia | right; split; [lia|auto] | lia].
Qed.
Lemma less_than_value a outs k : sat a (lessThan outs k []) <-> number a outs <= k mod 2 ^ length outs.
Proof. rewrite less_than_gen. split; [lia|]. intros H. assert (C : number a outs < k mod 2 ^ length outs \/ number a outs = k mod 2 ^ length outs) by lia. destruct C; auto. right. split; auto. intros c []. Qed.

Ltac sat_cases := unfold lit_holds, bit; repeat rewrite ?lit_val_neg in *.
Lemma sat_iff a f : sat a f <-> forallb (fun c => existsb (lit_val a) c) f = true.
Proof.
  rewrite forallb_forall. split; intros H c Hc; specialize (H c Hc); [apply existsb_exists; destruct H as (l & Hl & E); exists l; auto|apply existsb_exists in H; destruct H as (l & Hl & E); exists l; auto].
Qed.
Ltac adder_tac := cbn; split; [intros H; first [discriminate H | split; intros; first [reflexivity | discriminate | lia]]
  | intros H; first [reflexivity | exfalso; destruct H as (H1 & H2); first [discriminate (H1 eq_refl) | assert (HF : false = true) by (apply H2; lia); discriminate HF]]].
Lemma full_adder_meaning a x y c s k : sat a (fullAdder x y c s k) <-> (Nat.odd (bit a x + bit a y + bit a c) = true -> lit_holds a s) /\ (2 <= bit a x + bit a y + bit a c -> lit_holds a k).
Proof.
  rewrite sat_iff. unfold fullAdder. cbn [forallb existsb]. rewrite !lit_val_neg. unfold bit, lit_holds. destruct (lit_val a x), (lit_val a y), (lit_val a c), (lit_val a s), (lit_val a k); adder_tac.
Qed.
Lemma half_adder_meaning a x c s k : sat a (halfAdder x c s k) <-> (Nat.odd (bit a x + bit a c) = true -> lit_holds a s) /\ (2 <= bit a x + bit a c -> lit_holds a k).
Proof.
  rewrite sat_iff. unfold halfAdder. cbn [forallb existsb]. rewrite !lit_val_neg. unfold bit, lit_holds. destruct (lit_val a x), (lit_val a c), (lit_val a s), (lit_val a k); adder_tac.
Qed.

Lemma number_app a x y : number a (x ++ y) = number a x + 2 ^ length x * number a y.
Proof. induction x as [|l x IH]; cbn [app number length]; [cbn; lia|]. rewrite IH, Nat.pow_succ_r'. nia. Qed.
Lemma odd_number (z : nat) (s k : bool) : z <= 3 -> (Nat.odd z = true -> s = true) -> (2 <= z -> k = true) -> z <= (if s then 1 else 0) + 2 * (if k then 1 else 0).
Proof.
  intros Hz H1 H2. destruct z as [|[|[|[|z]]]]; [lia| | | |lia]; try rewrite (H2 ltac:(lia)); try rewrite (H1 eq_refl); destruct s, k; lia.
Qed.
Lemma half_number a x c s k : (Nat.odd (bit a x + bit a c) = true -> lit_holds a s) /\ (2 <= bit a x + bit a c -> lit_holds a k) -> bit a x + bit a c <= bit a s + 2 * bit a k.
Proof. intros (H1 & H2). apply odd_number; auto. destruct (bit_le a x), (bit_le a c); lia. Qed.
Lemma full_number a x y c s k : (Nat.odd (bit a x + bit a y + bit a c) = true -> lit_holds a s) /\ (2 <= bit a x + bit a y + bit a c -> lit_holds a k) -> bit a x + bit a y + bit a c <= bit a s + 2 * bit a k.
Proof. intros (H1 & H2). apply odd_number; auto. destruct (bit_le a x), (bit_le a y), (bit_le a c); lia. Qed.
Lemma adder_number a : forall xs ys c p o k p', Forall (clause_ok (variables p)) (problem p) -> add_bits xs ys c p = (o, k, p') -> sat a (problem p') ->
  sat a (problem p) /\ length o = length xs /\ number a xs + number a (firstn (length xs) ys) + bit a c <= number a (o ++ [k]).
Proof.
  induction xs as [|x xs IH]; intros ys c p o k p' HP E HS; cbn [add_bits] in E.
  - injection E as <- <- <-. split; auto. split; auto. cbn. lia.
  - cbn [newVar] in E. set (p2 := mkCnf (problem (mkCnf (problem p) (S (variables p)))) (S (variables (mkCnf (problem p) (S (variables p)))))) in *.
    set (s := mkLit (variables p) false) in *. set (nx := mkLit (variables (mkCnf (problem p) (S (variables p)))) false) in *.
    assert (H2 : Forall (clause_ok (variables p2)) (problem p2)).
    { cbn. eapply Forall_impl; [|exact HP]. intros d (A & B). split; auto. intros l Hl. specialize (B l Hl). lia. }
    match type of E with context [readClauses p2 ?q] => set (q0 := q) in * end.
    destruct (read_ok q0 p2 H2) as (B1 & _ & _ & B4). destruct (add_bits xs (tl ys) nx (readClauses p2 q0)) as ((o1 & k1) & p4) eqn:EA.
    injection E as <- <- <-. destruct (IH _ _ _ _ _ _ B1 EA HS) as (S1 & L1 & N1). apply B4 in S1. destruct S1 as (S1 & S2).
    split; [exact S1|]. split; [cbn [length]; auto|]. cbn [app number length firstn].
    assert (HB : bit a x + bit a (hd 0 ys) * (match ys with [] => 0 | _ => 1 end) + bit a c <= bit a s + 2 * bit a nx).
    { unfold q0 in S2. destruct ys as [|y ys]; cbn [hd].
      - apply half_adder_meaning in S2. apply half_number in S2. lia.
      - apply full_adder_meaning in S2. apply full_number in S2. lia. }
    destruct ys as [|y ys]; cbn [hd tl number] in *.
    + rewrite firstn_nil in N1. cbn [number] in N1. lia.
    + lia.
Qed.
Lemma count_app a x y : count_true a (x ++ y) = count_true a x + count_true a y.
Proof. induction x as [|l x IH]; cbn [app count_true]; lia. Qed.
Lemma counter_number a : forall k fuel ins p outs p', length ins = 2 ^ k -> k <= fuel -> Forall (clause_ok (variables p)) (problem p) -> genParCounter fuel ins p = (outs, p') -> sat a (problem p') ->
  sat a (problem p) /\ length outs = S k /\ count_true a ins <= number a outs.
Proof.
  induction k as [|k IH]; intros fuel ins p outs p' HL HF HP E HS.
  - destruct ins as [|x [|y ins]]; try discriminate. destruct fuel; cbn [genParCounter] in E; injection E as <- <-; split; auto; split; auto; cbn; lia.
  - assert (L2 : 2 <= length ins) by (rewrite HL, Nat.pow_succ_r'; pose proof (pow_pos k); lia).
    destruct fuel as [|fuel]; [lia|]. destruct ins as [|x [|y ins]]; try (cbn in L2; lia). cbn [genParCounter] in E. set (l := x :: y :: ins) in *. set (h := length l / 2) in *.
    assert (EH : h = 2 ^ k) by (unfold h; rewrite HL, Nat.pow_succ_r', Nat.mul_comm, Nat.div_mul by lia; auto).
    destruct (genParCounter fuel (firstn h l) p) as (xa & p1) eqn:E1. destruct (genParCounter fuel (skipn h l) p1) as (xb & p2) eqn:E2.
    destruct (add_bits xa xb (last l 0) p2) as ((o & c) & p3) eqn:E3. injection E as <- <-.
    assert (W1 : Forall (clause_ok (variables p1)) (problem p1)) by (pose proof (counter_ok fuel (firstn h l) p HP) as W; rewrite E1 in W; exact W).
    assert (W2 : Forall (clause_ok (variables p2)) (problem p2)) by (pose proof (counter_ok fuel (skipn h l) p1 W1) as W; rewrite E2 in W; exact W).
    assert (LA : length (firstn h l) = 2 ^ k) by (rewrite firstn_length, HL, EH, Nat.pow_succ_r'; lia).
    assert (LB : length (skipn h l) = 2 ^ k) by (rewrite skipn_length, HL, EH, Nat.pow_succ_r'; lia).
    destruct (adder_number a _ _ _ _ _ _ _ W2 E3 HS) as (S2 & LO & N3).
    destruct (IH fuel _ p1 xb p2 LB) as (S1 & L1 & N2); auto; [lia|]. destruct (IH fuel _ p xa p1 LA) as (S0 & L0 & N1); auto; [lia|].
    split; auto. split; [rewrite app_length; cbn [length]; lia|].
    rewrite <- (firstn_skipn h l) at 1. rewrite count_app. rewrite L0, <- L1, firstn_all in N3. lia.
Qed.
Lemma counter_lower a k ins outs p : length ins = 2 ^ k -> genParCounter (length ins) ins cnf_empty = (outs, p) -> sat a (problem p) -> length outs = S k /\ count_true a ins <= number a outs.
Proof.
  intros HL E HS. apply (counter_number a k (length ins) ins cnf_empty outs p HL); auto; [|constructor]. rewrite HL. clear. induction k; cbn; [lia|]. pose proof (pow_pos k). lia.
Qed.
Definition inputs_of (n : nat) : list lit := map (fun v => mkLit v false) (seq 0 n).
Lemma counter_excludes : exists n outs p (x : assignment), genParCounter n (inputs_of n) cnf_empty = (outs, p) /\ forall a, (forall v, v < n -> a v = x v) -> ~ sat a (problem p).
Proof.
  exists 3. eexists. eexists. exists (fun v => v =? 1). split; [vm_compute; reflexivity|]. intros a H HS. cbn [problem] in HS.
  assert (H0 := H 0 ltac:(lia)). assert (H1 := H 1 ltac:(lia)). cbn in H0, H1. apply sat_iff in HS. cbn in HS. unfold lit_val in HS. cbn in HS. rewrite H0, H1 in HS. cbn in HS. destruct (a 2); discriminate.
Qed.
Lemma counter_double : exists n outs p, genParCounter n (inputs_of n) cnf_empty = (outs, p) /\
  (exists a, sat a (problem p) /\ count_true a (inputs_of n) = 1) /\ forall a, sat a (problem p) -> a 3 = true -> count_true a (inputs_of n) = 1 -> 3 <= number a outs.
Proof.
  exists 4. eexists. eexists. split; [vm_compute; reflexivity|]. split; [exists (fun v => (v =? 3) || (v =? 4) || (v =? 6)); split; [apply sat_iff; vm_compute; reflexivity|vm_compute; reflexivity]|].
  intros a HS H3 HC. cbn in HC. unfold bit, lit_val in HC. cbn in HC. rewrite H3 in HC. apply sat_iff in HS. cbn [problem] in HS. cbn in HS. unfold number, bit. unfold lit_val in *. cbn in HS |- *.
  destruct (a 0), (a 1), (a 2); cbn in HC; try lia. rewrite H3 in HS. cbn in HS. destruct (a 4), (a 5), (a 6), (a 7); cbn in HS; try discriminate; cbn; lia.
Qed.
