(** Reading proof files. *)
Require Import List Arith Bool ZArith NArith Lia.
From Coq Require Import ZifyBool ZifyNat ZifyN.
Require Import Verif.Base Verif.Outcome Verif.DbModel Verif.DimacsModel Verif.DimacsSpec Verif.DimacsProofs Verif.DimacsMore
  Verif.DRATModel Verif.DratFileModel Verif.DratTextModel Verif.DratTextSpec.
Import ListNotations.

Section Text.
Variable B : nat.
Hypothesis HB : 0 < B.
Variable wh : bool.
Lemma nowhite c : ~ white c -> isspace c = false.
Proof. intros H. destruct (isspace c) eqn:E; auto. apply (isspace_white B HB) in E. contradiction. Qed.
Lemma drat_drop t ls : drat_text wh t ls -> drat_text wh (drop_white t) ls.
Proof.
  induction 1 as [|c t ls Hc HD IH|body e t ls Hb He HD IH|ct zs c t ls HC Hc HD IH|w ct zs c t ls HW HC Hc HD IH]; cbn [drop_white].
  - constructor.
  - rewrite (proj2 (isspace_white B HB c) Hc). auto.
  - replace (isspace 99) with false by reflexivity. apply dt_comment; auto.
  - destruct (clause_text_head B HB wh _ _ HC) as (x & r & E & Hx & _). rewrite E. cbn [app drop_white]. rewrite (nowhite x Hx), app_comm_cons, <- E. apply dt_add; auto.
  - replace (isspace 100) with false by reflexivity. apply dt_del; auto.
Qed.
(** what happens behind an item *)
Lemma next_item F fuel s c t ls k : white c -> drat_text wh t ls -> lines_fit B (c :: t) -> IV B wh s (c :: t) -> S (length t) < F -> length t < fuel ->
  (forall s' t' k, drat_text wh t' ls -> stop t' -> length t' < fuel -> length t' < F -> lines_fit B t' -> IV B wh s' t' -> proof_loop B F fuel s' k = POk (check_lines ls k)) ->
  exists s', skipWhitespace B F s = POk s' /\ proof_loop B F fuel s' k = POk (check_lines ls k).
Proof.
  intros Hc HD HF HI HL Hf IH. destruct (skip_white B HB wh F s (c :: t)) as (s1 & E1 & I1 & F1 & L1); auto. exists s1. split; auto.
  cbn [drop_white] in *. rewrite (proj2 (isspace_white B HB c) Hc) in *.
  destruct (drop_white_split B HB t) as (w & Ew & _ & HN). assert (length t = length w + length (drop_white t)) by (rewrite Ew at 1; apply app_length).
  apply (IH s1 (drop_white t)); auto; [apply drat_drop; auto|lia|lia].
Qed.
Lemma proof_loop_ok F : forall fuel t ls s k, drat_text wh t ls -> stop t -> length t < fuel -> length t < F -> lines_fit B t -> IV B wh s t ->
  proof_loop B F fuel s k = POk (check_lines ls k).
Proof.
  induction fuel as [|fuel IH]; intros t ls s k HD HS Hf HFl HF HI; [lia|]. cbn [proof_loop]. rewrite (IV_eof B HB wh _ _ HI).
  inversion HD as [Ex Ec|c t' ls' Hc HD' Ex Ec|body e t' ls' Hb He HD' Ex Ec|ct zs c t' ls' HC Hc HD' Ex Ec|w ct zs c t' ls' HW HC Hc HD' Ex Ec]; subst t ls.
  - reflexivity.
  - exfalso. exact (HS _ _ eq_refl Hc).
  - rewrite (IV_cur B wh _ _ _ HI). cbn [Nat.eqb]. repeat (rewrite app_length in HFl || cbn [length app] in HFl). repeat (rewrite app_length in Hf || cbn [length app] in Hf). unfold skipLine.
    destruct (skipRest_ok B HB wh (99 :: body) F s (e :: t')) as (s2 & E2 & HI2); auto; [cbn [length]; lia|intros c [<-|Hc]; auto; unfold line_end; lia|intros c r E; injection E as <- <-; auto|].
    rewrite E2. cbn [pbind]. assert (HF2 : lines_fit B (e :: t')) by (apply (lines_fit_app B (99 :: body)); auto).
    destruct (skip_white B HB wh F s2 (e :: t')) as (s3 & E3 & HI3 & HF3 & HL3); auto; [cbn [length]; lia|]. rewrite E3. cbn [pbind length] in *.
    assert (HE : isspace e = true) by (apply (isspace_white B HB); unfold line_end, white in *; lia). cbn [drop_white] in HI3, HF3, HL3. rewrite HE in HI3, HF3, HL3.
    assert (E4 : skipWhitespace B F s3 = POk s3).
    { destruct F as [|F']; [lia|]. cbn [skipWhitespace]. rewrite (IV_eof B HB wh _ _ HI3). destruct (drop_white_split B HB t') as (w & _ & _ & HN). destruct (drop_white t') as [|c r] eqn:Ed; [reflexivity|].
      rewrite (IV_cur B wh _ _ _ HI3), (nowhite c (HN c r eq_refl)). reflexivity. }
    rewrite E4. cbn [pbind]. destruct (drop_white_split B HB t') as (w & Ew & _ & HN). assert (length t' = length w + length (drop_white t')) by (rewrite Ew at 1; apply app_length).
    apply (IH (drop_white t')); auto; [apply drat_drop; auto|lia|lia].
  - destruct (clause_text_head B HB wh _ _ HC) as (x & r & Ex & Hx & X1 & X2 & X3). assert (HL3 : 1 <= length ct) by (rewrite Ex; cbn; lia).
    rewrite app_length in HFl, Hf. cbn [length] in HFl, Hf. assert (HI' := HI). rewrite Ex in HI'. cbn [app] in HI'. rewrite (IV_cur B wh _ _ _ HI'). rewrite Ex at 1. cbn [app].
    destruct (Nat.eqb_spec x 99); [contradiction|]. destruct (Nat.eqb_spec x 100); [contradiction|].
    destruct (read_lits_ok B HB wh ct zs HC F [] s c t' []) as (s2 & E2 & HI2); auto; [lia|constructor|]. rewrite E2. cbn [pbind app check_lines].
    destruct (check_clause_add (map zlit zs) k) as [(b & k1)|e] eqn:EA; [|reflexivity]. cbn [bind]. destruct b; [|reflexivity].
    destruct (next_item F fuel s2 c t' ls' k1) as (s3 & E3 & HR); try assumption; try lia; [apply (lines_fit_app B ct); auto|intros s' t'' k' W1 W2 W3 W4 W5 W6; exact (IH t'' ls' s' k' W1 W2 W3 W4 W5 W6)|]. rewrite E3. cbn [pbind]. exact HR.
  - rewrite (IV_cur B wh _ _ _ HI). cbn [Nat.eqb]. repeat (rewrite app_length in HFl || cbn [length app] in HFl). repeat (rewrite app_length in Hf || cbn [length app] in Hf).
    assert (HF1 : lines_fit B (w ++ ct ++ c :: t')) by (apply (lines_fit_cons B 100); auto).
    destruct (inc_ok B HB wh s 100 (w ++ ct ++ c :: t')) as (s1 & E1 & HI1); auto. rewrite E1. cbn [pbind].
    destruct (read_lits_ok B HB wh ct zs HC F w s1 c t' []) as (s2 & E2 & HI2); auto; [lia|]. rewrite E2. cbn [pbind app check_lines].
    destruct (check_clause_remove (map zlit zs) k) as [k1|e] eqn:EA; [|reflexivity]. cbn [bind].
    destruct (next_item F fuel s2 c t' ls' k1) as (s3 & E3 & HR); try assumption; try lia; [apply (lines_fit_app B (w ++ ct)); rewrite <- app_assoc; auto|intros s' t'' k' W1 W2 W3 W4 W5 W6; exact (IH t'' ls' s' k' W1 W2 W3 W4 W5 W6)|]. rewrite E3. cbn [pbind]. exact HR.
Qed.
End Text.

Lemma file_text B wh junk text ls n cs : 0 < B -> length junk = B -> drat_text wh text ls -> lines_fit B text -> (wh = true -> length text < B) ->
  check_proof_file B junk text n cs = POk (check_proof n cs ls).
Proof.
  intros HB HJ HD HF HM. unfold check_proof_file, check_proof. destruct (chk_new n cs) as [k|e]; [|reflexivity]. cbn [bind]. destruct (empt (k_d k)); [reflexivity|].
  destruct (sb_new_ok B HB wh junk text HJ HF HM) as (s & E & HI). rewrite E. cbn [pbind].
  destruct (skip_white B HB wh (3 * length text + 3) s text) as (s1 & E1 & I1 & F1 & L1); auto; [lia|]. rewrite E1. cbn [pbind].
  destruct (drop_white_split B HB text) as (w & _ & _ & HN). apply (proof_loop_ok B HB wh _ _ (drop_white text)); auto; try lia. apply (drat_drop B HB). auto.
Qed.

Definition line_lits' (l : cline) : list lit := match l with CAdd c | CDel c => c end.
Lemma zlit_lits c : map zlit (map litz c) = c.
Proof. induction c as [|l c IH]; cbn [map]; [reflexivity|]. rewrite zlit_litz, IH. reflexivity. Qed.
Lemma print_drat ls : Forall (fun l => Forall small (line_lits' l)) ls -> drat_text false (print_proof ls) ls.
Proof.
  unfold print_proof. induction 1 as [|[c|c] ls Hc HL IH]; cbn [map concat print_line line_lits'] in *; [constructor| |].
  - set (w := concat (map print_line ls)) in *. assert (E : print_clause c ++ w = (concat (map (fun l => print_lit l ++ [32]) c) ++ [48]) ++ 10 :: w) by (unfold print_clause; rewrite <- !app_assoc; reflexivity).
    rewrite E. rewrite <- (zlit_lits c) at 2. apply dt_add; [apply print_clause_text; auto|unfold white; lia|exact IH].
  - set (w := concat (map print_line ls)) in *. assert (E : ([100; 32] ++ print_clause c) ++ w = 100 :: [32] ++ (concat (map (fun l => print_lit l ++ [32]) c) ++ [48]) ++ 10 :: w) by (unfold print_clause; rewrite <- !app_assoc; reflexivity).
    rewrite E. rewrite <- (zlit_lits c) at 2.
    apply dt_del; [apply Forall_cons; [split; [unfold white; lia|lia]|apply Forall_nil]|apply print_clause_text; auto|unfold white; lia|exact IH].
Qed.
Lemma print_proof_fit B ls : (forall l, In l ls -> Forall small (line_lits' l) /\ (N.of_nat (length (line_lits' l)) * 12 + 4 <= N.of_nat B)%N) -> 0 < B -> lines_fit B (print_proof ls).
Proof.
  intros H HB. unfold print_proof. apply lines_concat; auto. apply Forall_forall. intros x Hx. apply in_map_iff in Hx. destruct Hx as (l & <- & Hi).
  destruct (H l Hi) as (H1 & H2). destruct l as [c|c]; cbn [print_line line_lits'] in *; pose proof (print_clause_len c H1); (split; [rewrite ?app_length; cbn [length]; unfold lit in *; lia|]).
  - unfold print_clause. change [48; 10] with ([48] ++ [10]). rewrite app_assoc. eauto.
  - unfold print_clause. change [48; 10] with ([48] ++ [10]). rewrite !app_assoc. eauto.
Qed.
Lemma written_read junk ls n cs : length junk = buffer_size ->
  (forall l, In l ls -> (forall x, In x (line_lits' l) -> (Z.of_nat (lvar x) < 2 ^ 30)%Z) /\ (N.of_nat (length (line_lits' l)) < 65536)%N) ->
  check_proof_file buffer_size junk (print_proof ls) n cs = POk (check_proof n cs ls).
Proof.
  intros HJ H. assert (HB : 0 < buffer_size) by (unfold buffer_size; lia). assert (HS : forall l, In l ls -> Forall small (line_lits' l)) by (intros l Hl; apply Forall_forall; apply (H l Hl)).
  apply (file_text buffer_size false); auto; [apply print_drat; apply Forall_forall; auto| |discriminate].
  apply print_proof_fit; auto. intros l Hl. split; auto. destruct (H l Hl) as (_ & H2). unfold buffer_size. lia.
Qed.
