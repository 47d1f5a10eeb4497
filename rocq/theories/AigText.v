(** Lemmas for the text of cnf2aig. *)
Require Import List Arith ZArith NArith Bool Lia.
Require Import Verif.Base Verif.Outcome Verif.CNFModel Verif.CNFSpec Verif.CNFProofs Verif.GateModel Verif.GateSpec Verif.AigModel Verif.AigSpec Verif.AigPrint Verif.DimacsModel Verif.DimacsSpec Verif.DimacsProofs Verif.DimacsMore Verif.AigTextModel Verif.AigTextSpec.
Import ListNotations.

(** ** Numbers *)
Lemma dec_from_head fuel : forall n acc ds, (n < 10 ^ N.of_nat fuel)%N -> 0 < fuel -> dec_from fuel n acc = ds ++ acc ->
  hd 0 ds = 48 -> ds = [48].
Proof.
  induction fuel as [|fuel IH]; intros n acc ds Hn Hf H Hh; [lia|]. cbn [dec_from] in H.
  destruct (n <? 10)%N eqn:E.
  - assert (ds = [48 + N.to_nat (n mod 10)]).
    { change ((48 + N.to_nat (n mod 10)) :: acc) with ([48 + N.to_nat (n mod 10)] ++ acc) in H. apply app_inv_tail in H. auto. }
    subst ds. simpl in Hh. f_equal. lia.
  - apply N.ltb_ge in E. destruct fuel as [|fuel]; [simpl in Hn; lia|].
    assert (Hq : (n / 10 < 10 ^ N.of_nat (S fuel))%N).
    { apply N.div_lt_upper_bound; [lia|]. rewrite <- N.pow_succ_r'. rewrite <- Nnat.Nat2N.inj_succ. auto. }
    destruct (dec_from_ok (S fuel) (n / 10) ((48 + N.to_nat (n mod 10)) :: acc) Hq ltac:(lia)) as (ds' & E1 & Hne & Hd & Hv & _).
    rewrite E1 in H. change (ds' ++ (48 + N.to_nat (n mod 10)) :: acc) with (ds' ++ [48 + N.to_nat (n mod 10)] ++ acc) in H.
    rewrite app_assoc in H. apply app_inv_tail in H. subst ds.
    destruct ds' as [|d r]; [congruence|]. simpl in Hh.
    pose proof (IH _ _ (d :: r) Hq ltac:(lia) E1 Hh) as Hz. rewrite Hz in Hv. unfold decimal in Hv. simpl in Hv.
    assert (n / 10 = 0)%N by lia. exfalso. apply N.div_small_iff in H; lia.
Qed.

Lemma num_unsigned n : unsigned n (num n).
Proof.
  unfold num, unsigned, dec.
  assert (Hlt : (N.of_nat n < 10 ^ N.of_nat (S (N.to_nat (N.log2 (N.of_nat n)))))%N).
  { rewrite Nnat.Nat2N.inj_succ, Nnat.N2Nat.id. destruct (N.eq_dec (N.of_nat n) 0) as [->|Hnz]; [reflexivity|].
    apply N.lt_le_trans with (2 ^ N.succ (N.log2 (N.of_nat n)))%N; [apply N.log2_spec; lia|]. apply N.pow_le_mono_l. lia. }
  destruct (dec_from_ok _ _ [] Hlt ltac:(lia)) as (ds & E & Hne & Hd & Hv & _).
  pose proof (dec_from_head _ _ [] ds Hlt ltac:(lia) E) as Hh. rewrite app_nil_r in E. rewrite E.
  split; auto. split; auto. split; auto. rewrite Hv. apply nat_N_Z.
Qed.

Lemma decimal_pos ds : Forall digit ds -> (0 <= decimal ds)%Z.
Proof.
  induction ds as [|d ds IH] using rev_ind; intros H; [unfold decimal; simpl; lia|].
  apply Forall_app in H. destruct H as (H1 & H2). inversion H2; subst. rewrite decimal_snoc. unfold digit in *.
  specialize (IH H1). lia.
Qed.

Lemma unsigned_det n m ds : unsigned n ds -> unsigned m ds -> n = m.
Proof. intros (_ & _ & H1 & _) (_ & _ & H2 & _). lia. Qed.

Lemma split_sep (a b : list nat) x y ra rb : ~ In x a -> ~ In y a -> ~ In x b -> ~ In y b ->
  (forall u, hd_error ra = Some u -> u = x \/ u = y) -> (forall u, hd_error rb = Some u -> u = x \/ u = y) ->
  ra <> [] -> rb <> [] -> a ++ ra = b ++ rb -> a = b /\ ra = rb.
Proof.
  intros Ha1 Ha2 Hb1 Hb2 Hra Hrb Na Nb. revert b Hb1 Hb2. induction a as [|p a IH]; intros b Hb1 Hb2 E.
  - destruct b as [|q b]; auto. simpl in E. subst ra. destruct (Hra q eq_refl) as [->| ->]; exfalso; [apply Hb1|apply Hb2]; left; auto.
  - destruct b as [|q b].
    + simpl in E. subst rb. destruct (Hrb p eq_refl) as [->| ->]; exfalso; [apply Ha1|apply Ha2]; left; auto.
    + simpl in E. injection E as -> E. destruct (IH ltac:(intros H; apply Ha1; right; auto) ltac:(intros H; apply Ha2; right; auto) b
        ltac:(intros H; apply Hb1; right; auto) ltac:(intros H; apply Hb2; right; auto) E) as (-> & ->). auto.
Qed.

Lemma digits_no ds c : Forall digit ds -> c < 48 -> ~ In c ds.
Proof. intros H Hc Hi. rewrite Forall_forall in H. specialize (H c Hi). unfold digit in H. lia. Qed.

Lemma line_det t l : line t l -> forall l' r r' t', line t' l' -> t ++ r = t' ++ r' -> l = l' /\ t = t' /\ r = r'.
Proof.
  induction 1 as [n ds U|n ds t ns U HL IH]; intros l' r r' t' H' E; inversion H' as [n' ds' U'|n' ds' t2 ns' U' HL']; subst.
  - rewrite <- !app_assoc in E.
    destruct (split_sep ds ds' 10 32 ([10] ++ r) ([10] ++ r')) as (-> & E2); auto;
      try (apply digits_no; [apply U || apply U'|lia]); try (intros u Hu; injection Hu as <-; auto); try discriminate.
    injection E2 as ->. rewrite (unsigned_det _ _ _ U U'). auto.
  - exfalso. rewrite <- !app_assoc in E.
    destruct (split_sep ds ds' 10 32 ([10] ++ r) ((32 :: t2) ++ r')) as (_ & E2); auto;
      try (apply digits_no; [apply U || apply U'|lia]); try (intros u Hu; injection Hu as <-; auto); try discriminate.
  - exfalso. rewrite <- !app_assoc in E.
    destruct (split_sep ds ds' 10 32 ((32 :: t) ++ r) ([10] ++ r')) as (_ & E2); auto;
      try (apply digits_no; [apply U || apply U'|lia]); try (intros u Hu; injection Hu as <-; auto); try discriminate.
  - rewrite <- !app_assoc in E.
    destruct (split_sep ds ds' 10 32 ((32 :: t) ++ r) ((32 :: t2) ++ r')) as (-> & E2); auto;
      try (apply digits_no; [apply U || apply U'|lia]); try (intros u Hu; injection Hu as <-; auto); try discriminate.
    injection E2 as E2. destruct (IH _ _ _ _ HL' E2) as (-> & -> & ->). rewrite (unsigned_det _ _ _ U U'). auto.
Qed.

Lemma line_nonempty t l : line t l -> t <> [].
Proof. intros H E. inversion H; subst; destruct ds; discriminate. Qed.

Lemma lines_det t l : lines t l -> forall l', lines t l' -> l = l'.
Proof.
  induction 1 as [|t l ts ls HL HS IH]; intros l' H'.
  - inversion H' as [|t2 l2 ts2 ls2 H2 HS2 E]; subst; auto. exfalso. apply app_eq_nil in E. destruct E as (-> & _). apply (line_nonempty _ _ H2). auto.
  - inversion H' as [E|t2 l2 ts2 ls2 H2 HS2 E]; subst.
    + exfalso. symmetry in E. apply app_eq_nil in E. destruct E as (-> & _). apply (line_nonempty _ _ HL). auto.
    + destruct (line_det _ _ HL _ _ _ _ H2 (eq_sym E)) as (-> & -> & ->). f_equal. apply IH. auto.
Qed.

(** The format is unambiguous. *)
Lemma app_same {A} (a b c d : list A) : length a = length b -> a ++ c = b ++ d -> a = b /\ c = d.
Proof.
  revert b. induction a as [|x a IH]; intros [|y b] HL E; simpl in *; try discriminate; auto.
  injection E as -> E. injection HL as HL. destruct (IH b HL E) as (-> & ->). auto.
Qed.

Lemma map_inj {A B} (f : A -> B) : (forall x y, f x = f y -> x = y) -> forall l m, map f l = map f m -> l = m.
Proof.
  intros H. induction l as [|a l IH]; intros [|b m] E; simpl in *; try discriminate; auto. injection E as E1 E2.
  rewrite (H _ _ E1), (IH m E2). auto.
Qed.

Lemma aiger_text_det t f g : aiger_text t f -> aiger_text t g -> f = g.
Proof.
  intros (h & b & Et & Hh & Hb & I1 & L1 & O1 & A1) (h' & b' & Et' & Hh' & Hb' & I2 & L2 & O2 & A2).
  rewrite Et in Et'. apply app_inv_head in Et'. destruct (line_det _ _ Hh _ _ _ _ Hh' Et') as (EH & -> & ->).
  pose proof (lines_det _ _ Hb _ Hb') as EB. injection EH as EM EI EL EO EA.
  destruct f, g; simpl in *. subst h_M h_I h_L h_O h_A.
  assert (HL : length (map (fun k : nat => [k]) f_inputs) = length (map (fun k : nat => [k]) f_inputs0)) by (rewrite 2 map_length; congruence).
  destruct (app_same _ _ _ _ HL EB) as (E1 & E2). injection E2 as E2 E3.
  f_equal; auto.
  - apply (map_inj (fun k => [k])); auto. intros x y H; injection H; auto.
  - apply (map_inj (fun b => [fst (fst b); snd (fst b); snd b])); auto.
    intros ((x1 & x2) & x3) ((y1 & y2) & y3) H. simpl in H. injection H as -> -> ->. auto.
Qed.

(** ** What is printed *)
Lemma print_inputs_length neg vs : forall l, print_inputs neg vs = Ok l -> length l = length vs.
Proof.
  induction vs as [|v r IH]; intros l H; cbn [print_inputs] in H; [injection H as <-; auto|].
  apply bind_ok in H. destruct H as (x & _ & H). apply bind_ok in H. destruct H as (y & Ey & H). injection H as <-. simpl. rewrite (IH y Ey). auto.
Qed.
Lemma print_ands_length neg q : forall l, print_ands neg q = Ok l -> length l = length q.
Proof.
  induction q as [|((o & a) & b) r IH]; intros l H; cbn [print_ands] in H; [injection H as <-; auto|].
  apply bind_ok in H. destruct H as (x & _ & H). apply bind_ok in H. destruct H as (y & _ & H).
  apply bind_ok in H. destruct H as (z & _ & H). apply bind_ok in H. destruct H as (t & Et & H). injection H as <-. simpl. rewrite (IH t Et). auto.
Qed.

Lemma counts cfg p f : cnf2aig cfg p = Ok f -> h_I f = length (f_inputs f) /\ h_L f = 0 /\ h_O f = 1 /\ h_A f = length (f_ands f).
Proof.
  unfold cnf2aig. destruct (_ =? 0); [intros H; injection H as <-; auto|]. destruct (_ || _); [intros H; injection H as <-; auto|].
  intros H. apply bind_ok in H. destruct H as (a & _ & H). unfold printAIG in H.
  apply bind_ok in H. destruct H as (neg & _ & H). apply bind_ok in H. destruct H as (i & Ei & H).
  apply bind_ok in H. destruct H as (o & _ & H). apply bind_ok in H. destruct H as (q & Eq & H). injection H as <-. simpl.
  rewrite (print_inputs_length _ _ _ Ei), (print_ands_length _ _ _ Eq). auto.
Qed.

Lemma lines_app t1 l1 t2 l2 : lines t1 l1 -> lines t2 l2 -> lines (t1 ++ t2) (l1 ++ l2).
Proof. intros H1 H2. induction H1; simpl; auto. rewrite <- app_assoc. constructor; auto. Qed.

Lemma lines_concat {A} (f : A -> list nat) (g : A -> list nat) l : (forall x, line (f x) (g x)) -> lines (concat (map f l)) (map g l).
Proof. intros H. induction l as [|a l IH]; simpl; constructor; auto. Qed.

Lemma lit_line_ok k : line (lit_line k) [k].
Proof. apply line_last. apply num_unsigned. Qed.

Lemma and_line_ok b : line (and_line b) [fst (fst b); snd (fst b); snd b].
Proof.
  destruct b as ((o & l) & r). unfold and_line. simpl. apply line_more; [apply num_unsigned|].
  apply (line_more l (num l)); [apply num_unsigned|]. apply line_last. apply num_unsigned.
Qed.

Lemma bytes_text f : h_I f = length (f_inputs f) /\ h_L f = 0 /\ h_O f = 1 /\ h_A f = length (f_ands f) -> aiger_text (aiger_bytes f) f.
Proof.
  intros HC. unfold aiger_text, aiger_bytes, header_line.
  exists (num (h_M f) ++ [32] ++ num (h_I f) ++ [32] ++ num (h_L f) ++ [32] ++ num (h_O f) ++ [32] ++ num (h_A f) ++ [10]),
         (concat (map lit_line (f_inputs f)) ++ lit_line (f_output f) ++ concat (map and_line (f_ands f))).
  split; [rewrite <- !app_assoc; reflexivity|]. split; [|split; [|auto]].
  - repeat (apply line_more; [apply num_unsigned|]). apply line_last. apply num_unsigned.
  - apply lines_app; [apply lines_concat; apply lit_line_ok|]. simpl. apply lines_cons; [apply lit_line_ok|].
    apply lines_concat. apply and_line_ok.
Qed.

(** ** The program *)
Lemma clause_nonzero ml t zs : clause_text ml t zs -> forall z, In z zs -> z <> 0%Z.
Proof. induction 1; intros y Hy; [destruct Hy|]. destruct Hy as [<-|Hy]; auto. Qed.

Lemma dimacs_nonzero ml t cs : dimacs ml t cs -> forall zs z, In zs cs -> In z zs -> z <> 0%Z.
Proof.
  induction 1; intros zs' z' Hzs Hz; try (apply (IHdimacs zs'); auto; fail); [destruct Hzs|].
  destruct Hzs as [<-|Hzs]; [apply (clause_nonzero _ _ _ H); auto|apply (IHdimacs zs'); auto].
Qed.

Lemma strictly_nodup c : strictly_sorted c -> NoDup c.
Proof.
  unfold strictly_sorted. intros H. induction c as [|a c IH]; [constructor|].
  inversion H as [|? ? H1 H2]; subst. constructor; [|apply IH; auto].
  intros Hi. rewrite Forall_forall in H2. specialize (H2 a Hi). lia.
Qed.

Lemma read_wf cs : wf_problem (variables (readClauses cnf_empty cs)) (problem (readClauses cnf_empty cs)).
Proof.
  intros c Hc. destruct (readClauses_shape cs c Hc) as (HS & HT & d & Hd & HE). split; [apply strictly_nodup; auto|]. split; auto.
  intros l Hl. apply (proj1 (readClauses_nvars cs)). exists d, l. split; auto. split; auto. apply HE. auto.
Qed.

Lemma program_main B ml junk cfg text cs out : 0 < B -> length junk = B -> dimacs ml text cs -> lines_fit B text -> (ml = true -> length text < B) ->
  cnf2aig_main B junk cfg text = Printed out ->
  exists f, aiger_text out f /\ (forall f', aiger_text out f' -> f' = f) /\
    (forall x, aiger_evaluation f x -> lit_val x (f_output f) = true ->
       exists m, sat m (map (map zlit) cs) /\ forall v, In (mkLit v false) (f_inputs f) -> m v = x v) /\
    ((forall zs z, In zs cs -> In z zs -> Z.abs z <> 1%Z) ->
     aiger_format f /\
     forall m, sat m (map (map zlit) cs) -> exists x, aiger_evaluation f x /\ lit_val x (f_output f) = true /\ forall v, In (mkLit v false) (f_inputs f) -> x v = m v).
Proof.
  intros HB HJ HD HF HM H. unfold cnf2aig_main in H. rewrite (readDimacs_ok B ml junk text cs cnf_empty HB HJ HF HM HD) in H.
  set (p := readClauses cnf_empty (map (map zlit) cs)) in *.
  destruct (Z.of_nat (variables p) <? 2 ^ 30)%Z; [|discriminate]. destruct (cnf2aig cfg p) as [f|] eqn:E; [|discriminate]. injection H as <-.
  exists f. pose proof (bytes_text f (counts cfg p f E)) as HT. split; auto. split; [intros f' H'; apply (aiger_text_det _ _ _ H' HT)|].
  destruct (file_main cfg p f (read_wf _) E) as (F1 & F2). split.
  - intros x Hx Ho. destruct (F1 x Hx Ho) as (m & Hm & Hi). exists m. split; auto. apply readClauses_models. auto.
  - intros HV. destruct F2 as (F2 & F3).
    { intros c l Hc Hl E0. destruct (readClauses_shape _ c Hc) as (_ & _ & d & Hd & HE). apply HE in Hl.
      apply in_map_iff in Hd. destruct Hd as (zs & <- & Hzs). apply in_map_iff in Hl. destruct Hl as (z & <- & Hz).
      pose proof (HV zs z Hzs Hz) as H1. pose proof (dimacs_nonzero ml text cs HD zs z Hzs Hz) as H0.
      unfold zlit in E0. rewrite lvar_mk in E0. lia. }
    split; auto. intros m Hm. apply F3. apply readClauses_models. auto.
Qed.
