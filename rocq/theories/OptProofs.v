(** Proofs about the command line. *)
Require Import List Arith ZArith Lia String Ascii Bool Verif.Outcome Verif.OptModel Verif.OptSpec.
Import ListNotations.
Open Scope string_scope.

Lemma app_assoc_s a b c : (a ++ b) ++ c = a ++ b ++ c.
Proof. induction a; simpl; congruence. Qed.
Lemma app_nil_s a : a ++ "" = a.
Proof. induction a; simpl; congruence. Qed.
Lemma app_length_s a b : length (a ++ b) = (length a + length b)%nat.
Proof. induction a; simpl; lia. Qed.
Lemma app_inv_s a b c : a ++ b = a ++ c -> b = c.
Proof. induction a; simpl; intros H; [exact H|]. injection H as H. auto. Qed.
Lemma prefix_app p s : prefix p s = true <-> exists t, s = p ++ t.
Proof.
  revert s. induction p as [|c p IH]; intros s; simpl; [destruct s; (split; [eexists; reflexivity|reflexivity])|].
  destruct s as [|d s]; simpl; [split; [discriminate|intros (t & H); discriminate]|].
  destruct (ascii_dec c d) as [<-|N].
  - rewrite IH. split; intros (t & H); exists t; [subst; reflexivity|injection H as H; exact H].
  - split; [discriminate|]. intros (t & H). injection H as H _. congruence.
Qed.
Lemma strstr_prefix p s : prefix p s = true -> strstr s p = Some 0.
Proof. intros H. destruct s; cbn [strstr]; rewrite H; reflexivity. Qed.
Lemma at_start_prefix s p : at_start s p = prefix p s.
Proof.
  unfold at_start. destruct (prefix p s) eqn:E; [rewrite strstr_prefix; auto|].
  destruct s; cbn [strstr]; rewrite E; [reflexivity|]. destruct (strstr s p); reflexivity.
Qed.
Lemma strstr_spec s p : strstr s p <> None <-> exists a b, s = a ++ p ++ b.
Proof.
  split.
  - induction s as [|c s IH]; cbn [strstr]; destruct (prefix p _) eqn:E; intros H.
    + apply prefix_app in E. destruct E as (t & E). exists "", t. exact E.
    + congruence.
    + apply prefix_app in E. destruct E as (t & E). exists "", t. exact E.
    + destruct IH as (a & b & IH); [destruct (strstr s p); cbn in H; congruence|]. exists (String c a), b. cbn. congruence.
  - intros (a & b & ->). induction a as [|c a IH]; cbn [append].
    + rewrite strstr_prefix; [discriminate|]. apply prefix_app. exists b. reflexivity.
    + cbn [strstr]. destruct (prefix _ _); [discriminate|]. destruct (strstr (a ++ p ++ b) p); [discriminate|congruence].
Qed.
Lemma help_spec a : strstr a "--help" = None <-> ~ asks_help a.
Proof.
  unfold asks_help. rewrite <- strstr_spec. destruct (strstr a "--help"); split; intros H; try congruence. elim H. discriminate.
Qed.
Lemma substring_all s : substring 0 (length s) s = s.
Proof. induction s; simpl; congruence. Qed.
Lemma rest_app p t : rest (length p) (p ++ t) = t.
Proof.
  unfold rest. rewrite app_length_s. replace (length p + length t - length p)%nat with (length t) by lia.
  induction p; simpl; [apply substring_all|exact IHp].
Qed.
Lemma exact_match a p : at_start a p && (length a =? length p)%nat = true <-> a = p.
Proof.
  rewrite at_start_prefix, andb_true_iff, prefix_app, Nat.eqb_eq. split.
  - intros ((t & ->) & H). rewrite app_length_s in H. destruct t; [apply app_nil_s|cbn in H; lia].
  - intros ->. split; [exists ""; symmetry; apply app_nil_s|reflexivity].
Qed.
Lemma pat_match a n : at_start a ("-" ++ n ++ "=") = true <-> exists t, a = "-" ++ n ++ "=" ++ t.
Proof. rewrite at_start_prefix, prefix_app. split; intros (t & ->); exists t; cbn; rewrite ?app_assoc_s; reflexivity. Qed.
Lemma rest_pat n t : rest (length ("-" ++ n ++ "=")) ("-" ++ n ++ "=" ++ t) = t.
Proof. rewrite <- (app_assoc_s n). change ("-" ++ (n ++ "=") ++ t) with (("-" ++ n ++ "=") ++ t). apply rest_app. Qed.

(** ** Which arguments an option takes *)
Lemma parse_names o a : parse_opt o a <> PNo <-> names (o_name o) (o_kind o) a.
Proof.
  unfold parse_opt, names. destruct (o_kind o) as [|lo hi| |].
  - destruct (at_start a ("-" ++ o_name o) && _) eqn:E1; [apply exact_match in E1; split; [auto|discriminate]|].
    destruct (at_start a ("-no-" ++ o_name o) && _) eqn:E2; [apply exact_match in E2; split; [auto|discriminate]|].
    split; [congruence|]. intros [H|H]; apply exact_match in H; congruence.
  - rewrite <- pat_match. destruct (at_start _ _); [|split; congruence]. split; [auto|]. intros _. destruct (_ && _)%bool; discriminate.
  - rewrite <- pat_match. destruct (at_start _ _); split; congruence.
  - rewrite <- pat_match. destruct (at_start _ _); split; congruence.
Qed.
Lemma names_flag n k a : names n k a -> flag a = true.
Proof. destruct k; cbn; [intros [->| ->]|intros (t & ->)..]; reflexivity. Qed.
Lemma gives_names n k a v : gives n k a v -> names n k a.
Proof. intros H. destruct H; cbn; eauto. Qed.

(** ** Numbers *)
Lemma digit_code d : d < 10 -> digit (ascii_of_nat (48 + d)) = Some (Z.of_nat d).
Proof. intros H. do 10 (destruct d as [|d]; [reflexivity|]). lia. Qed.
Lemma number_app s : forall z, digits s z -> forall acc t, number acc (s ++ t) = number (acc * 10 ^ Z.of_nat (length s) + z)%Z t.
Proof.
  intros z H. induction H as [d Hd|s z d H IH Hd]; intros acc t.
  - cbn [append number]. rewrite digit_code by exact Hd. cbn [length]. reflexivity.
  - rewrite app_assoc_s, IH. cbn [append number]. rewrite digit_code by exact Hd. f_equal. rewrite app_length_s. cbn [length].
    rewrite Nat2Z.inj_add, Z.pow_add_r by lia. change (10 ^ Z.of_nat 1)%Z with 10%Z. ring.
Qed.
Lemma digits_number s z : digits s z -> number 0 s = z.
Proof. intros H. assert (K := number_app s z H 0%Z ""). rewrite app_nil_s in K. rewrite K. cbn. lia. Qed.
Lemma digits_head s z : digits s z -> exists d r, d < 10 /\ s = String (ascii_of_nat (48 + d)) r.
Proof.
  induction 1 as [d Hd|s z d H (d0 & r & H0 & ->) Hd]; [exists d, ""; auto|]. exists d0, (r ++ String (ascii_of_nat (48 + d)) ""). auto.
Qed.
Lemma decimal_strtol s z : decimal s z -> (- 2 ^ 63 <= z < 2 ^ 63)%Z -> strtol s = z.
Proof.
  intros H HR. unfold strtol. destruct H as [s z H|s z H].
  - destruct (digits_head s z H) as (d & r & Hd & E).
    assert (HS : skip_space s = s). { rewrite E. cbn [skip_space]. do 10 (destruct d as [|d]; [reflexivity|]). lia. }
    rewrite HS. assert (HN := digits_number s z H). rewrite E at 1.
    assert (X : forall A (x y w : A), (if ascii_dec (ascii_of_nat (48 + d)) "-" then x else if ascii_dec (ascii_of_nat (48 + d)) "+" then y else w) = w).
    { intros A x y w. do 10 (destruct d as [|d]; [reflexivity|]). lia. }
    rewrite X, HN. lia.
  - assert (E : skip_space ("-" ++ s) = "-" ++ s) by reflexivity. rewrite E. cbn [append]. destruct (ascii_dec "-" "-") as [_|N]; [|congruence].
    rewrite (digits_number s z H). lia.
Qed.
Lemma int32_id z : (- 2 ^ 31 <= z < 2 ^ 31)%Z -> int32 z = z.
Proof. intros H. unfold int32. rewrite Z.mod_small; lia. Qed.

(** ** Strings *)
Lemma zeros n : strncpy n "" = repeat zero n.
Proof. induction n; cbn; congruence. Qed.
Lemma cstring_tail c s : cstring (String c s) -> c <> zero /\ cstring s.
Proof.
  intros H. split; [intros ->; apply (H "" s); reflexivity|]. intros a b E. apply (H (String c a) b). cbn. congruence.
Qed.
Lemma c_str_copy s : forall n, cstring s -> length s < n -> c_str (strncpy n s) = Ok s.
Proof.
  induction s as [|c s IH]; intros n H L; (destruct n as [|n]; [inversion L|]).
  - cbn [strncpy c_str]. destruct (ascii_dec zero zero); congruence.
  - apply cstring_tail in H. destruct H as (H1 & H2). cbn [strncpy c_str]. destruct (ascii_dec c zero); [congruence|].
    rewrite IH; [reflexivity|exact H2|cbn in L; lia].
Qed.
Lemma c_str_long s : forall n, cstring s -> n <= length s -> c_str (strncpy n s) = Err UB.
Proof.
  induction s as [|c s IH]; intros n H L.
  - destruct n; [reflexivity|cbn in L; lia].
  - destruct n as [|n]; [reflexivity|]. apply cstring_tail in H. destruct H as (H1 & H2). cbn [strncpy c_str]. destruct (ascii_dec c zero); [congruence|].
    rewrite IH; [reflexivity|exact H2|cbn in L; lia].
Qed.

Lemma gives_parse o a v : gives (o_name o) (o_kind o) a v -> exists w, parse_opt o a = PYes w /\ shows w = Ok v.
Proof.
  intros H. unfold parse_opt. destruct H as [| |lo hi text z HD HR H32|text|text HC HL].
  - rewrite (proj2 (exact_match _ _) eq_refl). eexists; split; reflexivity.
  - destruct (at_start _ ("-" ++ o_name o) && _) eqn:E.
    + exfalso. apply exact_match in E. apply (f_equal length) in E. rewrite !app_length_s in E. cbn in E. lia.
    + rewrite (proj2 (exact_match _ _) eq_refl). eexists; split; reflexivity.
  - rewrite (proj2 (pat_match _ _)) by eauto. rewrite rest_pat. rewrite (decimal_strtol text z) by (auto; lia). rewrite int32_id by exact H32.
    replace ((hi <? z)%Z) with false by (symmetry; apply Z.ltb_ge; lia). eexists; split; reflexivity.
  - rewrite (proj2 (pat_match _ _)) by eauto. rewrite rest_pat. eexists; split; reflexivity.
  - rewrite (proj2 (pat_match _ _)) by eauto. rewrite rest_pat. eexists; split; [reflexivity|]. cbn [shows]. rewrite c_str_copy by auto. reflexivity.
Qed.
Lemma gives_unique n k a v w : gives n k a v -> gives n k a w -> v = w.
Proof.
  intros H1 H2. destruct (gives_parse (mkOpt n k (VBool true)) a v H1) as (x & E1 & S1). destruct (gives_parse (mkOpt n k (VBool true)) a w H2) as (y & E2 & S2).
  rewrite E1 in E2. injection E2 as <-. congruence.
Qed.

(** ** No argument is written for two options of the table *)
Definition pats (o : opt) : list (bool * string) :=
  match o_kind o with KBool => [(true, "-" ++ o_name o); (true, "-no-" ++ o_name o)] | _ => [(false, "-" ++ o_name o ++ "=")] end.
Definition hit (p : bool * string) (a : string) : Prop := if fst p then a = snd p else prefix (snd p) a = true.
Definition apart (p q : bool * string) : bool :=
  match fst p, fst q with
  | true, true => negb (String.eqb (snd p) (snd q))
  | true, false => negb (prefix (snd q) (snd p))
  | false, true => negb (prefix (snd p) (snd q))
  | false, false => negb (prefix (snd p) (snd q)) && negb (prefix (snd q) (snd p))
  end.
Lemma prefix_both p q a : prefix p a = true -> prefix q a = true -> prefix p q = true \/ prefix q p = true.
Proof.
  revert q a. induction p as [|c p IH]; intros q a H K; [left; destruct q; reflexivity|]. destruct q as [|d q]; [right; reflexivity|].
  destruct a as [|e a]; [discriminate|]. cbn [prefix] in *. destruct (ascii_dec c e) as [<-|]; [|discriminate]. destruct (ascii_dec d c) as [<-|]; [|discriminate].
  destruct (ascii_dec d d); [|congruence]. eauto.
Qed.
Lemma apart_spec p q a : apart p q = true -> hit p a -> hit q a -> False.
Proof.
  destruct p as [[|] p], q as [[|] q]; unfold apart, hit; cbn [fst snd]; intros H H1 H2.
  - subst. rewrite String.eqb_refl in H. discriminate.
  - subst. rewrite H2 in H. discriminate.
  - subst. rewrite H1 in H. discriminate.
  - apply andb_prop in H. destruct H as (A & B). destruct (prefix_both _ _ _ H1 H2) as [E|E]; rewrite E in *; discriminate.
Qed.
Lemma names_hit o a : names (o_name o) (o_kind o) a -> exists p, In p (pats o) /\ hit p a.
Proof.
  unfold names, pats. destruct (o_kind o); cbn [In].
  - intros [H|H]; [exists (true, "-" ++ o_name o)|exists (true, "-no-" ++ o_name o)]; (split; [auto|exact H]).
  - intros H. eexists. split; [left; reflexivity|]. cbn. rewrite <- at_start_prefix. apply pat_match. exact H.
  - intros H. eexists. split; [left; reflexivity|]. cbn. rewrite <- at_start_prefix. apply pat_match. exact H.
  - intros H. eexists. split; [left; reflexivity|]. cbn. rewrite <- at_start_prefix. apply pat_match. exact H.
Qed.
Fixpoint separate (os : list opt) : bool :=
  match os with [] => true | o :: r => forallb (fun o' => forallb (fun p => forallb (apart p) (pats o')) (pats o)) r && separate r end.
Definition same_sig (o o' : opt) : Prop := o_name o = o_name o' /\ o_kind o = o_kind o'.
Lemma separate_one os : separate os = true -> forall i j o o' a, nth_error os i = Some o -> nth_error os j = Some o' ->
  names (o_name o) (o_kind o) a -> names (o_name o') (o_kind o') a -> i = j.
Proof.
  assert (X : forall os o, forallb (fun o' => forallb (fun p => forallb (apart p) (pats o')) (pats o)) os = true -> forall o' a, In o' os ->
    names (o_name o) (o_kind o) a -> names (o_name o') (o_kind o') a -> False).
  { intros l o H o' a Ho H1 H2. rewrite forallb_forall in H. specialize (H o' Ho). apply names_hit in H1. apply names_hit in H2.
    destruct H1 as (p & Hp & H1). destruct H2 as (q & Hq & H2). rewrite forallb_forall in H. specialize (H p Hp). rewrite forallb_forall in H.
    apply (apart_spec p q a); auto. }
  induction os as [|x r IH]; intros H i j o o' a Hi Hj H1 H2; [destruct i; discriminate|].
  cbn [separate] in H. apply andb_prop in H. destruct H as (H0 & H). destruct i as [|i], j as [|j]; cbn [nth_error] in Hi, Hj.
  - reflexivity.
  - exfalso. injection Hi as ->. apply (X r o H0 o' a); auto. apply nth_error_In in Hj. exact Hj.
  - exfalso. injection Hj as ->. apply (X r o' H0 o a); auto. apply nth_error_In in Hi. exact Hi.
  - f_equal. apply (IH H i j o o' a); auto.
Qed.
Lemma cli_separate : separate cli_options = true.
Proof. vm_compute. reflexivity. Qed.

(** ** One argument *)
Definition sigs (os : list opt) : list (string * kind) := map (fun o => (o_name o, o_kind o)) os.
Lemma parse_arg_none os a : (forall o, In o os -> ~ names (o_name o) (o_kind o) a) -> parse_arg os a = TNo.
Proof.
  induction os as [|o r IH]; intros H; [reflexivity|]. cbn [parse_arg]. destruct (parse_opt o a) eqn:E.
  - rewrite IH; [reflexivity|]. intros o' Ho. apply H. right. exact Ho.
  - exfalso. apply (H o); [left; reflexivity|]. apply parse_names. congruence.
  - exfalso. apply (H o); [left; reflexivity|]. apply parse_names. congruence.
Qed.
Lemma parse_arg_at os a : separate os = true -> forall k o w, nth_error os k = Some o -> names (o_name o) (o_kind o) a -> parse_opt o a = PYes w ->
  exists os', parse_arg os a = TYes os' /\ nth_error os' k = Some (set_value w o) /\ (forall j, j <> k -> nth_error os' j = nth_error os j) /\ sigs os' = sigs os.
Proof.
  intros HS. assert (U := separate_one os HS). clear HS. induction os as [|x r IH]; intros k o w Hk HN HP; [destruct k; discriminate|].
  destruct k as [|k]; cbn [nth_error] in Hk.
  - injection Hk as ->. cbn [parse_arg]. rewrite HP. eexists. split; [reflexivity|]. split; [reflexivity|].
    split; [intros [|j] Hj; [congruence|reflexivity]|reflexivity].
  - assert (E : parse_opt x a = PNo).
    { destruct (parse_opt x a) eqn:E; [reflexivity| |]; exfalso; assert (K : 0 = S k) by (apply (U 0 (S k) x o a); auto; apply parse_names; congruence); discriminate. }
    cbn [parse_arg]. rewrite E.
    assert (U' : forall i j o o' b, nth_error r i = Some o -> nth_error r j = Some o' -> names (o_name o) (o_kind o) b -> names (o_name o') (o_kind o') b -> i = j).
    { intros i j o1 o2 b H1 H2 H3 H4. assert (K : S i = S j) by (apply (U (S i) (S j) o1 o2 b); auto). lia. }
    destruct (IH U' k o w Hk HN HP) as (os' & -> & H1 & H2 & H3). eexists. split; [reflexivity|]. split; [exact H1|].
    split; [intros [|j] Hj; [reflexivity|apply H2; lia]|cbn [sigs map]; unfold sigs in H3; rewrite H3; reflexivity].
Qed.
Lemma separate_sigs os : forall os', sigs os = sigs os' -> separate os = separate os'.
Proof.
  assert (P : forall o o', (o_name o, o_kind o) = (o_name o', o_kind o') -> pats o = pats o') by (intros o o' H; injection H as H1 H2; unfold pats; rewrite H1, H2; reflexivity).
  assert (X : forall o o', (o_name o, o_kind o) = (o_name o', o_kind o') -> forall l l', sigs l = sigs l' ->
    forallb (fun y => forallb (fun p => forallb (apart p) (pats y)) (pats o)) l = forallb (fun y => forallb (fun p => forallb (apart p) (pats y)) (pats o')) l').
  { intros o o' HO. induction l as [|y l IH]; intros [|y' l'] H; try discriminate; [reflexivity|]. cbn [sigs map] in H. injection H as H1 H2 H3.
    cbn [forallb]. rewrite (IH l' H3). f_equal. rewrite (P o o' HO), (P y y') by congruence. reflexivity. }
  induction os as [|o r IH]; intros [|o' r'] H; try discriminate; [reflexivity|]. cbn [sigs map] in H. injection H as H1 H2 H3.
  cbn [separate]. f_equal; [apply X; [congruence|exact H3]|apply IH; exact H3].
Qed.
Lemma sigs_nth os os' k o : sigs os = sigs os' -> nth_error os k = Some o -> exists o', nth_error os' k = Some o' /\ o_name o' = o_name o /\ o_kind o' = o_kind o.
Proof.
  intros H Hk. assert (E : nth_error (sigs os) k = Some (o_name o, o_kind o)) by (unfold sigs; rewrite nth_error_map, Hk; reflexivity).
  rewrite H in E. unfold sigs in E. rewrite nth_error_map in E. destruct (nth_error os' k) as [o'|] eqn:E'; [|discriminate]. cbn in E. injection E as E1 E2. eauto.
Qed.
Lemma sigs_in os os' o : sigs os = sigs os' -> In o os -> exists o', In o' os' /\ o_name o' = o_name o /\ o_kind o' = o_kind o.
Proof.
  intros H Ho. apply In_nth_error in Ho. destruct Ho as (k & Hk). destruct (sigs_nth os os' k o H Hk) as (o' & H1 & H2).
  apply nth_error_In in H1. eauto.
Qed.

(** ** All arguments *)
Lemma good_step os a : separate os = true -> good os a ->
  strstr a "--help" = None /\
  ((flag a = false /\ parse_arg os a = TNo /\ (forall o v, In o os -> ~ gives (o_name o) (o_kind o) a v)) \/
   exists k o v w os', flag a = true /\ nth_error os k = Some o /\ gives (o_name o) (o_kind o) a v /\ shows w = Ok v /\ parse_arg os a = TYes os' /\ sigs os' = sigs os /\
     nth_error os' k = Some (set_value w o) /\ (forall j, j <> k -> nth_error os' j = nth_error os j)).
Proof.
  intros HS (HH & HG). split; [apply help_spec; exact HH|]. destruct (flag a) eqn:EF.
  - right. destruct HG as [HG|(o & v & Ho & HG)]; [discriminate|]. apply In_nth_error in Ho. destruct Ho as (k & Hk).
    destruct (gives_parse o a v HG) as (w & HP & HW). destruct (parse_arg_at os a HS k o w Hk (gives_names _ _ _ _ HG) HP) as (os' & H1 & H2 & H3 & H4).
    exists k, o, v, w, os'. auto 10.
  - left. split; [reflexivity|]. split.
    + apply parse_arg_none. intros o Ho K. apply names_flag in K. congruence.
    + intros o v Ho K. apply gives_names, names_flag in K. congruence.
Qed.

Lemma loop_good args : forall os kept, separate os = true -> (forall a, In a args -> good os a) ->
  exists os', parse_loop true os kept args = Done os' (kept ++ filter (fun a => negb (flag a)) args)%list /\ sigs os' = sigs os /\
  forall k o, nth_error os k = Some o -> exists o', nth_error os' k = Some o' /\ o_name o' = o_name o /\ o_kind o' = o_kind o /\
    ((forall b w, In b args -> ~ gives (o_name o) (o_kind o) b w) -> o_value o' = o_value o) /\
    (forall a1 a a2 v, args = (a1 ++ a :: a2)%list -> gives (o_name o) (o_kind o) a v -> (forall b w, In b a2 -> ~ gives (o_name o) (o_kind o) b w) -> shows (o_value o') = Ok v).
Proof.
  induction args as [|a r IH]; intros os kept HS HG.
  - exists os. cbn [parse_loop filter]. rewrite app_nil_r. split; [reflexivity|]. split; [reflexivity|]. intros k o Hk. exists o.
    split; [exact Hk|]. split; [reflexivity|]. split; [reflexivity|]. split; [reflexivity|]. intros [|? ?] ? ? ? E; discriminate E.
  - destruct (good_step os a HS (HG a (or_introl eq_refl))) as (HH & [(HF & HP & HN)|(k0 & o0 & v0 & w0 & os1 & HF & Hk0 & HV & HW & HP & HE & HK & HO)]);
      cbn [parse_loop filter]; rewrite HH, HP, HF; cbn [negb].
    + assert (FA : match a with String c _ => if ascii_dec c "-" then true else false | EmptyString => false end = false) by exact HF.
      rewrite FA. cbn [andb]. destruct (IH os (kept ++ [a])%list HS (fun b Hb => HG b (or_intror Hb))) as (os' & -> & HE & H).
      exists os'. rewrite <- app_assoc. split; [reflexivity|]. split; [exact HE|]. intros k o Hk. destruct (H k o Hk) as (o' & H1 & H2 & H3 & H4 & H5).
      exists o'. split; [exact H1|]. split; [exact H2|]. split; [exact H3|]. split; [intros K; apply H4; intros b w Hb; apply K; right; exact Hb|].
      intros [|x a1] y a2 v E HY HL; cbn [app] in E; injection E as Ex Er.
      * exfalso. subst y. apply (HN o v); [apply nth_error_In in Hk; exact Hk|exact HY].
      * apply (H5 a1 y a2 v); auto.
    + assert (HS1 : separate os1 = true) by (rewrite (separate_sigs os1 os HE); exact HS).
      assert (HG1 : forall b, In b r -> good os1 b).
      { intros b Hb. destruct (HG b (or_intror Hb)) as (A & B). split; [exact A|]. destruct B as [B|(o & v & Ho & B)]; [left; exact B|right].
        destruct (sigs_in os os1 o (eq_sym HE) Ho) as (o' & H1 & H2 & H3). exists o', v. rewrite H2, H3. auto. }
      destruct (IH os1 kept HS1 HG1) as (os' & -> & HE' & H). exists os'. split; [reflexivity|]. split; [congruence|].
      intros k o Hk. destruct (Nat.eq_dec k k0) as [->|Nk].
      * assert (o = o0) by congruence. subst o. destruct (H k0 _ HK) as (o' & H1 & H2 & H3 & H4 & H5). cbn [set_value o_name o_kind o_value] in *.
        exists o'. split; [exact H1|]. split; [exact H2|]. split; [exact H3|]. split; [intros K; exfalso; apply (K a v0); [left; reflexivity|exact HV]|].
        intros [|x a1] y a2 v E HY HL; cbn [app] in E; injection E as Ex Er.
        -- subst y a2. rewrite H4 by exact HL. rewrite HW. f_equal. apply (gives_unique _ _ _ _ _ HV HY).
        -- apply (H5 a1 y a2 v); auto.
      * assert (Hk' : nth_error os1 k = Some o) by (rewrite HO; auto). destruct (H k o Hk') as (o' & H1 & H2 & H3 & H4 & H5).
        exists o'. split; [exact H1|]. split; [exact H2|]. split; [exact H3|]. split; [intros K; apply H4; intros b w Hb; apply K; right; exact Hb|].
        intros [|x a1] y a2 v E HY HL; cbn [app] in E; injection E as Ex Er.
        -- exfalso. subst y. apply Nk. apply (separate_one os HS k k0 o o0 a); auto; eapply gives_names; eassumption.
        -- apply (H5 a1 y a2 v); auto.
Qed.

Lemma loop_stop args : forall os kept a r, separate os = true -> (forall b, In b args -> good os b) ->
  exists os' kept', parse_loop true os kept (args ++ a :: r) = parse_loop true os' kept' (a :: r) /\ sigs os' = sigs os.
Proof.
  induction args as [|b l IH]; intros os kept a r HS HG; [exists os, kept; auto|].
  destruct (good_step os b HS (HG b (or_introl eq_refl))) as (HH & [(HF & HP & HN)|(k0 & o0 & v0 & w0 & os1 & HF & Hk0 & HV & HW & HP & HE & HK & HO)]);
      cbn [parse_loop app]; rewrite HH, HP.
  - assert (FA : match b with String c _ => if ascii_dec c "-" then true else false | EmptyString => false end = false) by exact HF.
    rewrite FA. cbn [andb]. apply (IH os (kept ++ [b])%list a r HS). intros c Hc. apply HG. right. exact Hc.
  - assert (HS1 : separate os1 = true) by (rewrite (separate_sigs os1 os HE); exact HS).
    destruct (IH os1 kept a r HS1) as (os' & kept' & E & E'); [|exists os', kept'; split; [exact E|congruence]].
    intros c Hc. destruct (HG c (or_intror Hc)) as (A & B). split; [exact A|]. destruct B as [B|(o & v & Ho & B)]; [left; exact B|right].
    destruct (sigs_in os os1 o (eq_sym HE) Ho) as (o' & H1 & H2 & H3). exists o', v. rewrite H2, H3. auto.
Qed.
Lemma unknown_flag args a r : (forall b, In b args -> good cli_options b) -> flag a = true -> ~ asks_help a ->
  (forall o, In o cli_options -> ~ names (o_name o) (o_kind o) a) -> parse_options true cli_options (args ++ a :: r) = Unknown a.
Proof.
  intros HG HF HH HN. unfold parse_options. destruct (loop_stop args cli_options [] a r cli_separate HG) as (os' & kept' & -> & HE).
  cbn [parse_loop]. rewrite (proj2 (help_spec a) HH). rewrite parse_arg_none.
  - assert (FA : match a with String c _ => if ascii_dec c "-" then true else false | EmptyString => false end = true) by exact HF. rewrite FA. reflexivity.
  - intros o Ho K. destruct (sigs_in os' cli_options o HE Ho) as (o' & H1 & H2 & H3). apply (HN o' H1). rewrite H2, H3. exact K.
Qed.
Lemma help_arg args a r : (forall b, In b args -> good cli_options b) -> asks_help a -> parse_options true cli_options (args ++ a :: r) = Help.
Proof.
  intros HG HH. unfold parse_options. destruct (loop_stop args cli_options [] a r cli_separate HG) as (os' & kept' & -> & HE).
  cbn [parse_loop]. destruct (strstr a "--help") eqn:E; [reflexivity|]. apply help_spec in E. contradiction.
Qed.
Lemma never_range strict args : forall os kept, (forall o, In o os -> match o_kind o with KInt lo hi => (lo <= hi)%Z | _ => True end) -> parse_loop strict os kept args <> Range.
Proof.
  assert (X : forall a os, (forall o, In o os -> match o_kind o with KInt lo hi => (lo <= hi)%Z | _ => True end) -> parse_arg os a <> TExit).
  { intros a. induction os as [|o r IH]; intros H; [discriminate|]. cbn [parse_arg].
    assert (K : parse_opt o a <> PExit).
    { assert (Ho := H o (or_introl eq_refl)). unfold parse_opt. destruct (o_kind o) as [|lo hi| |].
      - destruct (_ && _)%bool; [discriminate|]. destruct (_ && _)%bool; discriminate.
      - destruct (at_start _ _); [|discriminate]. destruct ((hi <? _)%Z) eqn:E1; [|discriminate]. destruct ((_ <? lo)%Z) eqn:E2; [|discriminate].
        apply Z.ltb_lt in E1. apply Z.ltb_lt in E2. lia.
      - destruct (at_start _ _); discriminate.
      - destruct (at_start _ _); discriminate. }
    destruct (parse_opt o a); [|discriminate|congruence]. assert (K' := IH (fun o Ho => H o (or_intror Ho))). destruct (parse_arg r a); congruence. }
  assert (Y : forall a os os', parse_arg os a = TYes os' -> sigs os' = sigs os).
  { intros a. induction os as [|o r IH]; intros os' H; [discriminate|]. cbn [parse_arg] in H. destruct (parse_opt o a).
    - destruct (parse_arg r a) as [|r'|] eqn:E; try discriminate. injection H as <-. cbn [sigs map]. f_equal. apply IH. reflexivity.
    - injection H as <-. reflexivity.
    - discriminate. }
  induction args as [|a r IH]; intros os kept H; [discriminate|]. cbn [parse_loop]. destruct (strstr a "--help"); [discriminate|].
  destruct (parse_arg os a) eqn:E; [| |elim (X a os H E)].
  - destruct (strict && _)%bool; [discriminate|]. apply IH. exact H.
  - apply IH. intros o Ho. destruct (sigs_in _ _ o (Y _ _ _ E) Ho) as (o' & H1 & H2 & H3). rewrite <- H3. apply (H o' H1).
Qed.

(** ** The input *)
Lemma input_stdin g args : filter (fun a => negb (flag a)) args = [] ->
  (main_input g args (filter (fun a => negb (flag a)) args) = Stdin <-> g = (1 + Z.of_nat (List.length args))%Z).
Proof.
  intros E. rewrite E. unfold main_input, argc_after, argv_after. cbn [List.length app skipn]. destruct (Z.eqb_spec (1 + Z.of_nat (List.length args) - (g - (1 + Z.of_nat 0))) 1).
  - split; [intros _; lia|reflexivity].
  - split; [|lia]. destruct args; discriminate.
Qed.
Lemma input_file g args f r : filter (fun a => negb (flag a)) args = f :: r ->
  (main_input g args (filter (fun a => negb (flag a)) args) = File f <-> g <> (2 + Z.of_nat (List.length args) + Z.of_nat (List.length r))%Z).
Proof.
  intros E. rewrite E. unfold main_input, argc_after, argv_after. cbn [List.length app skipn]. destruct (Z.eqb_spec (1 + Z.of_nat (List.length args) - (g - (1 + Z.of_nat (S (List.length r))))) 1).
  - split; [discriminate|lia].
  - split; [lia|reflexivity].
Qed.

Definition ranged (o : opt) : bool := match o_kind o with KInt lo hi => (lo <=? hi)%Z | _ => true end.
Lemma cli_range args : parse_options true cli_options args <> Range.
Proof.
  unfold parse_options. apply never_range. assert (H : forallb ranged cli_options = true) by (vm_compute; reflexivity).
  rewrite forallb_forall in H. intros o Ho. specialize (H o Ho). unfold ranged in H. destruct (o_kind o); auto. apply Z.leb_le. exact H.
Qed.
Lemma cli_values args : (forall a, In a args -> good cli_options a) ->
  exists os, parse_options true cli_options args = Done os (filter (fun a => negb (flag a)) args) /\
  forall k o, nth_error cli_options k = Some o -> exists o', nth_error os k = Some o' /\ o_name o' = o_name o /\
    ((forall b w, In b args -> ~ gives (o_name o) (o_kind o) b w) -> shows (o_value o') = shows (o_value o)) /\
    (forall a1 a a2 v, args = (a1 ++ a :: a2)%list -> gives (o_name o) (o_kind o) a v -> (forall b w, In b a2 -> ~ gives (o_name o) (o_kind o) b w) ->
      shows (o_value o') = Ok v).
Proof.
  intros H. destruct (loop_good args cli_options [] cli_separate H) as (os & H1 & H2 & H3). exists os. split; [exact H1|].
  intros k o Hk. destruct (H3 k o Hk) as (o' & K1 & K2 & K3 & K4 & K5). exists o'. split; [exact K1|]. split; [exact K2|].
  split; [intros K; rewrite (K4 K); reflexivity|exact K5].
Qed.
Lemma cli_one i j o o' a : nth_error cli_options i = Some o -> nth_error cli_options j = Some o' ->
  names (o_name o) (o_kind o) a -> names (o_name o') (o_kind o') a -> i = j.
Proof. apply (separate_one cli_options cli_separate). Qed.
Lemma long_string n old text : cstring text -> 256 <= length text ->
  exists w, parse_opt (mkOpt n KString old) ("-" ++ n ++ "=" ++ text) = PYes w /\ shows w = Err UB.
Proof.
  intros HC HL. unfold parse_opt. cbn [o_kind o_name]. rewrite (proj2 (pat_match _ _)) by eauto. rewrite rest_pat. eexists. split; [reflexivity|].
  cbn [shows]. rewrite c_str_long by auto. reflexivity.
Qed.
Lemma cstringb_ok s : (fix f s := match s with EmptyString => true | String c r => negb (if ascii_dec c zero then true else false) && f r end) s = true -> cstring s.
Proof.
  induction s as [|c s IH]; intros H a b E; [destruct a; discriminate|]. apply andb_prop in H. destruct H as (H1 & H2).
  destruct a as [|d a]; cbn [append] in E; injection E as E1 E2; [subst; cbn in H1; discriminate|]. apply (IH H2 a b E2).
Qed.
