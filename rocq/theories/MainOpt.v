(** The option values of the program for any command line. *)
Require Import List Arith ZArith Lia String Ascii Bool.
Require Import Verif.Base Verif.Outcome Verif.OptModel Verif.OptSpec Verif.OptProofs Verif.MainModel Verif.MainSpec.
Import ListNotations.
Open Scope list_scope.

Definition upd (a : string) (o : opt) : opt := match parse_opt o a with PYes w => set_value w o | _ => o end.
Lemma upd_sig a o : o_name (upd a o) = o_name o /\ o_kind (upd a o) = o_kind o.
Proof. unfold upd. destruct (parse_opt o a); auto. Qed.
Lemma sigs_upd a os : sigs (map (upd a) os) = sigs os.
Proof. unfold sigs. rewrite map_map. apply map_ext. intros o. destruct (upd_sig a o) as (-> & ->). reflexivity. Qed.
Lemma upd_none a os : (forall o, In o os -> parse_opt o a = PNo) -> map (upd a) os = os.
Proof.
  induction os as [|o r IH]; intros H; [reflexivity|]. cbn [map]. rewrite IH by (intros x Hx; apply H; right; exact Hx). unfold upd. rewrite H by (left; reflexivity). reflexivity.
Qed.
Lemma parse_arg_upd os a : separate os = true -> match parse_arg os a with TNo => forall o, In o os -> parse_opt o a = PNo | TYes os' => flag a = true /\ os' = map (upd a) os | TExit => True end.
Proof.
  intros HS. assert (U := separate_one os HS). clear HS. induction os as [|x r IH]; [intros o []|].
  assert (U' : forall i j o o' b, nth_error r i = Some o -> nth_error r j = Some o' -> names (o_name o) (o_kind o) b -> names (o_name o') (o_kind o') b -> i = j).
  { intros i j o1 o2 b H1 H2 H3 H4. assert (K : S i = S j) by (apply (U (S i) (S j) o1 o2 b); auto). lia. }
  specialize (IH U'). cbn [parse_arg]. destruct (parse_opt x a) as [|v|] eqn:E; [| |exact I].
  - destruct (parse_arg r a) as [|r'|]; [| |exact I].
    + intros o [<-|Ho]; auto.
    + destruct IH as (F & ->). split; [exact F|]. cbn [map]. unfold upd at 2. rewrite E. reflexivity.
  - split; [apply (names_flag (o_name x) (o_kind x)); apply parse_names; congruence|]. cbn [map]. unfold upd at 1. rewrite E. f_equal. symmetry. apply upd_none.
    intros o Ho. apply In_nth_error in Ho. destruct Ho as (k & Hk). destruct (parse_opt o a) eqn:E'; [reflexivity| |];
      exfalso; assert (K : 0 = S k) by (apply (U 0 (S k) x o a); auto; apply parse_names; congruence); discriminate.
Qed.
Lemma loop_upd args : forall os kept os' kept', separate os = true -> parse_loop true os kept args = Done os' kept' ->
  os' = map (fun o => fold_left (fun o a => upd a o) args o) os /\ kept' = kept ++ filter (fun a => negb (flag a)) args.
Proof.
  induction args as [|a r IH]; intros os kept os' kept' HS E; cbn [parse_loop filter fold_left] in *.
  - injection E as <- <-. rewrite map_id, app_nil_r. auto.
  - destruct (strstr a "--help"); [discriminate|]. assert (P := parse_arg_upd os a HS). destruct (parse_arg os a) as [|os1|]; [| |discriminate].
    + destruct (flag a) eqn:F; cbn [negb]; unfold flag in F; rewrite F in E; cbn [andb] in E; [discriminate|].
      destruct (IH _ _ _ _ HS E) as (-> & ->). split; [|rewrite <- app_assoc; reflexivity]. apply map_ext_in. intros o Ho. replace (upd a o) with o by (unfold upd; rewrite (P o Ho); reflexivity). reflexivity.
    + destruct P as (F & ->). rewrite F. cbn [negb]. assert (HS' : separate (map (upd a) os) = true) by (rewrite (separate_sigs _ os); [exact HS|apply sigs_upd]).
      destruct (IH _ _ _ _ HS' E) as (-> & ->). split; [|reflexivity]. apply map_map.
Qed.
Lemma cli_done args os kept : parse_options true cli_options args = Done os kept ->
  os = map (fun o => fold_left (fun o a => upd a o) args o) cli_options /\ kept = filter (fun a => negb (flag a)) args.
Proof. intros E. apply (loop_upd args cli_options [] os kept cli_separate E). Qed.

Lemma fold_name args : forall o, o_name (fold_left (fun o a => upd a o) args o) = o_name o.
Proof. induction args as [|a r IH]; intros o; cbn [fold_left]; [reflexivity|]. rewrite IH. apply upd_sig. Qed.
Lemma lookup_map args n : forall os, lookup (map (fun o => fold_left (fun o a => upd a o) args o) os) n =
  option_map (fun o => o_value (fold_left (fun o a => upd a o) args o)) (find (fun o => String.eqb (o_name o) n) os).
Proof.
  unfold lookup. induction os as [|o r IH]; [reflexivity|]. cbn [map find]. rewrite fold_name. destruct (String.eqb (o_name o) n); [reflexivity|exact IH].
Qed.
Lemma upd_bool n b a : upd a (opt_bool n b) = opt_bool n (if String.eqb a ("-" ++ n) then true else if String.eqb a ("-no-" ++ n) then false else b).
Proof.
  unfold upd, parse_opt, opt_bool. cbn [o_kind o_name].
  destruct (String.eqb_spec a ("-" ++ n)) as [->|N1]; [rewrite (proj2 (exact_match _ _) eq_refl); reflexivity|].
  replace (at_start a ("-" ++ n) && _)%bool with false by (symmetry; apply not_true_is_false; intros H; apply exact_match in H; contradiction).
  destruct (String.eqb_spec a ("-no-" ++ n)) as [->|N2]; [rewrite (proj2 (exact_match _ _) eq_refl); reflexivity|].
  replace (at_start a ("-no-" ++ n) && _)%bool with false by (symmetry; apply not_true_is_false; intros H; apply exact_match in H; contradiction). reflexivity.
Qed.
Lemma fold_bool n args : forall b, fold_left (fun o a => upd a o) args (opt_bool n b) = opt_bool n (switch args n b).
Proof. unfold switch. induction args as [|a r IH]; intros b; cbn [fold_left]; [reflexivity|]. rewrite upd_bool. apply IH. Qed.
Lemma fold_int n v lo hi args : unset args n -> fold_left (fun o a => upd a o) args (opt_int n v lo hi) = opt_int n v lo hi.
Proof.
  induction args as [|a r IH]; intros H; cbn [fold_left]; [reflexivity|]. replace (upd a (opt_int n v lo hi)) with (opt_int n v lo hi).
  - apply IH. intros b t Hb. apply H. right. exact Hb.
  - unfold upd. destruct (parse_opt _ a) eqn:E; [reflexivity| |]; exfalso; assert (K : names n (KInt lo hi) a) by (apply (parse_names (opt_int n v lo hi)); congruence);
      destruct K as (t & K); apply (H a t); [left; reflexivity|exact K|left; reflexivity|exact K].
Qed.
Lemma done_bool args os kept n b : parse_options true cli_options args = Done os kept ->
  find (fun o => String.eqb (o_name o) n) cli_options = Some (opt_bool n b) -> get_bool os n = switch args n b.
Proof. intros E F. apply cli_done in E. destruct E as (-> & _). unfold get_bool. rewrite lookup_map, F. cbn [option_map]. rewrite fold_bool. reflexivity. Qed.
Lemma done_int args os kept n v lo hi : parse_options true cli_options args = Done os kept -> unset args n ->
  find (fun o => String.eqb (o_name o) n) cli_options = Some (opt_int n v lo hi) -> get_int os n = v.
Proof. intros E U F. apply cli_done in E. destruct E as (-> & _). unfold get_int. rewrite lookup_map, F. cbn [option_map]. rewrite fold_int by exact U. reflexivity. Qed.
Lemma parse_text o a w : o_kind o = KString -> parse_opt o a = PYes w -> exists b, w = VString b.
Proof.
  intros K E. unfold parse_opt in E. rewrite K in E. destruct (at_start a ("-" ++ o_name o ++ "=")); [|discriminate].
  exists (strncpy 256 (rest (String.length ("-" ++ o_name o ++ "=")) a)). congruence.
Qed.
Definition readable (o : opt) : Prop := exists b t, o_value o = VString b /\ c_str b = Ok t.
Lemma fold_text k o args : nth_error cli_options k = Some o -> (forall a, In a args -> good cli_options a) ->
  forall o', o_name o' = o_name o -> o_kind o' = KString -> o_kind o = KString -> readable o' -> readable (fold_left (fun o a => upd a o) args o').
Proof.
  intros Hk. induction args as [|a r IH]; intros G o' N K K' R; cbn [fold_left]; [exact R|]. apply IH; auto.
  - intros b Hb. apply G. right. exact Hb.
  - rewrite <- N. apply upd_sig.
  - rewrite <- K. apply upd_sig.
  - unfold upd. destruct (parse_opt o' a) as [|w|] eqn:E; auto. assert (NM : names (o_name o') (o_kind o') a) by (apply parse_names; congruence).
    destruct (G a (or_introl eq_refl)) as (_ & [F|(o2 & v & Ho & GV)]); [apply names_flag in NM; congruence|].
    apply In_nth_error in Ho. destruct Ho as (j & Hj). assert (J : j = k).
    { apply (cli_one j k o2 o a Hj Hk); [eapply gives_names; exact GV|]. rewrite <- N, K'. rewrite <- K. exact NM. }
    subst j. rewrite Hk in Hj. injection Hj as <-. rewrite <- N, K', <- K in GV. destruct (gives_parse o' a v GV) as (w' & E' & S'). rewrite E in E'. injection E' as <-.
    destruct (parse_text o' a w K E) as (b & ->). cbn [shows] in S'. destruct (c_str b) as [t|] eqn:ET; [|discriminate]. exists b, t. split; [reflexivity|exact ET].
Qed.
Lemma good_text args os kept n k d : (forall a, In a args -> good cli_options a) -> parse_options true cli_options args = Done os kept ->
  nth_error cli_options k = Some (opt_str n d) -> find (fun o => String.eqb (o_name o) n) cli_options = Some (opt_str n d) ->
  (exists t, c_str (strncpy 256 d) = Ok t) -> exists t, get_text os n = Ok t.
Proof.
  intros G E Hk F (t & D). apply cli_done in E. destruct E as (-> & _). unfold get_text. rewrite lookup_map, F. cbn [option_map].
  destruct (fold_text k (opt_str n d) args Hk G (opt_str n d) eq_refl eq_refl eq_refl) as (b & t' & -> & H); [|eauto]. exists (strncpy 256 d), t. auto.
Qed.
(** a number given within its range *)
Definition ranged (lo hi : Z) (o : opt) : Prop := exists z, o_value o = VInt z /\ (lo <= z <= hi)%Z.
Lemma fold_range k o lo hi args : nth_error cli_options k = Some o -> (forall a, In a args -> good cli_options a) ->
  forall o', o_name o' = o_name o -> o_kind o' = KInt lo hi -> o_kind o = KInt lo hi -> ranged lo hi o' -> ranged lo hi (fold_left (fun o a => upd a o) args o').
Proof.
  intros Hk. induction args as [|a r IH]; intros G o' N K K' R; cbn [fold_left]; [exact R|]. apply IH; auto.
  - intros b Hb. apply G. right. exact Hb.
  - rewrite <- N. apply upd_sig.
  - rewrite <- K. apply upd_sig.
  - unfold upd. destruct (parse_opt o' a) as [|w|] eqn:E; auto. assert (NM : names (o_name o') (o_kind o') a) by (apply parse_names; congruence).
    destruct (G a (or_introl eq_refl)) as (_ & [F|(o2 & v & Ho & GV)]); [apply names_flag in NM; congruence|].
    apply In_nth_error in Ho. destruct Ho as (j & Hj). assert (J : j = k).
    { apply (cli_one j k o2 o a Hj Hk); [eapply gives_names; exact GV|]. rewrite <- N, K'. rewrite <- K. exact NM. }
    subst j. rewrite Hk in Hj. injection Hj as <-. rewrite <- N, K', <- K in GV. destruct (gives_parse o' a v GV) as (w' & E' & S'). rewrite E in E'. injection E' as <-.
    rewrite K in GV. inversion GV as [| |lo' hi' text z HD HR HI| |]; subst. exists z. split; [|exact HR].
    destruct w; cbn [shows] in S'; try discriminate; [injection S' as ->; reflexivity|]. destruct (c_str buffer); discriminate.
Qed.
Lemma good_range args os kept n k v lo hi : (forall a, In a args -> good cli_options a) -> parse_options true cli_options args = Done os kept ->
  nth_error cli_options k = Some (opt_int n v lo hi) -> find (fun o => String.eqb (o_name o) n) cli_options = Some (opt_int n v lo hi) ->
  (lo <= v <= hi)%Z -> (lo <= get_int os n <= hi)%Z.
Proof.
  intros G E Hk F D. apply cli_done in E. destruct E as (-> & _). unfold get_int. rewrite lookup_map, F. cbn [option_map].
  destruct (fold_range k (opt_int n v lo hi) lo hi args Hk G (opt_int n v lo hi) eq_refl eq_refl eq_refl) as (z & -> & H); [|exact H]. exists v. auto.
Qed.
