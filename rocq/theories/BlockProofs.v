(** Proofs about BlockList. *)
Require Import List Arith Bool NArith Lia Permutation.
From Coq Require Import ZifyBool ZifyNat ZifyN.
Require Import Verif.Base Verif.Outcome Verif.CNFModel Verif.CNFProofs Verif.TrailProofs Verif.GateModel Verif.GateSpec.
Import ListNotations.

Lemma mem_spec x l : existsb (Nat.eqb x) l = true <-> In x l.
Proof. rewrite existsb_exists. split; [intros (y & H & E); apply Nat.eqb_eq in E; subst; auto|intros H; exists x; split; auto; apply Nat.eqb_refl]. Qed.
Lemma lneg_lt l n : l < 2 * n -> lneg l < 2 * n.
Proof. intros H. rewrite (lit_eta l) in *. rewrite lneg_mk. unfold mkLit in *. destruct (lsign l); cbn [negb]; lia. Qed.
Lemma lvar_lt l n : lvar l < n <-> l < 2 * n.
Proof. rewrite (lit_eta l) at 2. unfold mkLit. destruct (lsign l); lia. Qed.

Section B.
Variable cs : list clause.
Variable n : nat.
Hypothesis WF : wf_problem n cs.

Lemma cl_wf c : NoDup (cl cs c) /\ ~ tautology (cl cs c) /\ forall l, In l (cl cs c) -> l < 2 * n.
Proof.
  unfold cl. destruct (nth_in_or_default c cs []) as [H| ->].
  - destruct (WF _ H) as (A & A' & A''). split; auto. split; auto. intros l Hl. apply lvar_lt. auto.
  - split; [constructor|]. split; [intros (l & [] & _)|intros l []].
Qed.
Lemma cl_bound c l : In l (cl cs c) -> c < length cs.
Proof. intros H. unfold cl in H. destruct (Nat.lt_ge_cases c (length cs)); auto. rewrite nth_overflow in H by auto. destruct H. Qed.
Lemma pair_taut o c1 c2 : In o c1 -> In (lneg o) c2 -> ~ tautology c1 -> ~ tautology c2 -> (isBlocked_pair o c1 c2 = true <-> tautology (resolvent o c1 c2)).
Proof.
  intros H1 H2 T1 T2. unfold isBlocked_pair. rewrite existsb_exists. split.
  - intros (l1 & Hl & H). apply andb_true_iff in H. destruct H as (HN & H). apply existsb_exists in H. destruct H as (l2 & Hl2 & E). apply Nat.eqb_eq in E. apply negb_true_iff, Nat.eqb_neq in HN. subst l1.
    exists (lneg l2). split; apply in_or_app; [left|right]; apply filter_In.
    + split; auto. apply negb_true_iff, Nat.eqb_neq. auto.
    + rewrite lneg_invol. split; auto. apply negb_true_iff, Nat.eqb_neq. intros ->. apply HN. apply lneg_invol.
  - intros (l & Ha & Hb). apply in_app_or in Ha. apply in_app_or in Hb. rewrite !filter_In, !negb_true_iff, !Nat.eqb_neq in Ha, Hb. destruct Ha as [(Ha & Na)|(Ha & Na)]; destruct Hb as [(Hb & Nb)|(Hb & Nb)].
    + exfalso. apply T1. exists l. auto.
    + exists l. split; auto. apply andb_true_iff. split; [apply negb_true_iff, Nat.eqb_neq; auto|]. apply existsb_exists. exists (lneg l). split; auto. rewrite lneg_invol. apply Nat.eqb_refl.
    + exists (lneg l). split; auto. apply andb_true_iff. split; [apply negb_true_iff, Nat.eqb_neq; auto|]. apply existsb_exists. exists l. split; auto. apply Nat.eqb_refl.
    + exfalso. apply T2. exists l. auto.
Qed.
Lemma pair_sym o c1 c2 : isBlocked_pair o c1 c2 = true -> isBlocked_pair (lneg o) c2 c1 = true.
Proof.
  unfold isBlocked_pair. rewrite !existsb_exists. intros (l1 & Hl & H). apply andb_true_iff in H. destruct H as (HN & H). apply existsb_exists in H. destruct H as (l2 & Hl2 & E). apply Nat.eqb_eq in E. apply negb_true_iff, Nat.eqb_neq in HN. subst l1.
  exists l2. split; auto. apply andb_true_iff. split; [apply negb_true_iff, Nat.eqb_neq; intros ->; apply HN, lneg_invol|]. apply existsb_exists. exists (lneg l2). split; auto. rewrite lneg_invol. apply Nat.eqb_refl.
Qed.

(** ** Counting *)
Definition cnt (b : blocklist) (o : lit) : nat := length (filter (isBlocked cs b o) (occs b o)).
Definition cnt_ok (b : blocklist) (o : lit) : Prop := nth o (num_blocked b) 0%N = num_invalid \/ nth o (num_blocked b) 0%N = to_u16 (N.of_nat (cnt b o)).
Lemma cnt_fold b o : forall l k, fold_left (fun n c => if isBlocked cs b o c then to_u16 (n + 1) else n) l (to_u16 k) = to_u16 (k + N.of_nat (length (filter (isBlocked cs b o) l))).
Proof.
  induction l as [|c l IH]; intros k; cbn [fold_left filter length]; [rewrite N.add_0_r; auto|]. destruct (isBlocked cs b o c); auto.
  replace (to_u16 (to_u16 k + 1)) with (to_u16 (k + 1)) by (unfold to_u16; rewrite N.add_mod_idemp_l by discriminate; auto). rewrite IH. f_equal. cbn [length]. lia.
Qed.
Lemma cnt_le b o : cnt b o <= length (occs b o).
Proof. unfold cnt. apply filter_length_le || (induction (occs b o); cbn; auto; destruct (isBlocked _ _ _ _); cbn; lia). Qed.
(** two block lists agree on the lists of o and its negation *)
Lemma cnt_ext b b' o : occs b o = occs b' o -> occs b (lneg o) = occs b' (lneg o) -> cnt b o = cnt b' o.
Proof. intros H1 H2. unfold cnt. rewrite H1. f_equal. apply filter_ext. intros c. unfold isBlocked. rewrite H2. auto. Qed.

(** ** Invariant *)
Record Inv (R : list nat) (b : blocklist) : Prop := {
  i_len : length (index b) = 2 * n;
  i_len2 : length (num_blocked b) = 2 * n;
  i_nd : forall l, NoDup (occs b l);
  i_in : forall l c, In c (occs b l) <-> In c R /\ In l (cl cs c)
}.
Definition CI (b : blocklist) : Prop := forall o, o < 2 * n -> cnt_ok b o.

Lemma num_ok R b o : Inv R b -> CI b -> o < 2 * n -> forall k b', getNumBlocked cs o b = (k, b') -> k = to_u16 (N.of_nat (cnt b o)) /\ index b' = index b /\ Inv R b' /\ CI b'.
Proof.
  intros HI HC Ho k b' E. unfold getNumBlocked in E. injection E as Ek Eb. destruct (N.eqb_spec (nth o (num_blocked b) 0%N) num_invalid) as [Hn|Hn].
  - subst b'. cbn [num_blocked countBlocked] in Ek. rewrite nth_set_nth_same in Ek by (rewrite (i_len2 _ _ HI); auto). change 0%N with (to_u16 0) in Ek. rewrite (cnt_fold b o (occs b o) 0) in Ek. cbn [N.add] in Ek. split; auto. split; auto. split.
    + destruct HI. split; auto; cbn [num_blocked countBlocked]; rewrite set_nth_length; auto.
    + intros o' Ho'. destruct (Nat.eq_dec o' o) as [->|Hne].
      * right. cbn [num_blocked countBlocked]. rewrite nth_set_nth_same by (rewrite (i_len2 _ _ HI); auto). change 0%N with (to_u16 0). rewrite (cnt_fold b o (occs b o) 0). auto.
      * unfold cnt_ok. cbn [num_blocked countBlocked]. rewrite nth_set_nth_other by auto. apply (HC o' Ho').
  - subst b'. destruct (HC o Ho) as [H|H]; [contradiction|]. rewrite H in Ek. auto.
Qed.
Lemma occs_index b b' l : index b' = index b -> occs b' l = occs b l.
Proof. unfold occs. intros ->. auto. Qed.
Lemma set_ok R b o : Inv R b -> CI b -> o < 2 * n -> forall r b', isBlockedSet cs o b = (r, b') -> (r = true <-> N.of_nat (length (occs b o)) = to_u16 (N.of_nat (cnt b o))) /\ index b' = index b /\ Inv R b' /\ CI b'.
Proof.
  intros HI HC Ho r b' E. unfold isBlockedSet in E. destruct (getNumBlocked cs o b) as (k, b1) eqn:EN. destruct (num_ok R b o HI HC Ho _ _ EN) as (E1 & E2 & E3). injection E as <- <-. split; auto. rewrite (occs_index b b1) by auto. subst k. apply N.eqb_eq.
Qed.
Lemma set_true R b o b' : Inv R b -> CI b -> o < 2 * n -> isBlockedSet cs o b = (true, b') -> cnt b o = length (occs b o).
Proof.
  intros HI HC Ho E. destruct (set_ok R b o HI HC Ho _ _ E) as ((H & _) & _). specialize (H eq_refl). pose proof (cnt_le b o). unfold to_u16 in H. pose proof (N.mod_upper_bound (N.of_nat (cnt b o)) 65536 ltac:(discriminate)).
  rewrite N.mod_small in H by lia. lia.
Qed.

(** ** Removing a clause *)
Lemma index_len_rl c : forall ls b, length (index (fold_left (remove_lit c) ls b)) = length (index b) /\ length (num_blocked (fold_left (remove_lit c) ls b)) = length (num_blocked b).
Proof. induction ls as [|l ls IH]; intros b; cbn [fold_left]; auto. destruct (IH (remove_lit c b l)) as (A & A'). rewrite A, A'. cbn [remove_lit index num_blocked]. unfold erase. rewrite !set_nth_length. auto. Qed.
Lemma remove_occs c : forall ls b l, NoDup ls -> (forall l, In l ls -> l < length (index b)) -> occs (fold_left (remove_lit c) ls b) l = if existsb (Nat.eqb l) ls then filter (fun c' => negb (c' =? c)) (occs b l) else occs b l.
Proof.
  induction ls as [|x ls IH]; intros b l HN HB; cbn [fold_left existsb]; auto. inversion HN; subst. rewrite IH; auto.
  - unfold occs. cbn [remove_lit index]. unfold erase. rewrite nth_set_nth. destruct (Nat.eqb_spec l x) as [->|Hne].
    + destruct (existsb (Nat.eqb x) ls) eqn:E; [apply mem_spec in E; contradiction|]. cbn [orb andb]. destruct (Nat.ltb_spec x (length (index b))); auto. specialize (HB x (or_introl eq_refl)). lia.
    + cbn [orb andb]. auto.
  - intros y Hy. cbn [remove_lit index]. unfold erase. rewrite set_nth_length. apply HB. right. auto.
Qed.
Lemma remove_nb c : forall ls b l, l < length (num_blocked b) -> nth l (num_blocked (fold_left (remove_lit c) ls b)) 0%N = if existsb (Nat.eqb l) ls || existsb (Nat.eqb (lneg l)) ls then num_invalid else nth l (num_blocked b) 0%N.
Proof.
  induction ls as [|x ls IH]; intros b l HL; cbn [fold_left existsb]; auto. rewrite IH by (cbn [remove_lit num_blocked]; rewrite !set_nth_length; auto). cbn [remove_lit num_blocked].
  destruct (existsb (Nat.eqb l) ls); cbn [orb]; [rewrite orb_true_r; cbn [orb]; auto|]. destruct (existsb (Nat.eqb (lneg l)) ls); [rewrite !orb_true_r; auto|]. rewrite !orb_false_r.
  rewrite !nth_set_nth, set_nth_length. destruct (Nat.eqb_spec l x) as [->|Hne]; cbn [orb andb].
  - destruct (Nat.ltb_spec x (length (num_blocked b))); [|lia]. destruct ((x =? lneg x) && _); auto.
  - destruct (Nat.eqb_spec (lneg l) x) as [<-|Hne2].
    + rewrite lneg_invol, Nat.eqb_refl. destruct (Nat.ltb_spec l (length (num_blocked b))); auto. lia.
    + destruct (Nat.eqb_spec l (lneg x)) as [->|]; auto. exfalso. apply Hne2. apply lneg_invol.
Qed.
Lemma in_erase c c' l : In c' (filter (fun x => negb (x =? c)) l) <-> In c' l /\ c' <> c.
Proof. rewrite filter_In, negb_true_iff, Nat.eqb_neq. reflexivity. Qed.
Lemma remove_one R b c : Inv R b -> CI b -> let b' := fold_left (remove_lit c) (cl cs c) b in let R' := filter (fun x => negb (x =? c)) R in Inv R' b' /\ CI b'.
Proof.
  intros HI HC b' R'. destruct (cl_wf c) as (HN & HT & HL). destruct (index_len_rl c (cl cs c) b) as (L1 & L2). fold b' in L1, L2.
  assert (HO : forall l, occs b' l = if existsb (Nat.eqb l) (cl cs c) then filter (fun c' => negb (c' =? c)) (occs b l) else occs b l) by (intros l; apply remove_occs; auto; rewrite (i_len _ _ HI); auto).
  split.
  - split; [rewrite L1; apply (i_len _ _ HI)|rewrite L2; apply (i_len2 _ _ HI)| |].
    + intros l. rewrite HO. destruct (existsb (Nat.eqb l) (cl cs c)); [apply NoDup_filter|]; apply (i_nd _ _ HI).
    + intros l c'. rewrite HO. unfold R'. rewrite in_erase. destruct (existsb (Nat.eqb l) (cl cs c)) eqn:E.
      * rewrite in_erase, (i_in _ _ HI). tauto.
      * rewrite (i_in _ _ HI). split; [|tauto]. intros (A & A'). repeat (split; auto). intros ->. apply mem_spec in A'. congruence.
  - intros o Ho. unfold cnt_ok. unfold b' at 1 2. rewrite remove_nb by (rewrite (i_len2 _ _ HI); auto). destruct (existsb (Nat.eqb o) (cl cs c)) eqn:E1; cbn [orb]; auto. destruct (existsb (Nat.eqb (lneg o)) (cl cs c)) eqn:E2; auto.
    rewrite <- (cnt_ext b b' o) by (rewrite HO, ?E1, ?E2; auto). apply (HC o Ho).
Qed.
Lemma remove_ok : forall l R b, Inv R b -> CI b -> exists R', Inv R' (bl_remove cs l b) /\ CI (bl_remove cs l b) /\ (forall c, In c R' <-> In c R /\ ~ In c l).
Proof.
  induction l as [|c l IH]; intros R b HI HC; cbn [bl_remove fold_left].
  - exists R. split; auto. split; auto. intros c. cbn. tauto.
  - destruct (remove_one R b c HI HC) as (HI' & HC'). destruct (IH _ _ HI' HC') as (R' & A & A' & A''). exists R'. split; auto. split; auto. intros c'. rewrite A'', in_erase. cbn. intuition.
Qed.

(** ** Stripping *)
Lemma strip_len o c : forall ls b, length (index (fold_left (strip_lit o c) ls b)) = length (index b) /\ length (num_blocked (fold_left (strip_lit o c) ls b)) = length (num_blocked b).
Proof. induction ls as [|l ls IH]; intros b; cbn [fold_left]; auto. destruct (IH (strip_lit o c b l)) as (A & A'). rewrite A, A'. unfold strip_lit. destruct (l =? o); cbn [index num_blocked]; unfold erase; rewrite !set_nth_length; auto. Qed.
Lemma strip_occs o c : forall ls b l, NoDup ls -> (forall l, In l ls -> l < length (index b)) -> occs (fold_left (strip_lit o c) ls b) l = if existsb (Nat.eqb l) ls then filter (fun c' => negb (c' =? c)) (occs b l) else occs b l.
Proof.
  induction ls as [|x ls IH]; intros b l HN HB; cbn [fold_left existsb]; auto. inversion HN; subst.
  assert (EI : index (strip_lit o c b x) = erase c x (index b)) by (unfold strip_lit; destruct (x =? o); auto). rewrite IH; auto.
  - unfold occs. rewrite EI. unfold erase. rewrite nth_set_nth. destruct (Nat.eqb_spec l x) as [->|Hne].
    + destruct (existsb (Nat.eqb x) ls) eqn:E; [apply mem_spec in E; contradiction|]. cbn [orb andb]. destruct (Nat.ltb_spec x (length (index b))); auto. specialize (HB x (or_introl eq_refl)). lia.
    + cbn [orb andb]. auto.
  - intros y Hy. rewrite EI. unfold erase. rewrite set_nth_length. apply HB. right. auto.
Qed.
(** literals of other variables *)
Lemma strip_nb_other o c : forall ls b l, l <> o -> l <> lneg o -> l < length (num_blocked b) -> nth l (num_blocked (fold_left (strip_lit o c) ls b)) 0%N = if existsb (Nat.eqb l) ls || existsb (Nat.eqb (lneg l)) ls then num_invalid else nth l (num_blocked b) 0%N.
Proof.
  induction ls as [|x ls IH]; intros b l H1 H2 HL; cbn [fold_left existsb]; auto. rewrite IH; auto; [|unfold strip_lit; destruct (x =? o); cbn [num_blocked]; rewrite ?set_nth_length; auto].
  destruct (existsb (Nat.eqb l) ls); cbn [orb]; [rewrite orb_true_r; cbn [orb]; auto|]. destruct (existsb (Nat.eqb (lneg l)) ls); [rewrite !orb_true_r; auto|]. rewrite !orb_false_r.
  unfold strip_lit. destruct (Nat.eqb_spec x o) as [->|Hx]; cbn [num_blocked].
  - rewrite nth_set_nth_other by auto. destruct (Nat.eqb_spec l o); [contradiction|]. destruct (Nat.eqb_spec (lneg l) o) as [E|]; auto. exfalso. apply H2. rewrite <- E. symmetry. apply lneg_invol.
  - rewrite !nth_set_nth, set_nth_length. destruct (Nat.eqb_spec l x) as [->|Hne]; cbn [orb andb].
    + destruct (Nat.ltb_spec x (length (num_blocked b))); [|lia]. destruct ((x =? lneg x) && _); auto.
    + destruct (Nat.eqb_spec (lneg l) x) as [<-|Hne2].
      * rewrite lneg_invol, Nat.eqb_refl. destruct (Nat.ltb_spec l (length (num_blocked b))); auto. lia.
      * destruct (Nat.eqb_spec l (lneg x)) as [->|]; auto. exfalso. apply Hne2. apply lneg_invol.
Qed.
(** the literal o itself and its negation *)
Lemma strip_nb_o o c : forall ls b, ~ In (lneg o) ls -> nth o (num_blocked (fold_left (strip_lit o c) ls b)) 0%N = nth o (num_blocked b) 0%N.
Proof.
  induction ls as [|x ls IH]; intros b H; cbn [fold_left]; auto. rewrite IH by (intros H'; apply H; right; auto). unfold strip_lit. destruct (Nat.eqb_spec x o) as [->|Hx]; cbn [num_blocked].
  - rewrite nth_set_nth_other; auto. intros E. symmetry in E. apply (lneg_neq o E).
  - rewrite !nth_set_nth_other; auto. intros ->. apply H. left. rewrite lneg_invol. auto.
Qed.
Lemma strip_nb_neg o c : forall ls b, ~ In (lneg o) ls -> In o ls -> NoDup ls -> lneg o < length (num_blocked b) -> nth (lneg o) (num_blocked (fold_left (strip_lit o c) ls b)) 0%N = to_u16 (N.of_nat (length (occs b (lneg o)))).
Proof.
  induction ls as [|x ls IH]; intros b H1 H2 HN HL; cbn [fold_left]; [destruct H2|]. inversion HN as [|? ? Hx HN']; subst. destruct (Nat.eq_dec x o) as [->|Hne].
  - assert (E : forall ls b, ~ In (lneg o) ls -> ~ In o ls -> nth (lneg o) (num_blocked (fold_left (strip_lit o c) ls b)) 0%N = nth (lneg o) (num_blocked b) 0%N).
    { clear. induction ls as [|y ls IH]; intros b H1 H2; cbn [fold_left]; auto. rewrite IH by (cbn in H1, H2; tauto). unfold strip_lit. destruct (Nat.eqb_spec y o) as [->|Hy]; [exfalso; apply H2; left; auto|]. cbn [num_blocked]. rewrite !nth_set_nth_other; auto; intros E; [apply H1; left; auto|apply lneg_inj in E; auto]. }
    rewrite E by (auto; intros H; apply H1; right; auto). unfold strip_lit. rewrite Nat.eqb_refl. cbn [num_blocked]. rewrite nth_set_nth_same by auto. unfold erase. rewrite nth_set_nth_other by apply lneg_neq. auto.
  - rewrite IH; auto.
    + f_equal. f_equal. f_equal. unfold occs, strip_lit. destruct (Nat.eqb_spec x o); [contradiction|]. cbn [index]. unfold erase. rewrite nth_set_nth_other; auto. intros E. apply H1. left. auto.
    + intros H. apply H1. right. auto.
    + destruct H2; [contradiction|auto].
    + unfold strip_lit. destruct (x =? o); cbn [num_blocked]; rewrite ?set_nth_length; auto.
Qed.
Lemma isBlocked_ext b b' o c : occs b (lneg o) = occs b' (lneg o) -> isBlocked cs b o c = isBlocked cs b' o c.
Proof. unfold isBlocked. intros ->. auto. Qed.
(** invariant while stripping: everything but the counter of the negation *)
Definition CI' (o : lit) (b : blocklist) : Prop := forall l, l < 2 * n -> l <> lneg o -> cnt_ok b l.
Lemma strip_one R b o c : Inv R b -> CI' o b -> In o (cl cs c) -> isBlocked cs b o c = false ->
  let b' := fold_left (strip_lit o c) (cl cs c) b in let R' := filter (fun x => negb (x =? c)) R in
  Inv R' b' /\ CI' o b' /\ nth (lneg o) (num_blocked b') 0%N = to_u16 (N.of_nat (length (occs b' (lneg o)))) /\ occs b' (lneg o) = occs b (lneg o) /\ occs b' o = filter (fun x => negb (x =? c)) (occs b o).
Proof.
  intros HI HC Hc HB b' R'. destruct (cl_wf c) as (HN & HT & HL). destruct (strip_len o c (cl cs c) b) as (L1 & L2). fold b' in L1, L2.
  assert (HNo : ~ In (lneg o) (cl cs c)) by (intros H; apply HT; exists o; auto).
  assert (HO : forall l, occs b' l = if existsb (Nat.eqb l) (cl cs c) then filter (fun c' => negb (c' =? c)) (occs b l) else occs b l) by (intros l; apply strip_occs; auto; rewrite (i_len _ _ HI); auto).
  assert (EN : existsb (Nat.eqb (lneg o)) (cl cs c) = false) by (destruct (existsb (Nat.eqb (lneg o)) (cl cs c)) eqn:E; auto; apply mem_spec in E; contradiction).
  assert (HOn : occs b' (lneg o) = occs b (lneg o)) by (rewrite HO, EN; auto).
  assert (HOo : occs b' o = filter (fun x => negb (x =? c)) (occs b o)) by (rewrite HO; rewrite (proj2 (mem_spec o _)); auto).
  split; [|split; [|split; [|split]]]; auto.
  - split; [rewrite L1; apply (i_len _ _ HI)|rewrite L2; apply (i_len2 _ _ HI)| |].
    + intros l. rewrite HO. destruct (existsb (Nat.eqb l) (cl cs c)); [apply NoDup_filter|]; apply (i_nd _ _ HI).
    + intros l c'. rewrite HO. unfold R'. rewrite in_erase. destruct (existsb (Nat.eqb l) (cl cs c)) eqn:E.
      * rewrite in_erase, (i_in _ _ HI). tauto.
      * rewrite (i_in _ _ HI). split; [|tauto]. intros (A & A'). repeat (split; auto). intros ->. apply mem_spec in A'. congruence.
  - intros l Hl Hne. destruct (Nat.eq_dec l o) as [->|Hlo].
    + unfold cnt_ok. unfold b' at 1 2. rewrite strip_nb_o by auto. replace (cnt b' o) with (cnt b o); [apply (HC o Hl Hne)|]. unfold cnt. rewrite HOo. rewrite (filter_ext (isBlocked cs b' o) (isBlocked cs b o)) by (intros c'; apply isBlocked_ext; auto).
      clear - HB. induction (occs b o) as [|x l IH]; cbn [filter]; auto. destruct (Nat.eqb_spec x c) as [->|Hx]; cbn [negb]; [rewrite HB; auto|]. cbn [filter]. destruct (isBlocked cs b o x); cbn [length]; auto.
    + unfold cnt_ok. unfold b' at 1 2. rewrite strip_nb_other by (auto; rewrite (i_len2 _ _ HI); auto). destruct (existsb (Nat.eqb l) (cl cs c)) eqn:E1; cbn [orb]; auto. destruct (existsb (Nat.eqb (lneg l)) (cl cs c)) eqn:E2; auto.
      rewrite <- (cnt_ext b b' l) by (rewrite HO, ?E1, ?E2; auto). apply (HC l Hl Hne).
  - rewrite HOn. unfold b'. rewrite strip_nb_neg; auto. rewrite (i_len2 _ _ HI). apply lneg_lt. auto.
Qed.
Lemma strip_fold o : forall l R b, Inv R b -> CI' o b -> (forall c, In c l -> In o (cl cs c) /\ isBlocked cs b o c = false) ->
  let b' := fold_left (fun b c => fold_left (strip_lit o c) (cl cs c) b) l b in
  exists R', Inv R' b' /\ CI' o b' /\ (forall c, In c R' <-> In c R /\ ~ In c l) /\ occs b' (lneg o) = occs b (lneg o) /\
    ((l = [] /\ b' = b) \/ nth (lneg o) (num_blocked b') 0%N = to_u16 (N.of_nat (length (occs b' (lneg o))))).
Proof.
  induction l as [|c l IH]; intros R b HI HC HB b'; cbn [fold_left] in b'.
  - exists R. subst b'. split; [|split; [|split; [|split]]]; auto. intros c. cbn. tauto.
  - destruct (HB c (or_introl eq_refl)) as (Hc1 & Hc2). destruct (strip_one R b o c HI HC Hc1 Hc2) as (A1 & A2 & A3 & A4 & A5). set (b1 := fold_left (strip_lit o c) (cl cs c) b) in *.
    destruct (IH _ b1 A1 A2) as (R' & B1 & B2 & B3 & B4 & B5). { intros c' Hc'. destruct (HB c' (or_intror Hc')) as (E1 & E2). split; auto. rewrite (isBlocked_ext b1 b) by auto. auto. }
    fold b' in B1, B2, B4, B5. exists R'. split; auto. split; auto. split; [|split].
    + intros c'. rewrite B3, in_erase. cbn. intuition.
    + congruence.
    + right. destruct B5 as [(-> & ->)|B5]; auto.
Qed.
Lemma strip_ok R b o : Inv R b -> CI b -> o < 2 * n -> forall l b', stripUnblockedClauses cs o b = (l, b') ->
  NoDup l /\ (forall c, In c l <-> In c (occs b o) /\ isBlocked cs b o c = false) /\ exists R', Inv R' b' /\ CI b' /\ (forall c, In c R' <-> In c R /\ ~ In c l).
Proof.
  intros HI HC Ho l b' E. unfold stripUnblockedClauses in E. injection E as El Eb. rewrite El in Eb. assert (HL : forall c, In c l <-> In c (occs b o) /\ isBlocked cs b o c = false) by (intros c; rewrite <- El, filter_In, negb_true_iff; reflexivity).
  split; [rewrite <- El; apply NoDup_filter, (i_nd _ _ HI)|]. split; auto.
  destruct (strip_fold o l R b HI) as (R' & B1 & B2 & B3 & B4 & B5). { intros x Hx _. apply (HC x Hx). } { intros c Hc. apply HL in Hc. destruct Hc as (H1 & H2). apply (i_in _ _ HI) in H1. tauto. }
  rewrite Eb in *. exists R'. split; auto. split; auto. intros x Hx. destruct (Nat.eq_dec x (lneg o)) as [->|Hne]; [|apply B2; auto]. destruct B5 as [(_ & ->)|B5]; [apply HC; auto|].
  right. rewrite B5. f_equal. f_equal. unfold cnt. symmetry. assert (E : filter (isBlocked cs b' (lneg o)) (occs b' (lneg o)) = occs b' (lneg o)); [|rewrite E; auto].
  rewrite <- (filter_ext_in (fun _ => true)); [clear; induction (occs b' (lneg o)); cbn; auto; congruence|]. intros c Hc. symmetry. unfold isBlocked. apply forallb_forall. rewrite lneg_invol. intros d Hd. 
  apply (i_in _ _ B1) in Hd. destruct Hd as (Hd1 & Hd2). apply B3 in Hd1. destruct Hd1 as (Hd1 & Hd3). assert (HB : isBlocked cs b o d = true). { destruct (isBlocked cs b o d) eqn:E; auto. exfalso. apply Hd3. apply HL. split; auto. apply (i_in _ _ HI). auto. }
  unfold isBlocked in HB. rewrite forallb_forall in HB. apply pair_sym. apply HB. rewrite <- B4. auto.
Qed.

(** ** The constructor *)
Lemma index_clause_len c : forall ls ix, length (index_clause c ls ix) = length ix.
Proof. induction ls as [|l ls IH]; intros ix; cbn [index_clause]; auto. rewrite IH, set_nth_length. auto. Qed.
Lemma index_clause_nth c : forall ls ix l, NoDup ls -> (forall x, In x ls -> x < length ix) -> nth l (index_clause c ls ix) [] = if existsb (Nat.eqb l) ls then nth l ix [] ++ [c] else nth l ix [].
Proof.
  induction ls as [|x ls IH]; intros ix l HN HB; cbn [index_clause existsb]; auto. inversion HN; subst. rewrite IH; auto.
  - rewrite nth_set_nth. destruct (Nat.eqb_spec l x) as [->|Hne]; cbn [orb andb]; auto. destruct (existsb (Nat.eqb x) ls) eqn:E; [apply mem_spec in E; contradiction|]. destruct (Nat.ltb_spec x (length ix)); auto. specialize (HB x (or_introl eq_refl)). lia.
  - intros y Hy. rewrite set_nth_length. apply HB. right. auto.
Qed.
Lemma index_fold : forall ids ix, NoDup ids -> length ix = 2 * n -> let ix' := fold_left (fun ix c => index_clause c (cl cs c) ix) ids ix in
  length ix' = 2 * n /\ forall l, nth l ix' [] = nth l ix [] ++ filter (fun c => existsb (Nat.eqb l) (cl cs c)) ids.
Proof.
  induction ids as [|c ids IH]; intros ix HN HL; cbn [fold_left filter].
  - split; auto. intros l. rewrite app_nil_r. auto.
  - inversion HN; subst. destruct (cl_wf c) as (H4 & H5 & H6). destruct (IH (index_clause c (cl cs c) ix)) as (E1 & E2); auto; [rewrite index_clause_len; auto|]. split; auto. intros l. rewrite E2. rewrite index_clause_nth by (auto; rewrite HL; auto). destruct (existsb (Nat.eqb l) (cl cs c)); auto. rewrite <- app_assoc. auto.
Qed.
Lemma new_ok : Inv (seq 0 (length cs)) (bl_new n cs) /\ CI (bl_new n cs).
Proof.
  unfold bl_new. destruct (index_fold (seq 0 (length cs)) (repeat [] (2 * n))) as (L & E); [apply seq_NoDup|apply repeat_length|]. set (ix := fold_left _ _ _) in *. split.
  - split; cbn [index num_blocked]; auto; [apply repeat_length| |].
    + intros l. unfold occs. cbn [index]. rewrite E. rewrite nth_repeat. cbn [app]. apply NoDup_filter, seq_NoDup.
    + intros l c. unfold occs. cbn [index]. rewrite E, nth_repeat. cbn [app]. rewrite filter_In, mem_spec. reflexivity.
  - intros o Ho. left. cbn [num_blocked]. rewrite (nth_indep _ 0%N num_invalid) by (rewrite repeat_length; auto). apply nth_repeat.
Qed.

(** ** getMinimallyUnblockedLiteral *)
Definition ub (b : blocklist) (o : lit) : nat := length (occs b o) - cnt b o.
Definition diff (b : blocklist) (o : lit) : N := (N.of_nat (length (occs b o)) - to_u16 (N.of_nat (cnt b o)))%N.
Lemma diff_small b o : (diff b o < 65535)%N -> diff b o = N.of_nat (ub b o).
Proof.
  intros H. unfold diff, ub in *. pose proof (cnt_le b o). unfold to_u16 in *. pose proof (N.div_mod (N.of_nat (cnt b o)) 65536 ltac:(discriminate)). destruct (N.eq_dec (N.of_nat (cnt b o) / 65536) 0) as [E|E]; [|lia]. rewrite E in H1. lia.
Qed.
Lemma ub_diff b o : (N.of_nat (length (occs b o)) < 65536)%N -> diff b o = N.of_nat (ub b o).
Proof. intros H. unfold diff, ub, to_u16. pose proof (cnt_le b o). rewrite N.mod_small; lia. Qed.
Definition mst := (option lit * N * blocklist)%type.
(** the result so far is the first of the least positive differences among [done], with limit 65535 *)
Definition MI (R : list nat) (b0 : blocklist) (done : lit -> Prop) (st : mst) : Prop :=
  let '(r, mn, b) := st in Inv R b /\ CI b /\ index b = index b0 /\
  (forall l, done l -> diff b0 l = 0%N \/ (mn <= diff b0 l)%N) /\
  match r with None => mn = 65535%N | Some o => o < 2 * n /\ mn = diff b0 o /\ (0 < mn < 65535)%N end.
Lemma min_step_ok R b0 done st l : l < 2 * n -> MI R b0 done st -> MI R b0 (fun x => done x \/ x = l) (min_step cs st l).
Proof.
  intros Hl. destruct st as ((r, mn), b). intros (H1 & H2 & H3 & H4 & H5). unfold min_step. destruct (getNumBlocked cs l b) as (k, b1) eqn:E. destruct (num_ok R b l H1 H2 Hl _ _ E) as (E1 & E2 & E3 & E4).
  assert (ED : (N.of_nat (length (occs b l)) - k)%N = diff b0 l). { unfold diff. rewrite <- (occs_index b0 b l) by auto. rewrite <- (cnt_ext b b0 l) by (apply occs_index; auto). subst k. auto. }
  rewrite ED. destruct (N.ltb_spec 0 (diff b0 l)); cbn [andb]; [destruct (N.ltb_spec (diff b0 l) mn)|].
  - split; auto. split; auto. split; [congruence|]. split.
    + intros x [Hx| ->]; [|right; lia]. destruct (H4 x Hx); auto. right. lia.
    + split; auto. split; auto. destruct r; [destruct H5 as (_ & _ & H5)|]; lia.
  - split; auto. split; auto. split; [congruence|]. split; auto. intros x [Hx| ->]; auto.
  - split; auto. split; auto. split; [congruence|]. split; auto. intros x [Hx| ->]; auto. left. lia.
Qed.
Lemma min_loop_ok R b0 : forall v done st, v <= n -> MI R b0 done st -> exists done', MI R b0 done' (min_loop cs v st) /\
  (let '(r, mn, _) := min_loop cs v st in (mn <= 1)%N \/ forall l, (done l \/ lvar l < v) -> done' l).
Proof.
  induction v as [|v IH]; intros done st Hv HM; cbn [min_loop].
  - exists done. split; auto. destruct st as ((r, mn), b). right. intros l [H|H]; auto. lia.
  - destruct st as ((r, mn), b) eqn:Est. rewrite <- Est in *. destruct (N.ltb_spec 1 mn) as [Hm|Hm].
    + assert (HM2 : MI R b0 (fun x => (done x \/ x = mkLit v true) \/ x = mkLit v false) (min_step cs (min_step cs st (mkLit v true)) (mkLit v false))).
      { apply min_step_ok; [unfold mkLit; lia|]. apply min_step_ok; [unfold mkLit; lia|]. auto. }
      destruct (IH _ _ ltac:(lia) HM2) as (done' & A & A'). exists done'. split; auto. destruct (min_loop cs v _) as ((r', mn'), b'). destruct A' as [A'|A']; auto. right. intros l [H|H]; apply A'; auto.
      destruct (Nat.eq_dec (lvar l) v) as [E|E]; [|right; lia]. left. rewrite (lit_eta l), E. destruct (lsign l); auto.
    + exists done. rewrite Est in *. split; auto.
Qed.
Lemma min_ok R b : Inv R b -> CI b -> forall r b', getMinimallyUnblockedLiteral cs n b = (r, b') -> Inv R b' /\ CI b' /\ index b' = index b /\
  match r with
  | Some o => o < 2 * n /\ 0 < ub b o /\ diff b o = N.of_nat (ub b o) /\ forall l, l < 2 * n -> diff b l = 0%N \/ (diff b o <= diff b l)%N
  | None => forall l, l < 2 * n -> diff b l = 0%N \/ (65535 <= diff b l)%N
  end.
Proof.
  intros HI HC r b' E. unfold getMinimallyUnblockedLiteral in E.
  destruct (min_loop_ok R b n (fun _ => False) (None, 65535%N, b) ltac:(lia)) as (done & HM & HD). { split; auto. split; auto. split; auto. split; auto. intros l []. }
  destruct (min_loop cs n (None, 65535%N, b)) as ((r0, mn), b1). injection E as -> ->. destruct HM as (H1 & H2 & H3 & H4 & H5). split; auto. split; auto. split; auto. destruct r as [o|].
  - destruct H5 as (H5 & H6 & H7). pose proof (diff_small b o ltac:(lia)) as ED. split; auto. split; [lia|]. split; auto. intros l Hl. destruct HD as [HD|HD]; [lia|]. rewrite <- H6. apply H4. apply HD. right. apply lvar_lt. auto.
  - subst mn. intros l Hl. destruct HD as [HD|HD]; [lia|]. apply H4, HD. right. apply lvar_lt. auto.
Qed.
End B.
