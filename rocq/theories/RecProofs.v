(** Proofs about the recursive clause order: what the recursion reads. *)
Require Import List Arith Bool NArith Lia.
Require Import Verif.Base Verif.Outcome Verif.CNFModel Verif.GateModel Verif.GateSpec Verif.SimModel Verif.RecModel.
Import ListNotations.

Section R.
Variable gs : list gate.
Let np : var -> bool := fun _ => false.
Hypothesis AC : acyclic np gs.
Definition inputs_in (u : var) : list var := map lvar (g_inp (nth u gs gate_none)).

Lemma in_inputs u v : In v (inputs_in u) <-> exists i, In i (g_inp (nth u gs gate_none)) /\ lvar i = v.
Proof. unfold inputs_in. rewrite in_map_iff. split; intros (i & A & B); exists i; auto. Qed.
Lemma child_in u v : child np gs u v <-> defined gs v = true /\ In v (inputs_in u).
Proof. unfold child. rewrite in_inputs. unfold np. intuition. Qed.
Lemma path_trans u v w : path np gs u v -> path np gs v w -> path np gs u w.
Proof. induction 1 as [u v H|u v x H _ IH]; intros HP; [eapply p_more; eauto|eapply p_more; eauto]. Qed.
Lemma nd_app (X Y : list var) : NoDup X -> NoDup Y -> (forall u, In u X -> ~ In u Y) -> NoDup (X ++ Y).
Proof.
  induction X as [|x X IH]; intros HX HY HD; cbn [app]; auto. inversion HX; subst. constructor; [rewrite in_app_iff; intros [K|K]; auto; apply (HD x); auto; left; auto|].
  apply IH; auto. intros u Hu. apply HD. right. auto.
Qed.
Lemma mem_in v l : existsb (Nat.eqb v) l = true <-> In v l.
Proof. rewrite existsb_exists. split; [intros (x & H & E); apply Nat.eqb_eq in E; subst; auto|intros H; exists v; split; auto; apply Nat.eqb_refl]. Qed.
Lemma mem_not v l : existsb (Nat.eqb v) l = false <-> ~ In v l.
Proof. rewrite <- mem_in. destruct (existsb _ _); intuition congruence. Qed.

(** children before their parents, where [old] counts as read *)
Definition sorted_after (old X : list var) : Prop := forall a u b c, X = a ++ u :: b -> child np gs u c -> In c (old ++ a).
Lemma sorted_app old X Y : sorted_after old X -> sorted_after (old ++ X) Y -> sorted_after old (X ++ Y).
Proof.
  intros HX HY a u b c E Hc. assert (C : (exists d, X = a ++ u :: d) \/ exists d, a = X ++ d /\ Y = d ++ u :: b).
  { clear - E. revert a E. induction X as [|x X IH]; intros a E; [right; exists a; auto|]. destruct a as [|y a]; injection E as E1 E2.
    - left. subst. exists X. auto.
    - subst. destruct (IH a E2) as [(d & H)|(d & H1 & H2)]; [left; exists d; rewrite H; auto|right; exists d; rewrite H1; auto]. }
  destruct C as [(d & H)|(d & H1 & H2)]; [apply (HX a u d c H Hc)|]. specialize (HY d u b c H2 Hc). subst a. rewrite app_assoc. auto.
Qed.
Lemma sorted_one old v : (forall c, child np gs v c -> In c old) -> sorted_after old [v].
Proof. intros H a u b c E Hc. destruct a as [|x a]; [injection E as <- _; rewrite app_nil_r; auto|]. injection E as _ E. destruct a; discriminate. Qed.

(** what happens between two states: the gates X and the inputs Y are read, the gates U are completely read, of the gate v the
    inputs [dn] *)
Record ext (v : var) (dn : list var) (s s' : rst) (X Y : list var) : Prop := {
  e_order : r_order s' = r_order s ++ X;
  e_ins : r_ins s' = r_ins s ++ Y;
  e_seen : forall u, In u (r_seen s') <-> In u (r_seen s) \/ In u X;
  e_nd : NoDup X;
  e_new : forall u, In u X -> ~ In u (r_seen s) /\ defined gs u = true /\ path np gs v u;
  e_sort : sorted_after (r_order s) X;
  e_ndy : NoDup Y;
  e_newy : forall y, In y Y -> ~ In y (r_ins s) /\ defined gs y = false /\ exists u, (u = v \/ In u X) /\ In y (inputs_in u);
  e_ally : forall u y, In u X -> In y (inputs_in u) -> defined gs y = false -> In y (r_ins s');
  e_dny : forall y, In y dn -> defined gs y = false -> In y (r_ins s');
  e_dnx : forall y, In y dn -> defined gs y = true -> In y (r_order s');
  e_up : r_amount s <= r_amount s';
  e_ax : forall u, In u X -> u < r_amount s';
  e_ay : forall y, In y Y -> y < r_amount s';
  e_ain : forall y, In y dn -> y < r_amount s';
  e_top : r_amount s' = r_amount s \/ exists y, S y = r_amount s' /\ exists u, (u = v \/ In u X) /\ In y (inputs_in u)
}.
Lemma ext_refl v s : ext v [] s s [] [].
Proof.
  split; auto; try (rewrite app_nil_r; auto; fail); try constructor; try (intros; contradiction); auto.
  - intros [H|[]]; auto.
  - intros a u b c E. destruct a; discriminate.
Qed.

Definition unseen (s : list var) : nat := length (filter (fun v => negb (existsb (Nat.eqb v) s)) (seq 0 (length gs))).
Lemma filter_len_le (f h : nat -> bool) (l : list nat) : (forall x, f x = true -> h x = true) -> length (filter f l) <= length (filter h l).
Proof. intros H. induction l as [|x l IH]; cbn; auto. specialize (H x). destruct (f x), (h x); cbn; try lia; discriminate (H eq_refl). Qed.
Lemma filter_len_lt (f h : nat -> bool) (l : list nat) x : (forall x, f x = true -> h x = true) -> In x l -> f x = false -> h x = true -> length (filter f l) < length (filter h l).
Proof.
  intros H. induction l as [|y l IH]; intros Hi E1 E2; [destruct Hi|]. destruct Hi as [->|Hi]; cbn.
  - rewrite E1, E2. cbn. pose proof (filter_len_le f h l H). lia.
  - specialize (IH Hi E1 E2). specialize (H y). destruct (f y), (h y); cbn; try lia; discriminate (H eq_refl).
Qed.
Lemma unseen_mono s t : (forall v, In v s -> In v t) -> unseen t <= unseen s.
Proof. intros H. apply filter_len_le. intros v. rewrite !negb_true_iff, !mem_not. auto. Qed.
Lemma unseen_cons v s : defined gs v = true -> ~ In v s -> unseen (v :: s) < unseen s.
Proof.
  intros HD HN. assert (v < length gs). { destruct (Nat.lt_ge_cases v (length gs)); auto. unfold defined in HD. rewrite nth_overflow in HD by auto. discriminate. }
  apply (filter_len_lt _ _ _ v).
  - intros x. rewrite !negb_true_iff, !mem_not. cbn [In]. tauto.
  - apply in_seq. lia.
  - apply negb_false_iff, mem_in. left. auto.
  - apply negb_true_iff, mem_not. auto.
Qed.
Lemma unseen_max s : unseen s <= length gs.
Proof. unfold unseen. rewrite <- (seq_length (length gs) 0) at 2. generalize (seq 0 (length gs)). intros l. induction l as [|x l IH]; cbn; auto. destruct (negb _); cbn; lia. Qed.

(** gates that are seen but not yet read lead to v *)
Record before_call (v : var) (s : rst) : Prop := {
  b_gray : forall g, In g (r_seen s) -> In g (r_order s) \/ path np gs g v;
  b_seen : forall c, In c (r_order s) -> In c (r_seen s);
  b_def : forall c, In c (r_seen s) -> defined gs c = true;
  b_ins : forall y, In y (r_ins s) -> defined gs y = false }.
(** the specification of the call for v *)
Definition call_ok (fuel : nat) (call : var -> rst -> out rst) : Prop := forall v s, before_call v s -> defined gs v = true -> unseen (v :: r_seen s) < fuel ->
  exists s' X Y, call v s = Ok (push_out v s') /\ ext v (inputs_in v) (see v s) s' X Y.

Lemma ext_raise v dn s0 s X Y y : ext v dn s0 s X Y -> In y (inputs_in v) -> ext v dn s0 (raise y s) X Y.
Proof.
  intros H Hy. destruct H. split; cbn [raise r_order r_ins r_seen r_amount]; auto; try (intros u Hu; apply Nat.lt_le_trans with (r_amount s); auto; lia); [lia|].
  destruct (Nat.max_spec (r_amount s) (S y)) as [(L & ->)|(L & ->)]; [right; exists y; split; auto; exists v; auto|auto].
Qed.
(** the next input y of v is an input of the circuit *)
Lemma ext_push v dn s0 s X Y y : ext v dn s0 s X Y -> In y (inputs_in v) -> defined gs y = false -> ~ In y (r_ins s) -> y < r_amount s -> ext v (dn ++ [y]) s0 (push_in y s) X (Y ++ [y]).
Proof.
  intros H Hy HD HN HL. destruct H. split; cbn [push_in r_order r_ins r_seen r_amount]; auto.
  - rewrite e_ins0, app_assoc. auto.
  - apply nd_app; auto; [constructor; auto; constructor|]. intros z Hz [->|[]]. apply HN. rewrite e_ins0. apply in_or_app. auto.
  - intros z Hz. apply in_app_or in Hz. destruct Hz as [Hz|[<-|[]]]; [auto|]. split; [intros K; apply HN; rewrite e_ins0; apply in_or_app; auto|]. split; auto. exists v. auto.
  - intros u z Hu Hz Hd. apply in_or_app. left. eauto.
  - intros z Hz Hd. apply in_or_app. apply in_app_or in Hz. destruct Hz as [Hz|Hz]; [left; auto|right; auto].
  - intros z Hz Hd. apply in_app_or in Hz. destruct Hz as [Hz|[<-|[]]]; [auto|congruence].
  - intros z Hz. apply in_app_or in Hz. destruct Hz as [Hz|[<-|[]]]; auto.
  - intros z Hz. apply in_app_or in Hz. destruct Hz as [Hz|[<-|[]]]; auto.
Qed.
(** it has been read before *)
Lemma ext_skip v dn s0 s X Y y : ext v dn s0 s X Y -> (defined gs y = false -> In y (r_ins s)) -> (defined gs y = true -> In y (r_order s)) -> y < r_amount s -> ext v (dn ++ [y]) s0 s X Y.
Proof.
  intros H H1 H2 HL. destruct H. split; auto; intros z Hz; apply in_app_or in Hz; destruct Hz as [Hz|[<-|[]]]; auto.
Qed.
(** it is the output of a gate that is read now *)
Lemma ext_call v dn s0 s X Y y s1 X1 Y1 : ext v dn s0 s X Y -> child np gs v y -> defined gs y = true -> ~ In y (r_seen s) -> y < r_amount s ->
  ext y (inputs_in y) (see y s) s1 X1 Y1 -> ext v (dn ++ [y]) s0 (push_out y s1) (X ++ X1 ++ [y]) (Y ++ Y1).
Proof.
  intros H HC HD HN HL H1. assert (HY : ~ In y X1) by (intros K; apply (e_new _ _ _ _ _ _ H1) in K; apply (proj1 K); left; auto).
  destruct H, H1. cbn [see r_order r_ins r_seen r_amount] in *.
  assert (HP : forall u, In u (X1 ++ [y]) -> path np gs v u). { intros u Hu. apply in_app_or in Hu. destruct Hu as [Hu|[<-|[]]]; [|apply p_one; auto]. eapply p_more; [exact HC|]. apply e_new1. auto. }
  assert (HNS : forall u, In u (X1 ++ [y]) -> ~ In u (r_seen s)). { intros u Hu. apply in_app_or in Hu. destruct Hu as [Hu|[<-|[]]]; auto. apply e_new1 in Hu. cbn [In] in Hu. tauto. }
  split; cbn [push_out r_order r_ins r_seen r_amount].
  - rewrite e_order1, e_order0, !app_assoc. auto.
  - rewrite e_ins1, e_ins0, app_assoc. auto.
  - intros u. rewrite e_seen1, !in_app_iff. cbn [In]. rewrite e_seen0. tauto.
  - apply nd_app; auto; [apply nd_app; auto; [constructor; auto; constructor|intros z Hz [->|[]]; auto]|]. intros z Hz K. apply (HNS z K). apply e_seen0. auto.
  - intros u Hu. apply in_app_or in Hu. destruct Hu as [Hu|Hu]; [auto|]. split; [intros K; apply (HNS u Hu); apply e_seen0; auto|]. split; auto.
    apply in_app_or in Hu. destruct Hu as [Hu|[<-|[]]]; auto. apply e_new1. auto.
  - apply sorted_app; auto. apply sorted_app; [rewrite <- e_order0; auto|]. apply sorted_one. intros c Hc. apply child_in in Hc. destruct Hc as (Hd & Hc). rewrite <- e_order0, <- e_order1. auto.
  - apply nd_app; auto. intros z Hz K. apply e_newy1 in K. apply (proj1 K). rewrite e_ins0. apply in_or_app. auto.
  - intros z Hz. apply in_app_or in Hz. destruct Hz as [Hz|Hz].
    + destruct (e_newy0 z Hz) as (A & B & u & Hu & C). split; auto. split; auto. exists u. split; auto. destruct Hu; auto. right. apply in_or_app. auto.
    + destruct (e_newy1 z Hz) as (A & B & u & Hu & C). split; [intros Q; apply A; rewrite e_ins0; apply in_or_app; auto|]. split; auto. exists u. split; auto. right. apply in_or_app. right. apply in_or_app. destruct Hu as [->|Hu]; [right; left; auto|auto].
  - intros u z Hu Hz Hd. apply in_app_or in Hu. destruct Hu as [Hu|Hu]; [rewrite e_ins1; apply in_or_app; left; eauto|]. apply in_app_or in Hu. destruct Hu as [Hu|[<-|[]]]; [eauto|auto].
  - intros z Hz Hd. apply in_app_or in Hz. destruct Hz as [Hz|[<-|[]]]; [rewrite e_ins1; apply in_or_app; left; auto|congruence].
  - intros z Hz Hd. apply in_app_or in Hz. destruct Hz as [Hz|[<-|[]]]; [apply in_or_app; left; rewrite e_order1; apply in_or_app; left; auto|apply in_or_app; right; left; auto].
  - lia.
  - intros u Hu. apply in_app_or in Hu. destruct Hu as [Hu|Hu]; [specialize (e_ax0 u Hu); lia|]. apply in_app_or in Hu. destruct Hu as [Hu|[<-|[]]]; [auto|lia].
  - intros u Hu. apply in_app_or in Hu. destruct Hu as [Hu|Hu]; [specialize (e_ay0 u Hu); lia|auto].
  - intros u Hu. apply in_app_or in Hu. destruct Hu as [Hu|[<-|[]]]; [specialize (e_ain0 u Hu); lia|lia].
  - destruct e_top1 as [->|(z & Ez & u & Hu & Hz)].
    + destruct e_top0 as [->|(z & Ez & u & Hu & Hz)]; auto. right. exists z. split; auto. exists u. split; auto. destruct Hu; auto. right. apply in_or_app. auto.
    + right. exists z. split; auto. exists u. split; auto. right. apply in_or_app. right. apply in_or_app. destruct Hu as [->|Hu]; [right; left; auto|auto].
Qed.

(** while the inputs of v are read, v itself is seen *)
Record within (v : var) (s : rst) : Prop := {
  w_gray : forall g, In g (r_seen s) -> In g (r_order s) \/ g = v \/ path np gs g v;
  w_seen : forall c, In c (r_order s) -> In c (r_seen s);
  w_def : forall c, In c (r_seen s) -> defined gs c = true;
  w_ins : forall y, In y (r_ins s) -> defined gs y = false }.
Lemma within_see v s : before_call v s -> defined gs v = true -> within v (see v s).
Proof. intros [A B C D] HD. split; cbn [see r_seen r_order r_ins In]; auto. - intros g [<-|H]; auto. destruct (A g H); auto. - intros c [<-|H]; auto. Qed.
Lemma within_ext v dn s0 s X Y : within v s0 -> ext v dn s0 s X Y -> within v s.
Proof.
  intros [A B C D] H. destruct H. split.
  - intros g Hg. apply e_seen0 in Hg. rewrite e_order0. destruct Hg as [Hg|Hg]; [destruct (A g Hg) as [K|K]; auto; left; apply in_or_app; auto|left; apply in_or_app; auto].
  - intros c Hc. rewrite e_order0 in Hc. apply e_seen0. apply in_app_or in Hc. destruct Hc; auto.
  - intros c Hc. apply e_seen0 in Hc. destruct Hc as [Hc|Hc]; auto. apply e_new0. auto.
  - intros y Hy. rewrite e_ins0 in Hy. apply in_app_or in Hy. destruct Hy as [Hy|Hy]; auto. apply e_newy0. auto.
Qed.
Lemma before_of v s y : within v s -> child np gs v y -> before_call y s.
Proof.
  intros [A B C D] HC. split; auto. intros g Hg. destruct (A g Hg) as [K|[->|K]]; auto; right; [apply p_one; auto|]. apply (path_trans g v y); auto. apply p_one. auto.
Qed.
Lemma within_raise v s y : within v s -> within v (raise y s).
Proof. intros [A B C D]. split; auto. Qed.

Lemma inputs_ok fuel call : call_ok fuel call -> forall v ins s0 s dn X Y, within v s0 -> ext v dn s0 s X Y -> inputs_in v = dn ++ map lvar ins -> unseen (r_seen s0) <= fuel ->
  exists s' X' Y', rinputs call gs ins s = Ok s' /\ ext v (inputs_in v) s0 s' X' Y'.
Proof.
  intros HC v. induction ins as [|i ins IH]; intros s0 s dn X Y HW HE EI HF; cbn [rinputs].
  - cbn [map] in EI. rewrite app_nil_r in EI. exists s, X, Y. rewrite EI. auto.
  - cbn [map] in EI. set (y := lvar i) in *. assert (Hy : In y (inputs_in v)) by (rewrite EI; apply in_or_app; right; left; auto).
    pose proof (ext_raise v dn s0 s X Y y HE Hy) as HE1. pose proof (within_ext _ _ _ _ _ _ HW HE1) as HW1. set (s1 := raise y s) in *.
    assert (HL : y < r_amount s1) by (unfold s1, raise; cbn [r_amount]; lia).
    replace (dn ++ y :: map lvar ins) with ((dn ++ [y]) ++ map lvar ins) in EI by (rewrite <- app_assoc; auto).
    destruct (defined gs y) eqn:ED; cbn [andb].
    + assert (CH : child np gs v y) by (apply child_in; auto). destruct (existsb (Nat.eqb y) (r_seen s1)) eqn:ES; cbn [negb andb].
      * apply mem_in in ES. apply (IH s0 s1 (dn ++ [y]) X Y HW); auto. apply ext_skip; auto; [congruence|]. intros _.
        destruct (w_gray _ _ HW1 y ES) as [K|[K|K]]; auto; exfalso; [rewrite K in CH; apply (AC v); apply p_one; auto|]. apply (AC v). eapply p_more; eauto.
      * apply mem_not in ES. destruct (HC y s1 (before_of _ _ _ HW1 CH) ED) as (s2 & X2 & Y2 & E2 & H2).
        { pose proof (unseen_cons y (r_seen s1) ED ES). assert (unseen (r_seen s1) <= unseen (r_seen s0)); [|lia]. apply unseen_mono. intros u Hu. apply (e_seen _ _ _ _ _ _ HE1). auto. }
        rewrite E2. cbn [bind]. apply (IH s0 (push_out y s2) (dn ++ [y]) (X ++ X2 ++ [y]) (Y ++ Y2) HW); auto. apply (ext_call v dn s0 s1 X Y y s2 X2 Y2); auto.
    + assert (NS : ~ In y (r_seen s1)) by (intros K; apply (w_def _ _ HW1) in K; congruence). rewrite (proj2 (mem_not y (r_seen s1)) NS). cbn [negb andb].
      destruct (existsb (Nat.eqb y) (r_ins s1)) eqn:EY; cbn [negb].
      * apply mem_in in EY. apply (IH s0 s1 (dn ++ [y]) X Y HW); auto. apply ext_skip; auto. congruence.
      * apply mem_not in EY. apply (IH s0 (push_in y s1) (dn ++ [y]) X (Y ++ [y]) HW); auto. apply ext_push; auto.
Qed.
Lemma rread_ok : forall fuel, call_ok fuel (rread fuel gs).
Proof.
  induction fuel as [|fuel IH]; intros v s HB HD HF; [lia|]. cbn [rread].
  destruct (inputs_ok fuel (rread fuel gs) IH v (g_inp (nth v gs gate_none)) (see v s) (see v s) [] [] []) as (s' & X & Y & E & H); auto.
  - apply within_see; auto.
  - apply ext_refl.
  - cbn [see r_seen]. lia.
  - rewrite E. cbn [bind]. exists s', X, Y. auto.
Qed.

(** ** The roots *)
Record roots_read (rl : list lit) (s : rst) : Prop := {
  t_seen : forall u, In u (r_seen s) <-> In u (r_order s);
  t_reach : forall u, In u (r_order s) <-> reachable np gs rl u;
  t_sort : sorted_after [] (r_order s);
  t_ndy : NoDup (r_ins s);
  t_ins : forall y, In y (r_ins s) <-> defined gs y = false /\ exists u, reachable np gs rl u /\ In y (inputs_in u);
  t_ax : forall u, In u (r_order s) \/ In u (r_ins s) -> u < r_amount s;
  t_arl : forall l, In l rl -> lvar l < r_amount s;
  t_top : r_amount s = 0 \/ exists y, S y = r_amount s /\ ((exists l, In l rl /\ lvar l = y) \/ exists u, reachable np gs rl u /\ In y (inputs_in u));
  t_once : NoDup (r_order s) <-> forall a l b, rl = a ++ l :: b -> defined gs (lvar l) = true -> ~ reachable np gs a (lvar l)
}.
Lemma reach_def rl v : reachable np gs rl v -> defined gs v = true.
Proof. induction 1 as [l H1 H2 H3|u v H IH (C1 & _)]; auto. Qed.
Lemma reach_path rl u v : reachable np gs rl u -> path np gs u v -> reachable np gs rl v.
Proof. intros H P. revert H. induction P as [u v C|u v w C _ IH]; intros H; [eapply r_child; eauto|apply IH; eapply r_child; eauto]. Qed.
Lemma reach_mono rl rl' v : incl rl rl' -> reachable np gs rl v -> reachable np gs rl' v.
Proof. intros HI. induction 1 as [l H1 H2 H3|u v H IH C]; [apply r_root; auto|eapply r_child; eauto]. Qed.
Lemma reach_snoc rl l v : reachable np gs (rl ++ [l]) v <-> reachable np gs rl v \/ (defined gs (lvar l) = true /\ (v = lvar l \/ path np gs (lvar l) v)).
Proof.
  split.
  - induction 1 as [k H1 H2 H3|u v H IH C].
    + apply in_app_or in H1. destruct H1 as [H1|[<-|[]]]; [left; apply r_root; auto|right; auto].
    + destruct IH as [IH|(D & [->|IH])]; [left; eapply r_child; eauto|right; split; auto; right; apply p_one; auto|right; split; auto; right; apply (path_trans _ u); auto; apply p_one; auto].
  - intros [H|(D & H)]; [apply (reach_mono rl); auto; intros x Hx; apply in_or_app; auto|].
    assert (R : reachable np gs (rl ++ [l]) (lvar l)) by (apply r_root; auto; apply in_or_app; right; left; auto). destruct H as [->|H]; auto. eapply reach_path; eauto.
Qed.
Lemma snoc_split {A} (rl : list A) l a k b : rl ++ [l] = a ++ k :: b -> (exists b', b = b' ++ [l] /\ rl = a ++ k :: b') \/ (b = [] /\ rl = a /\ l = k).
Proof.
  intros E. destruct (exists_last (l := k :: b)) as (b' & x & Eb); [discriminate|]. rewrite Eb, app_assoc in E. apply app_inj_tail in E. destruct E as (E1 & E2). subst x.
  destruct b' as [|k' b']; cbn [app] in Eb; injection Eb as Ek Eb; [right; rewrite app_nil_r in E1; auto|left; exists b'; subst; auto].
Qed.
Lemma nodup_snoc (l : list var) v : NoDup (l ++ [v]) <-> NoDup l /\ ~ In v l.
Proof.
  split.
  - intros H. split; [apply NoDup_remove_1 in H; rewrite app_nil_r in H; auto|]. apply NoDup_remove_2 in H. rewrite app_nil_r in H. auto.
  - intros (H1 & H2). apply nd_app; auto; [constructor; auto; constructor|]. intros u Hu [->|[]]. auto.
Qed.
Lemma order_closed rl s u v : roots_read rl s -> In u (r_order s) -> path np gs u v -> In v (r_order s).
Proof. intros H Hu P. apply (t_reach _ _ H) in Hu. apply (t_reach _ _ H). eapply reach_path; eauto. Qed.
Lemma roots_ok : forall rl dn s, roots_read dn s -> exists s', rroots gs rl s = Ok s' /\ roots_read (dn ++ rl) s'.
Proof.
  induction rl as [|l rl IH]; intros dn s H; cbn [rroots]; [exists s; rewrite app_nil_r; auto|].
  assert (K : exists s2, (if defined gs (lvar l) then rread (S (length gs)) gs (lvar l) (raise (lvar l) s) else Ok (raise (lvar l) s)) = Ok s2 /\ roots_read (dn ++ [l]) s2).
  2:{ destruct K as (s2 & E & K). rewrite E. cbn [bind]. destruct (IH (dn ++ [l]) s2 K) as (s' & E' & H'). exists s'. rewrite <- app_assoc in H'. auto. }
  clear IH rl. destruct (defined gs (lvar l)) eqn:ED.
  - set (v := lvar l) in *. set (s1 := raise v s). assert (HB : before_call v s1).
    { split; cbn [s1 raise r_seen r_order r_ins].
      - intros g Hg. left. apply (t_seen _ _ H). auto.
      - intros c Hc. apply (t_seen _ _ H). auto.
      - intros c Hc. apply (t_seen _ _ H), (t_reach _ _ H) in Hc. apply (reach_def dn). auto.
      - intros y Hy. apply (t_ins _ _ H) in Hy. tauto. }
    destruct (rread_ok (S (length gs)) v s1 HB ED) as (s2 & X & Y & E2 & H2). { pose proof (unseen_max (v :: r_seen s1)). lia. }
    rewrite E2. exists (push_out v s2). split; auto.
    assert (RN : forall u, reachable np gs (dn ++ [l]) u <-> In u (r_order s) \/ u = v \/ path np gs v u) by (intros u; rewrite reach_snoc, (t_reach _ _ H); fold v; intuition).
    destruct H2. cbn [see s1 raise r_order r_ins r_seen r_amount] in *.
    assert (OR : forall u, In u (r_order s2 ++ [v]) <-> reachable np gs (dn ++ [l]) u).
    { assert (CL : forall u w, In u (r_order s2 ++ [v]) -> path np gs u w -> In w (r_order s2)).
      { intros u w Hu P. assert (CH : forall a b, In a (r_order s2 ++ [v]) -> child np gs a b -> In b (r_order s2)).
        { intros a b Ha C. apply in_app_or in Ha. destruct Ha as [Ha|[<-|[]]]; [|apply child_in in C; apply e_dnx0; tauto]. rewrite e_order0 in Ha |- *. apply in_app_or in Ha. destruct Ha as [Ha|Ha].
          - apply in_or_app. left. apply (order_closed dn s a); auto. apply p_one. auto.
          - apply in_split in Ha. destruct Ha as (x & z & Ex). pose proof (e_sort0 x a z b Ex C) as K. rewrite Ex. rewrite app_assoc. apply in_or_app. auto. }
        revert Hu. induction P as [a b C|a b c C _ IHP]; intros Hu; [eauto|]. apply IHP. apply in_or_app. left. eauto. }
      intros u. rewrite RN, in_app_iff, e_order0, in_app_iff. cbn [In]. split.
      - intros [[K|K]|[<-|[]]]; auto. right. right. apply e_new0. auto.
      - intros [K|[->|K]]; auto. left. apply in_app_iff. rewrite <- e_order0. apply (CL v u); auto. apply in_or_app. right. left. auto. }
    split; cbn [push_out r_order r_ins r_seen r_amount].
    + intros u. rewrite e_seen0, e_order0, !in_app_iff. cbn [In]. rewrite (t_seen _ _ H). intuition.
    + exact OR.
    + rewrite e_order0. apply sorted_app; [apply sorted_app; [exact (t_sort _ _ H)|exact e_sort0]|]. apply sorted_one. intros c Hc. apply child_in in Hc. cbn [app]. rewrite <- e_order0. apply e_dnx0; tauto.
    + rewrite e_ins0. apply nd_app; auto; [apply (t_ndy _ _ H)|]. intros u Hu K. apply e_newy0 in K. tauto.
    + intros y. split.
      * rewrite e_ins0. intros Hy. apply in_app_or in Hy. destruct Hy as [Hy|Hy].
        -- apply (t_ins _ _ H) in Hy. destruct Hy as (A & u & B & C). split; auto. exists u. split; auto. apply reach_snoc. auto.
        -- destruct (e_newy0 y Hy) as (_ & A & u & B & C). split; auto. exists u. split; auto. apply RN. destruct B as [->|B]; auto. right. right. apply e_new0. auto.
      * intros (A & u & B & C). apply OR in B. apply in_app_or in B. destruct B as [B|[<-|[]]]; [|apply e_dny0; auto]. rewrite e_order0 in B. apply in_app_or in B. destruct B as [B|B]; [|eapply e_ally0; eauto].
        rewrite e_ins0. apply in_or_app. left. apply (t_ins _ _ H). split; auto. exists u. split; auto. apply (t_reach _ _ H). auto.
    + intros u Hu. assert (A0 : forall w, w < r_amount s -> w < r_amount s2) by (intros w Hw; lia). rewrite e_order0, e_ins0, !in_app_iff in Hu. cbn [In] in Hu.
      destruct Hu as [[[Hu|Hu]|[<-|[]]]|[Hu|Hu]]; [apply A0, (t_ax _ _ H); auto|auto|lia|apply A0, (t_ax _ _ H); auto|auto].
    + intros k Hk. apply in_app_or in Hk. destruct Hk as [Hk|[<-|[]]]; [pose proof (t_arl _ _ H k Hk); lia|fold v; lia].
    + destruct e_top0 as [E|(y & Ey & u & Hu & C)].
      * right. rewrite E. destruct (Nat.max_spec (r_amount s) (S v)) as [(L & EM)|(L & EM)]; rewrite EM; [exists v; split; auto; left; exists l; split; auto; apply in_or_app; right; left; auto|].
        destruct (t_top _ _ H) as [E0|(y & Ey & Q)]; [lia|]. exists y. split; auto. destruct Q as [(k & Hk & E3)|(u & Hu & C)]; [left; exists k; split; auto; apply in_or_app; auto|right; exists u; split; auto; apply reach_snoc; auto].
      * right. exists y. split; auto. right. exists u. split; auto. apply RN. destruct Hu as [->|Hu]; auto. right. right. apply e_new0. auto.
    + rewrite nodup_snoc. assert (N1 : NoDup (r_order s2) <-> NoDup (r_order s)).
      { rewrite e_order0. split; [intros Q; clear - Q; induction (r_order s) as [|x z IHz]; [constructor|]; inversion Q; subst; constructor; [intros K; apply H1; apply in_or_app; auto|auto]|].
        intros Q. apply nd_app; auto. intros u Hu K. apply e_new0 in K. apply (proj1 K). right. apply (t_seen _ _ H). auto. }
      assert (N2 : In v (r_order s2) <-> In v (r_order s)). { rewrite e_order0, in_app_iff. split; auto. intros [K|K]; auto. apply e_new0 in K. destruct (proj1 K). left. auto. }
      rewrite N1, N2, (t_once _ _ H), (t_reach _ _ H). split.
      * intros (A & B) a k b E D. apply snoc_split in E. destruct E as [(b' & Eb & Ea)|(Eb & Ea & Ek)]; [apply (A a k b' Ea D)|]. subst a k. auto.
      * intros A. split; [intros a k b E D; apply (A a k (b ++ [l])); [rewrite E, <- app_assoc; auto|auto]|]. apply (A dn l []); auto.
  - exists (raise (lvar l) s). split; auto. assert (RN : forall u, reachable np gs (dn ++ [l]) u <-> reachable np gs dn u) by (intros u; rewrite reach_snoc; intuition congruence).
    destruct H. split; cbn [raise r_order r_ins r_seen r_amount]; auto.
    + intros u. rewrite RN. auto.
    + intros y. rewrite t_ins0. split; intros (A & u & B & C); split; auto; exists u; split; auto; apply RN; auto.
    + intros u Hu. apply t_ax0 in Hu. lia.
    + intros k Hk. apply in_app_or in Hk. destruct Hk as [Hk|[<-|[]]]; [specialize (t_arl0 k Hk); lia|lia].
    + right. destruct (Nat.max_spec (r_amount s) (S (lvar l))) as [(L & EM)|(L & EM)]; rewrite EM; [exists (lvar l); split; auto; left; exists l; split; auto; apply in_or_app; right; left; auto|].
      destruct t_top0 as [E0|(y & Ey & Q)]; [lia|]. exists y. split; auto. destruct Q as [(k & Hk & E3)|(u & Hu & C)]; [left; exists k; split; auto; apply in_or_app; auto|right; exists u; split; auto; apply RN; auto].
    + rewrite t_once0. split.
      * intros A a k b E D. apply snoc_split in E. destruct E as [(b' & Eb & Ea)|(Eb & Ea & Ek)]; [apply (A a k b' Ea D)|]. subst k. congruence.
      * intros A a k b E D. apply (A a k (b ++ [l])); auto. rewrite E, <- app_assoc. auto.
Qed.
Lemma roots_none : roots_read [] rnew.
Proof.
  split; cbn [rnew r_seen r_order r_ins r_amount].
  - tauto.
  - intros u. split; [intros []|]. intros H. induction H as [l []|u v _ []].
  - intros a u b c E. destruct a; discriminate.
  - constructor.
  - intros y. split; [intros []|]. intros (_ & u & H & _). induction H as [l []|u v _ IH]; auto.
  - intros u [[]|[]].
  - intros l [].
  - auto.
  - split; [|constructor]. intros _ a l b E. destruct a; discriminate.
Qed.
Lemma rec_ok rl : exists s, rroots gs rl rnew = Ok s /\ roots_read rl s.
Proof. destruct (roots_ok rl [] rnew roots_none) as (s & E & H). exists s. auto. Qed.
End R.
