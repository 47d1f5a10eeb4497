(** Lemmas for C60: weakly connected components. *)
From Coq Require Import List Arith Bool Lia Relations Permutation.
Import ListNotations.
From Verif Require Import Base Outcome GraphModel GraphSpec BetweenWalks BetweenBfs.

Section Wcc.
Variable g : graph.
Notation n := (g_n g).
Notation nb := (wccNbrs g).
Hypothesis nb_range : forall u v, u < n -> In v (nb u) -> v < n.
Hypothesis nb_sym : forall u v, u < n -> In v (nb u) -> In u (nb v).
(** No node is alone. *)
Hypothesis nb_other : forall u, u < n -> exists v, In v (nb u) /\ v <> u.

Definition deg (v : nat) : nat := length (g_E g v) + length (g_rE g v).
Definition withId (id : nat -> nat) (k : nat) : list nat := filter (fun u => id u =? k) (seq 0 n).
Definition marked (id : nat -> nat) : list nat := filter (fun u => 0 <? id u) (seq 0 n).

Lemma withId_In id k u : In u (withId id k) <-> u < n /\ id u = k.
Proof. unfold withId. rewrite filter_In, in_seq, Nat.eqb_eq. intuition lia. Qed.
Lemma marked_In id u : In u (marked id) <-> u < n /\ 0 < id u.
Proof. unfold marked. rewrite filter_In, in_seq, Nat.ltb_lt. intuition lia. Qed.
Lemma withId_nodup id k : NoDup (withId id k).
Proof. apply NoDup_filter, seq_NoDup. Qed.

(** Components [1 .. c-1] are complete. *)
Record comps (s : wst) (c : nat) : Prop := mkComps {
  k_lt : forall u, u < n -> x_id s u < c;
  k_closed : forall u w, u < n -> In w (nb u) -> 0 < x_id s u -> x_id s w = x_id s u;
  k_conn : forall u w, u < n -> w < n -> 0 < x_id s u -> x_id s u = x_id s w -> connected nb u w;
  k_inh : forall k, 0 < k -> k < c -> exists u, u < n /\ x_id s u = k;
  k_nodes : forall k, 0 < k -> x_nodes s k = length (withId (x_id s) k);
  k_zero : x_nodes s 0 = 0 /\ x_edges s 0 = 0;
  k_edges : forall k, 0 < k -> x_edges s k = list_sum (map deg (withId (x_id s) k));
  k_two : 2 * (c - 1) <= length (marked (x_id s));
  k_pos : 0 < c
}.

(** During the search of component [c] from node [i]; [ord] are the nodes found. *)
Record part (s0 s : wst) (c i : nat) (ord : list nat) : Prop := mkPart {
  p_nodup : NoDup ord;
  p_range : forall u, In u ord -> u < n /\ x_id s0 u = 0 /\ connected nb i u;
  p_id : forall u, x_id s u = if memb u ord then c else x_id s0 u;
  p_nodes : forall k, x_nodes s k = if k =? c then length ord else x_nodes s0 k;
  p_edges : forall k, x_edges s k = if k =? c then list_sum (map deg ord) else x_edges s0 k
}.

Lemma mark_part s0 s c i ord w : c < n -> part s0 s c i ord ->
  w < n -> x_id s0 w = 0 -> connected nb i w -> ~ In w ord ->
  exists s', wccMark g c s w = Ok s' /\ part s0 s' c i (ord ++ [w]).
Proof.
  intros Hc P Hw H0 Hcon Hn. unfold wccMark. apply Nat.ltb_lt in Hw. apply Nat.ltb_lt in Hc. rewrite Hw, Hc. simpl.
  apply Nat.ltb_lt in Hw. eexists. split; [reflexivity|]. constructor; simpl.
  - apply NoDup_app'; [apply (p_nodup _ _ _ _ _ P)|constructor; [intros []|constructor]|].
    intros x Hx [<-|[]]. contradiction.
  - intros u Hu. apply in_app_or in Hu. destruct Hu as [Hu|[<-|[]]]; [apply (p_range _ _ _ _ _ P u Hu)|auto].
  - intros u. unfold upd. unfold memb. rewrite existsb_app. simpl. rewrite orb_false_r. fold (memb u ord).
    destruct (u =? w); [rewrite orb_true_r; auto|]. rewrite orb_false_r. apply (p_id _ _ _ _ _ P).
  - intros k. unfold upd. rewrite !(p_nodes _ _ _ _ _ P), Nat.eqb_refl, app_length. simpl. destruct (k =? c); [lia|auto].
  - intros k. unfold upd. rewrite !(p_edges _ _ _ _ _ P), Nat.eqb_refl, map_app, list_sum_app. simpl.
    assert (Ed : deg w = length (g_E g w) + length (g_rE g w)) by reflexivity. destruct (k =? c); [lia|auto].
Qed.

Lemma visit_part s0 c i ns : 0 < c -> c < n -> forall s ord q, part s0 s c i ord ->
  (forall w, In w ns -> w < n /\ x_id s0 w = 0 /\ connected nb i w) ->
  exists s' new, wccVisit g c s q ns = Ok (s', q ++ new) /\ part s0 s' c i (ord ++ new) /\
    forall w, In w ns -> In w (ord ++ new).
Proof.
  intros Hc Hcn. induction ns as [|w r IH]; intros s ord q P Hr; simpl.
  - exists s, []. rewrite !app_nil_r. split; auto. split; [auto|intros w []].
  - destruct (Hr w (or_introl eq_refl)) as (Hw & H0 & Hcon). apply Nat.ltb_lt in Hw. rewrite Hw. apply Nat.ltb_lt in Hw.
    rewrite (p_id _ _ _ _ _ P w). destruct (memb w ord) eqn:Em.
    + destruct (c =? 0) eqn:Ec; [apply Nat.eqb_eq in Ec; lia|].
      destruct (IH s ord q P) as (s' & new & E & P' & Hin); [intros x Hx; apply Hr; right; auto|].
      exists s', new. split; auto. split; auto. intros x [<-|Hx]; auto. apply memb_In in Em. apply in_or_app. auto.
    + rewrite H0. simpl. apply memb_false in Em.
      destruct (mark_part s0 s c i ord w Hcn P Hw H0 Hcon Em) as (s1 & E1 & P1). rewrite E1. simpl.
      destruct (IH s1 (ord ++ [w]) (q ++ [w]) P1) as (s' & new & E & P' & Hin); [intros x Hx; apply Hr; right; auto|].
      exists s', (w :: new). rewrite <- !app_assoc in *. simpl in *. split; auto. split; auto.
      intros x [<-|Hx]; auto. rewrite in_app_iff. right. left. auto.
Qed.

(** The neighbours of a node of the new component are not in an older one. *)
Lemma nb_fresh s0 c i u w : comps s0 c -> u < n -> x_id s0 u = 0 -> connected nb i u -> In w (nb u) ->
  w < n /\ x_id s0 w = 0 /\ connected nb i w.
Proof.
  intros K Hu H0 Hcon Hw. assert (Hwn : w < n) by (apply (nb_range u w); auto). split; auto. split.
  - destruct (x_id s0 w) eqn:E; auto. exfalso.
    assert (Hs : In u (nb w)) by (apply nb_sym; auto). pose proof (k_closed _ _ K w u Hwn Hs ltac:(lia)). lia.
  - apply rt_trans with u; auto. apply rt_step. auto.
Qed.

Lemma loop_part s0 c i : comps s0 c -> c < n -> forall fuel s pop q, part s0 s c i (pop ++ q) ->
  (forall u w, In u pop -> In w (nb u) -> In w (pop ++ q)) -> n < fuel + length pop ->
  exists s' ord, wccLoop fuel g c s q = Ok s' /\ part s0 s' c i ord /\ incl (pop ++ q) ord /\
    (forall u w, In u ord -> In w (nb u) -> In w ord).
Proof.
  intros K Hcn. pose proof (k_pos _ _ K) as Hc0. induction fuel as [|f IH]; intros s pop q P Hcl Hf.
  - exfalso. assert (Hlen : length (pop ++ q) <= n).
    { rewrite <- (seq_length n 0). apply NoDup_incl_length; [apply (p_nodup _ _ _ _ _ P)|].
      intros x Hx. apply in_seq. destruct (p_range _ _ _ _ _ P x Hx). lia. }
    rewrite app_length in Hlen. simpl in Hf. lia.
  - simpl. destruct q as [|v q'].
    + exists s, (pop ++ []). split; auto. split; auto. split; [apply incl_refl|].
      rewrite app_nil_r in *. auto.
    + assert (Hv : In v (pop ++ v :: q')) by (apply in_or_app; right; left; auto).
      destruct (p_range _ _ _ _ _ P v Hv) as (Hvn & Hv0 & Hvc).
      destruct (visit_part s0 c i (nb v) Hc0 Hcn s (pop ++ v :: q') q' P) as (s' & new & E & P' & Hin).
      { intros w Hw. apply (nb_fresh s0 c i v w); auto. }
      rewrite E. simpl.
      assert (Eord : (pop ++ v :: q') ++ new = (pop ++ [v]) ++ (q' ++ new)) by (rewrite <- !app_assoc; reflexivity).
      destruct (IH s' (pop ++ [v]) (q' ++ new)) as (s2 & ord & E2 & P2 & Hi & Hcl2).
      * rewrite <- Eord. auto.
      * intros u w Hu Hw. rewrite <- Eord. apply in_app_or in Hu. destruct Hu as [Hu|[<-|[]]].
        -- apply in_or_app. left. apply (Hcl u w); auto.
        -- apply Hin. auto.
      * rewrite app_length. simpl. lia.
      * exists s2, ord. split; auto. split; auto. split; auto.
        intros x Hx. apply Hi. rewrite <- Eord. apply in_or_app. auto.
Qed.

(** One component. *)
Lemma comp_step s0 c i : comps s0 c -> i < n -> x_id s0 i = 0 ->
  exists s1 s2, wccMark g c s0 i = Ok s1 /\ wccLoop (S (S n)) g c s1 [i] = Ok s2 /\ comps s2 (S c) /\
    (forall u, u < n -> 0 < x_id s0 u -> x_id s2 u = x_id s0 u) /\ x_id s2 i = c /\
    (forall k, k <> c -> x_nodes s2 k = x_nodes s0 k).
Proof.
  intros K Hi H0. pose proof (k_pos _ _ K) as Hc0.
  destruct (nb_other i Hi) as (j & Hj & Hji).
  assert (Hjf : j < n /\ x_id s0 j = 0 /\ connected nb i j) by (apply (nb_fresh s0 c i i j); auto; apply rt_refl).
  assert (Hcn : c < n).
  { assert (H : length (marked (x_id s0)) + 2 <= n); [|pose proof (k_two _ _ K); lia].
    replace (length (marked (x_id s0)) + 2) with (length (marked (x_id s0) ++ [i; j])) by (rewrite app_length; auto).
    rewrite <- (seq_length n 0). apply NoDup_incl_length.
    - apply NoDup_app'.
      + apply NoDup_filter, seq_NoDup.
      + constructor; [intros [E|[]]; auto|constructor; [intros []|constructor]].
      + intros x Hx. apply marked_In in Hx. intros [<-|[<-|[]]]; lia.
    - intros x Hx. apply in_seq. apply in_app_or in Hx. destruct Hx as [Hx|[<-|[<-|[]]]]; [apply marked_In in Hx; lia|lia|lia]. }
  assert (P0 : part s0 s0 c i []).
  { constructor; simpl; auto.
    - constructor.
    - intros u [].
    - intros k. destruct (k =? c) eqn:E; auto. apply Nat.eqb_eq in E. subst k. rewrite (k_nodes _ _ K c Hc0).
      assert (E0 : withId (x_id s0) c = []); [|rewrite E0; auto].
      destruct (withId (x_id s0) c) as [|u l] eqn:E; auto. exfalso.
      assert (Hu : In u (withId (x_id s0) c)) by (rewrite E; left; auto). apply withId_In in Hu. destruct Hu as (Hu & Eu).
      pose proof (k_lt _ _ K u Hu). lia.
    - intros k. destruct (k =? c) eqn:E; auto. apply Nat.eqb_eq in E. subst k. rewrite (k_edges _ _ K c Hc0).
      assert (E0 : withId (x_id s0) c = []); [|rewrite E0; auto].
      destruct (withId (x_id s0) c) as [|u l] eqn:E; auto. exfalso.
      assert (Hu : In u (withId (x_id s0) c)) by (rewrite E; left; auto). apply withId_In in Hu. destruct Hu as (Hu & Eu).
      pose proof (k_lt _ _ K u Hu). lia. }
  destruct (mark_part s0 s0 c i [] i Hcn P0 Hi H0) as (s1 & E1 & P1); [apply rt_refl|intros []|].
  simpl in P1.
  destruct (loop_part s0 c i K Hcn (S (S n)) s1 [] [i] P1) as (s2 & ord & E2 & P2 & Hinc & Hcl).
  { intros u w []. }
  { simpl. lia. }
  exists s1, s2. split; auto. split; auto.
  assert (Hio : In i ord) by (apply Hinc; left; auto).
  assert (Hjo : In j ord) by (apply (Hcl i j); auto).
  assert (Hold : forall u, 0 < x_id s0 u -> x_id s2 u = x_id s0 u).
  { intros u Hp. rewrite (p_id _ _ _ _ _ P2). destruct (memb u ord) eqn:Em; auto. apply memb_In in Em.
    destruct (p_range _ _ _ _ _ P2 u Em) as (_ & Hz & _). lia. }
  assert (Hnew : forall u, In u ord -> x_id s2 u = c).
  { intros u Hu. rewrite (p_id _ _ _ _ _ P2). apply memb_In in Hu. rewrite Hu. auto. }
  assert (Hcases : forall u, (In u ord /\ x_id s2 u = c) \/ (~ In u ord /\ x_id s2 u = x_id s0 u)).
  { intros u. destruct (in_dec Nat.eq_dec u ord) as [Hu|Hu]; [left; auto|right]. split; auto.
    rewrite (p_id _ _ _ _ _ P2). replace (memb u ord) with false by (symmetry; apply memb_false; auto). auto. }
  assert (Hwith_c : Permutation (withId (x_id s2) c) ord).
  { apply NoDup_Permutation; [apply withId_nodup|apply (p_nodup _ _ _ _ _ P2)|]. intros u. rewrite withId_In. split.
    - intros (Hu & Eu). destruct (Hcases u) as [(H & _)|(_ & H)]; auto. pose proof (k_lt _ _ K u Hu). lia.
    - intros Hu. split; [apply (p_range _ _ _ _ _ P2 u Hu)|auto]. }
  assert (Hwith_k : forall k, 0 < k -> k <> c -> withId (x_id s2) k = withId (x_id s0) k).
  { intros k Hk Hkc. unfold withId. apply filter_ext_in. intros u _. destruct (Hcases u) as [(Hu & ->)|(_ & ->)]; auto.
    destruct (p_range _ _ _ _ _ P2 u Hu) as (_ & -> & _). apply Bool.eq_true_iff_eq. rewrite !Nat.eqb_eq. lia. }
  split; [|split; [intros u _; apply Hold|split; [apply Hnew; auto|]]].
  2:{ intros k Hk. rewrite (p_nodes _ _ _ _ _ P2). apply Nat.eqb_neq in Hk. rewrite Hk. auto. }
  assert (Hconn_sym : forall u, In u ord -> connected nb u i).
  { intros u Hu. destruct (p_range _ _ _ _ _ P2 u Hu) as (_ & _ & Hcon).
    assert (Hgen : forall x y, connected nb x y -> x < n -> connected nb y x /\ y < n).
    { clear - nb_range nb_sym. intros x y H. induction H as [x y H|x|x y z H1 IH1 H2 IH2]; intros Hx.
      - split; [apply rt_step; apply nb_sym; auto|apply (nb_range x y); auto].
      - split; [apply rt_refl|auto].
      - destruct (IH1 Hx) as (Ha & Hb). destruct (IH2 Hb) as (Hc & Hd). split; auto. apply rt_trans with y; auto. }
    apply (Hgen i u Hcon Hi). }
  constructor.
  - intros u Hu. destruct (Hcases u) as [(_ & ->)|(_ & ->)]; [lia|]. pose proof (k_lt _ _ K u Hu). lia.
  - intros u w Hu Hw Hp. destruct (Hcases u) as [(Huo & Eu)|(Huo & Eu)].
    + rewrite Eu. apply Hnew. apply (Hcl u w); auto.
    + rewrite Eu in *. pose proof (k_closed _ _ K u w Hu Hw Hp) as Ew. rewrite <- Ew. apply Hold. lia.
  - intros u w Hu Hw Hp Huw. destruct (Hcases u) as [(Huo & Eu)|(Huo & Eu)]; destruct (Hcases w) as [(Hwo & Ew)|(Hwo & Ew)].
    + apply rt_trans with i; [apply Hconn_sym; auto|]. apply (p_range _ _ _ _ _ P2 w Hwo).
    + exfalso. pose proof (k_lt _ _ K w Hw). lia.
    + exfalso. pose proof (k_lt _ _ K u Hu). lia.
    + apply (k_conn _ _ K); auto; lia.
  - intros k Hk Hkc. destruct (Nat.eq_dec k c) as [->|Hne]; [exists i; auto|].
    destruct (k_inh _ _ K k Hk ltac:(lia)) as (u & Hu & Eu). exists u. split; auto. rewrite Hold; lia.
  - intros k Hk. rewrite (p_nodes _ _ _ _ _ P2). destruct (k =? c) eqn:E.
    + apply Nat.eqb_eq in E. subst k. symmetry. apply Permutation_length. auto.
    + apply Nat.eqb_neq in E. rewrite (Hwith_k k Hk E). apply (k_nodes _ _ K k Hk).
  - rewrite (p_nodes _ _ _ _ _ P2), (p_edges _ _ _ _ _ P2). destruct (0 =? c) eqn:E; [apply Nat.eqb_eq in E; lia|]. apply (k_zero _ _ K).
  - intros k Hk. rewrite (p_edges _ _ _ _ _ P2). destruct (k =? c) eqn:E.
    + apply Nat.eqb_eq in E. subst k. symmetry. clear - Hwith_c. induction Hwith_c; simpl; auto; lia.
    + apply Nat.eqb_neq in E. rewrite (Hwith_k k Hk E). apply (k_edges _ _ K k Hk).
  - assert (H : length (marked (x_id s0) ++ [i; j]) <= length (marked (x_id s2))).
    { apply NoDup_incl_length.
      - apply NoDup_app'.
        + apply NoDup_filter, seq_NoDup.
        + constructor; [intros [E|[]]; auto|constructor; [intros []|constructor]].
        + intros x Hx. apply marked_In in Hx. intros [<-|[<-|[]]]; lia.
      - intros x Hx. apply marked_In. apply in_app_or in Hx. destruct Hx as [Hx|[<-|[<-|[]]]].
        + apply marked_In in Hx. rewrite Hold; tauto.
        + rewrite Hnew; auto.
        + rewrite Hnew; auto. split; [tauto|lia]. }
    rewrite app_length in H. simpl in H. pose proof (k_two _ _ K). lia.
  - lia.
Qed.

(** The loop over the nodes. *)
Lemma nodesLoop_spec is : forall s c largest, comps s c -> largest < c ->
  (forall k, 0 < k -> k < c -> x_nodes s k <= x_nodes s largest) -> (1 < c -> 0 < largest) ->
  (forall i, In i is -> i < n) ->
  exists s' c' largest', wccNodesLoop g is s c largest = Ok (s', c', largest') /\ comps s' c' /\ largest' < c' /\
    (forall k, 0 < k -> k < c' -> x_nodes s' k <= x_nodes s' largest') /\ (1 < c' -> 0 < largest') /\
    (forall i, In i is -> 0 < x_id s' i) /\ (forall u, u < n -> 0 < x_id s u -> x_id s' u = x_id s u).
Proof.
  induction is as [|i r IH]; intros s c largest K Hl Hmax Hpos Hr; cbn [wccNodesLoop].
  - exists s, c, largest. repeat (split; auto). intros i [].
  - assert (Hi : i < n) by (apply Hr; left; auto).
    destruct (Nat.ltb_spec 0 (x_id s i)) as [H0|H0].
    + destruct (IH s c largest K Hl Hmax Hpos) as (s' & c' & l' & E & K' & A & B & C & D & F); [intros x Hx; apply Hr; right; auto|].
      exists s', c', l'. split; auto. split; auto. split; auto. split; auto. split; auto. split; auto.
      intros x [<-|Hx]; auto. rewrite F; auto.
    + destruct (comp_step s c i K Hi) as (s1 & s2 & E1 & E2 & K2 & Hold & Hid & Hn); [lia|].
      rewrite E1. cbn [bind]. rewrite E2. cbn [bind].
      pose proof (k_pos _ _ K) as Hc0.
      destruct (IH s2 (S c) (if x_nodes s2 largest <? x_nodes s2 c then c else largest) K2) as (s' & c' & l' & E & K' & A & B & C & D & F).
      * destruct (x_nodes s2 largest <? x_nodes s2 c); lia.
      * intros k Hk Hkc. destruct (Nat.ltb_spec (x_nodes s2 largest) (x_nodes s2 c)) as [Hlt|Hge].
        -- destruct (Nat.eq_dec k c) as [->|Hne]; auto. rewrite (Hn k Hne). specialize (Hmax k Hk ltac:(lia)).
           rewrite (Hn largest) in Hlt by lia. lia.
        -- destruct (Nat.eq_dec k c) as [->|Hne]; auto. rewrite (Hn k Hne), (Hn largest) by lia. apply Hmax; lia.
      * intros _. destruct (Nat.ltb_spec (x_nodes s2 largest) (x_nodes s2 c)) as [Hlt|Hge]; [lia|].
        destruct (Nat.eq_dec c 1) as [->|Hne]; [|apply Hpos; lia].
        exfalso. assert (Hz : largest = 0) by lia. subst largest.
        rewrite (proj1 (k_zero _ _ K2)) in Hge. rewrite (k_nodes _ _ K2 1) in Hge by lia.
        assert (Hin : In i (withId (x_id s2) 1)) by (apply withId_In; auto).
        destruct (withId (x_id s2) 1); [destruct Hin|simpl in Hge; lia].
      * intros x Hx. apply Hr. right. auto.
      * exists s', c', l'. split; auto. split; auto. split; auto. split; auto. split; auto. split.
        -- intros x [<-|Hx]; auto. rewrite F; [lia|auto|lia].
        -- intros u Hu Hp. rewrite F; [apply Hold; auto|auto|]. rewrite Hold; auto.
Qed.

Lemma computeWCC_spec : 0 < g_m g -> g_undir g = true -> 0 < n -> exists w,
  computeWCC g = Ok (mkGraph (g_max g) (g_keys g) (g_E g) (g_rE g) (g_loop g) (g_n g) (g_m g) (g_selfm g) (g_sorted g) (g_undir g) (Some w)) /\
  (forall u, u < n -> 1 <= w_id w u <= w_count w) /\
  (forall k, 1 <= k <= w_count w -> exists u, u < n /\ w_id w u = k) /\
  (forall u v, u < n -> v < n -> (w_id w u = w_id w v <-> connected nb u v)) /\
  (forall k, 1 <= k <= w_count w -> w_nodes w k = length (withId (w_id w) k) /\ w_edges w k = list_sum (map deg (withId (w_id w) k))) /\
  1 <= w_largest w <= w_count w /\
  (forall k, 1 <= k <= w_count w -> w_nodes w k <= w_nodes w (w_largest w)).
Proof.
  intros Hm Hu Hn. unfold computeWCC. destruct (Nat.ltb_spec (g_m g) 1) as [|_]; [lia|].
  set (s0 := mkWst (fun _ => 0) (fun _ => 0) (fun _ => 0)).
  assert (K0 : comps s0 1).
  { assert (Hnil : forall k, 0 < k -> withId (x_id s0) k = []).
    { intros k Hk. destruct (withId (x_id s0) k) as [|u l] eqn:E; auto. exfalso.
      assert (H : In u (withId (x_id s0) k)) by (rewrite E; left; auto). apply withId_In in H. simpl in H. lia. }
    constructor; try (simpl; auto; lia).
    - intros k Hk. rewrite (Hnil k Hk). reflexivity.
    - intros k Hk. rewrite (Hnil k Hk). reflexivity. }
  destruct (nodesLoop_spec (seq 0 n) s0 1 0 K0) as (s & c & l & E & K & A & B & C & D & _); try lia.
  { intros i Hi. apply in_seq in Hi. lia. }
  rewrite E. cbn [bind]. rewrite Hu.
  exists (mkWcc (x_id s) (x_nodes s) (x_edges s) l (pred c)). split; [reflexivity|]. simpl.
  assert (Hmk : forall u, u < n -> 0 < x_id s u) by (intros u Hu2; apply D; apply in_seq; lia).
  assert (Hc1 : 1 < c). { pose proof (k_lt _ _ K 0 Hn). specialize (Hmk 0 Hn). lia. }
  split; [|split; [|split; [|split; [|split]]]].
  - intros u Hu2. pose proof (k_lt _ _ K u Hu2). specialize (Hmk u Hu2). lia.
  - intros k Hk. apply (k_inh _ _ K); lia.
  - intros u v Hu2 Hv. split.
    + intros Euv. apply (k_conn _ _ K); auto.
    + intros Hcon. assert (Hgen : forall x y, connected nb x y -> x < n -> y < n /\ x_id s y = x_id s x).
      { clear - nb_range K Hmk. intros x y H. induction H as [x y H|x|x y z H1 IH1 H2 IH2]; intros Hx.
        - split; [apply (nb_range x y); auto|]. apply (k_closed _ _ K); auto.
        - auto.
        - destruct (IH1 Hx) as (Ha & Hb). destruct (IH2 Ha) as (Hc & Hd). split; auto. congruence. }
      symmetry. apply (Hgen u v Hcon Hu2).
  - intros k Hk. split; [apply (k_nodes _ _ K); lia|apply (k_edges _ _ K); lia].
  - lia.
  - intros k Hk. apply B; lia.
Qed.

End Wcc.
