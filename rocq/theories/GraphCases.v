(** Concrete cases for C60-C62: examples that meet the hypotheses and witnesses of the refutations. *)
From Coq Require Import List Arith Bool Lia QArith Relations Permutation.
Import ListNotations.
From Verif Require Import Base Outcome GraphModel GraphSpec BetweenWalks BetweenDep BetweenProofs GraphBuild GraphWcc GraphProofs GraphUse.
Open Scope nat_scope.

Definition pos (x : nat) : lit := 2 * x.

(** The clauses (x0 x1), (x1 x2 ~x3) and a deleted one (x4 x5). *)
Definition gcls : list (bool * clause) := [(false, [pos 0; pos 1]); (true, [pos 4; pos 5]); (false, [pos 1; pos 2; S (pos 3)])].

Lemma gcls_usable : usable 6 gcls.
Proof.
  intros c H. cbv [gcls In] in H.
  destruct H as [H|[H|[H|[]]]]; try discriminate H; injection H as <-; (split; [discriminate|]); intros l Hl; cbv in Hl;
    repeat (destruct Hl as [<-|Hl]); try destruct Hl; vm_compute; lia.
Qed.

Lemma gcls_plain : plain gcls.
Proof.
  intros c H. cbv [gcls In] in H.
  destruct H as [H|[H|[H|[]]]]; try discriminate H; injection H as <-; cbv; repeat constructor; simpl; lia.
Qed.

Lemma gcls_linked : linked gcls 3 /\ ~ linked gcls 4.
Proof.
  split.
  - exists [pos 1; pos 2; S (pos 3)]. split; [right; right; left; auto|]. split; [simpl; lia|]. vm_compute. auto.
  - intros (c & H & _ & Hx). cbv [gcls In] in H.
    destruct H as [H|[H|[H|[]]]]; try discriminate H; injection H as <-; cbv in Hx; lia.
Qed.

Lemma gcls_together : together gcls 2 3.
Proof.
  exists [pos 1; pos 2; S (pos 3)], 1, 2. split; [right; right; left; auto|]. split; [lia|]. split; reflexivity.
Qed.

Definition gshow (r : out graph) : option (list nat * list (list nat) * nat) :=
  match r with Ok g => Some (g_keys g, map (g_E g) (seq 0 (g_n g)), g_m g) | Err _ => None end.

(** The graph: nodes 0..3 are x1, x0, x2, x3 when the right argument is evaluated first. *)
Lemma gcls_graph : gshow (init_graph true false 6 gcls) = Some ([1; 0; 2; 3], [[1; 2; 3]; [0]; [0; 3]; [0; 2]], 8) /\
  gshow (init_graph false false 6 gcls) = Some ([0; 1; 2; 3], [[1]; [0; 2; 3]; [1; 3]; [1; 2]], 8).
Proof. split; vm_compute; reflexivity. Qed.

(** The centralities: x1 lies on every path from x0. *)
Lemma gcls_centrality : exists g, init_graph false false 6 gcls = Ok g /\
  betweennessCentrality g FULL 1 [] = Ok [Some (0 # 4); Some (4 # 4); Some (0 # 4); Some (0 # 4)].
Proof. eexists. split; [reflexivity|]. vm_compute. reflexivity. Qed.

(** The default options (CLIOptions.cc:75-80). *)
Definition vdefault : vopt := mkVopt false 1 true 1 0.
(** A new VSIDSC with the activities of [nvars] variables. *)
Definition vfresh (nvars : nat) : vc := mkVc (emptyGraph 1) [] (repeat (Some 0%Q) nvars) false 0 1.

Lemma gcls_reduce : exists v, process_reduce vdefault false [] 6 gcls (vfresh 6) = Ok v /\
  nth_error (c_act v) 1 = Some (Some (4 # 4)) /\ nth_error (c_act v) 4 = Some (Some 0%Q).
Proof. eexists. split; [vm_compute; reflexivity|]. split; reflexivity. Qed.

(** ** Largest component: the sources are taken from other components *)
Definition two (a b : nat) : bool * clause := (false, [pos a; pos b]).
Definition lwcls : list (bool * clause) := [two 0 1; two 2 3; two 4 5; two 6 7; two 7 8; two 8 9].

Lemma lw_cases (c : clause) : In (false, c) lwcls -> exists a b, c = [pos a; pos b] /\ a < 10 /\ b < 10 /\ a <> b.
Proof.
  cbv [lwcls In two]. intros H. repeat (destruct H as [H|H]; [injection H as <-; eexists; eexists; split; [reflexivity|lia]|]). destruct H.
Qed.

Lemma lvar_pos a : lvar (pos a) = a.
Proof. unfold lvar, pos. rewrite Nat.div2_double. auto. Qed.

Lemma two_usable cls n : (forall c, In (false, c) cls -> exists a b, c = [pos a; pos b] /\ a < n /\ b < n /\ a <> b) -> usable n cls /\ plain cls.
Proof.
  intros H. split; intros c Hc; destruct (H c Hc) as (a & b & -> & Ha & Hb & Hne).
  - split; [discriminate|]. intros l [<-|[<-|[]]]; rewrite lvar_pos; auto.
  - simpl. rewrite !lvar_pos. constructor; [intros [E|[]]; congruence|]. constructor; [intros []|constructor].
Qed.

Lemma lw_facts : match init_graph false true 10 lwcls with
  | Ok g => betweennessCentrality g LWCC 1 [] = Ok (repeat None 10) /\ g_n g = 10 /\
            forallb (fun v => Bool.eqb (inScope g v LWCC) (6 <=? v)) (seq 0 10) = true /\
            Qle_bool (betweenness (g_n g) (g_E g) [6; 7; 8; 9] 7) 0 = false
  | Err _ => False
  end.
Proof. vm_compute. auto. Qed.

Lemma lwcc_refuted : exists rtl nvars cls x g C l u, usable nvars cls /\ plain cls /\ linked cls x /\
  init_graph rtl true nvars cls = Ok g /\ component (g_n g) (g_E g) C /\
  (forall v, v < g_n g -> (inScope g v LWCC = true <-> In v C)) /\
  betweennessCentrality g LWCC 1 [] = Ok l /\ (forall v, v < g_n g -> nth_error l v = Some None) /\
  In u C /\ (0 < betweenness (g_n g) (g_E g) C u)%Q.
Proof.
  destruct (two_usable lwcls 10 lw_cases) as (Hu & Hp).
  assert (Hl : linked lwcls 6).
  { exists [pos 6; pos 7]. split; [right; right; right; left; auto|]. split; [simpl; lia|left; reflexivity]. }
  destruct (components_spec false 10 lwcls 6 Hu Hp Hl) as (g0 & g & C & E0 & E & A & B & HC & HI & _).
  assert (Eg : init_graph false true 10 lwcls = Ok g) by exact E.
  exists false, 10, lwcls, 6, g, C.
  pose proof lw_facts as Hlist. rewrite Eg in Hlist.
  destruct Hlist as (L1 & L2 & L3 & L4).
  exists (repeat None 10), 7. split; auto. split; auto. split; auto. split; auto. split; auto. split; auto. split; auto.
  assert (HS : forall v, v < 10 -> (In v C <-> 6 <= v)).
  { intros v Hv. rewrite <- HI by lia. rewrite forallb_forall in L3. specialize (L3 v). rewrite in_seq in L3.
    specialize (L3 ltac:(lia)). apply Bool.eqb_prop in L3. rewrite L3. apply Nat.leb_le. }
  split; [|split].
  - intros v Hv. rewrite nth_error_repeat by lia. auto.
  - apply HS; lia.
  - apply Qnot_le_lt. intros H. apply (Bool.diff_true_false). rewrite <- L4. symmetry. apply Qle_bool_iff.
    destruct HC as (N1 & N2 & _). rewrite L2 in *.
    assert (HP : Permutation C [6; 7; 8; 9]).
    { apply NoDup_Permutation; auto; [repeat constructor; simpl; lia|]. intros v. split.
      - intros Hv. pose proof (N2 v Hv). apply HS in Hv; [simpl; lia|auto].
      - intros Hv. apply HS; simpl in Hv; lia. }
    unfold betweenness in *. rewrite <- (qsum_perm _ _ (Permutation_map _ HP)). exact H.
Qed.

(** ** A small sample *)
Definition path5 : list (bool * clause) := [two 0 1; two 1 2; two 2 3; two 3 4].

Lemma path_cases (c : clause) : In (false, c) path5 -> exists a b, c = [pos a; pos b] /\ a < 5 /\ b < 5 /\ a <> b.
Proof.
  cbv [path5 In two]. intros H. repeat (destruct H as [H|H]; [injection H as <-; eexists; eexists; split; [reflexivity|lia]|]). destruct H.
Qed.

Lemma path_facts : match init_graph false false 5 path5 with
  | Ok g => g_n g = 5 /\ Qle_bool (betweenness (g_n g) (g_E g) (seq 0 (g_n g)) 2) 0 = false /\
            (forall rs, betweennessCentrality g FULL (1 # 10) rs = Ok (repeat None 5))
  | Err _ => False
  end.
Proof. vm_compute. auto. Qed.

Lemma sample_refuted : exists rtl nvars cls x g u, usable nvars cls /\ plain cls /\ linked cls x /\
  init_graph rtl false nvars cls = Ok g /\ u < g_n g /\ (0 < betweenness (g_n g) (g_E g) (seq 0 (g_n g)) u)%Q /\
  forall rs, exists l, betweennessCentrality g FULL (1 # 10) rs = Ok l /\ forall v, v < g_n g -> nth_error l v = Some None.
Proof.
  destruct (two_usable path5 5 path_cases) as (Hu & Hp). pose proof path_facts as F.
  destruct (init_graph false false 5 path5) as [g|] eqn:E; [|destruct F]. destruct F as (F1 & F2 & F3).
  exists false, 5, path5, 0, g, 2. split; auto. split; auto. split.
  { exists [pos 0; pos 1]. split; [left; auto|]. split; [simpl; lia|left; reflexivity]. }
  split; auto. split; [lia|]. split.
  { apply Qnot_le_lt. intros H. apply Qle_bool_iff in H. congruence. }
  intros rs. exists (repeat None 5). split; auto. intros v Hv. apply nth_error_repeat. lia.
Qed.

(** ** Incremental use *)
Lemma incremental_facts : match process_reduce vdefault false [] 4 [two 0 1; two 1 2; two 2 3] (vfresh 4) with
  | Ok v1 => match process_reduce vdefault false [] 5 path5 (vc_init 5 v1) with
             | Ok v2 => bumps vdefault [(4, 1%Q)] v2 = Err UB
             | Err _ => False
             end
  | Err _ => False
  end.
Proof. vm_compute. auto. Qed.

Lemma incremental_refuted : exists rtl n1 n2 cls1 cls2 x v1 v2,
  usable n1 cls1 /\ plain cls1 /\ usable n2 cls2 /\ plain cls2 /\ incl cls1 cls2 /\ linked cls2 x /\
  process_reduce vdefault rtl [] n1 cls1 (vfresh n1) = Ok v1 /\
  process_reduce vdefault rtl [] n2 cls2 (vc_init n2 v1) = Ok v2 /\
  bumps vdefault [(x, 1%Q)] v2 = Err UB.
Proof.
  assert (H1 : forall c : clause, In (false, c) [two 0 1; two 1 2; two 2 3] -> exists a b, c = [pos a; pos b] /\ a < 4 /\ b < 4 /\ a <> b).
  { cbv [In two]. intros c H. repeat (destruct H as [H|H]; [injection H as <-; eexists; eexists; split; [reflexivity|lia]|]). destruct H. }
  destruct (two_usable _ _ path_cases) as (Hu2 & Hp2). destruct (two_usable _ _ H1) as (Hu1 & Hp1).
  pose proof incremental_facts as F.
  destruct (process_reduce vdefault false [] 4 [two 0 1; two 1 2; two 2 3] (vfresh 4)) as [v1|] eqn:E1; [|destruct F].
  destruct (process_reduce vdefault false [] 5 path5 (vc_init 5 v1)) as [v2|] eqn:E2; [|destruct F].
  exists false, 4, 5, [two 0 1; two 1 2; two 2 3], path5, 4, v1, v2.
  split; auto. split; auto. split; auto. split; auto. split.
  { intros c Hc. simpl in *. tauto. }
  split. { exists [pos 3; pos 4]. split; [right; right; right; left; auto|]. split; [simpl; lia|right; left; reflexivity]. }
  auto.
Qed.

(** ** Clauses that repeat a variable or have no literal *)
Lemma loop_refuted : exists nvars cls x, usable nvars cls /\ linked cls x /\ forall rtl, init_graph rtl true nvars cls = Err UB.
Proof.
  exists 1, [(false, [0; 1])], 0. split; [|split].
  - intros c [H|[]]. injection H as <-. split; [discriminate|]. intros l [<-|[<-|[]]]; vm_compute; lia.
  - exists [0; 1]. split; [left; auto|]. split; [simpl; lia|left; reflexivity].
  - intros [|]; reflexivity.
Qed.

Lemma empty_clause rtl lwcc nvars cls : In (false, []) cls -> exists e, init_graph rtl lwcc nvars cls = Err e.
Proof.
  intros H. unfold init_graph. destruct (addClauses_empty rtl cls (emptyGraph (Nat.max 1 nvars)) [] H eq_refl) as (e & ->).
  exists e. auto.
Qed.
