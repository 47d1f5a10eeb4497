(** The clause memory implements a list of clauses. *)
Require Import List Arith Bool NArith Lia.
From Coq Require Import ZifyBool ZifyNat ZifyN.
Require Import Verif.Base Verif.Outcome Verif.CNFModel Verif.TrailModel Verif.DbModel Verif.AllocModel Verif.AllocLemmas Verif.AllocSpec.
Import ListNotations.

Definition pids (pcs : list (page * list cobj)) := map (fun pc : page * list cobj => pid (fst pc)) pcs.
Section Owner.
Variable Q : nat -> Prop. (* the owners of the pages *)
Record MI (m : cmem) (pcs : list (page * list cobj)) : Prop := {
  m_p : pages m = map fst pcs;
  m_g : Forall (fun pc => PG (fst pc) (snd pc)) pcs;
  m_n : NoDup (pids pcs);
  m_f : forall k, cnt m <= k -> ~ In (own m, k) (pids pcs);
  m_o : Q (own m);
  m_q : forall i, In i (pids pcs) -> Q (fst i) }.
(** same parameters *)
Definition same (m m' : cmem) : Prop := dsz m' = dsz m /\ phase_out m' = phase_out m /\ own m' = own m /\ cnt m <= cnt m' /\ junk m' = junk m.
Lemma same_refl m : same m m. Proof. repeat split; auto. Qed.
Lemma same_wp m ps : same m (with_pages m ps). Proof. repeat split; auto. Qed.
Lemma same_trans a b c : same a b -> same b c -> same a c.
Proof. intros (A1 & A2 & A3 & A4 & A5) (B1 & B2 & B3 & B4 & B5). unfold same. intuition; try congruence; lia. Qed.

Lemma pid_eqb_eq a b : pid_eqb a b = true <-> a = b.
Proof. unfold pid_eqb. destruct a, b; cbn. rewrite andb_true_iff, !Nat.eqb_eq. split; [intros (-> & ->); auto|intros E; injection E; auto]. Qed.
Lemma write_at_ok x ws p p' : forall a b, pid p = fst x -> ~ In (fst x) (map pid a) -> page_write (snd x) ws p = Ok p' -> write_at x ws (a ++ p :: b) = Ok (a ++ p' :: b).
Proof.
  induction a as [|q a IH]; intros b E HN HW; cbn [app write_at].
  - rewrite (proj2 (pid_eqb_eq _ _) E), HW. reflexivity.
  - destruct (pid_eqb (pid q) (fst x)) eqn:EQ; [apply pid_eqb_eq in EQ; exfalso; apply HN; cbn; auto|]. rewrite IH; auto. intros H. apply HN. cbn; auto.
Qed.
Lemma page_of_ok i p b : forall a, pid p = i -> ~ In i (map pid a) -> page_of i (a ++ p :: b) = Some p.
Proof.
  induction a as [|q a IH]; intros E HN; cbn [app page_of].
  - rewrite (proj2 (pid_eqb_eq _ _) E). auto.
  - destruct (pid_eqb (pid q) i) eqn:EQ; [apply pid_eqb_eq in EQ; exfalso; apply HN; cbn; auto|]. apply IH; auto. intros H. apply HN. cbn; auto.
Qed.
Lemma vis_app a b : vis (a ++ b) = vis a ++ vis b.
Proof. apply flat_map_app. Qed.
Lemma pids_fst pcs : map pid (map fst pcs) = pids pcs.
Proof. unfold pids. rewrite map_map. auto. Qed.
Lemma NoDup_mid {A} (a b : list A) x : NoDup (a ++ x :: b) -> ~ In x a.
Proof. intros H Hi. apply NoDup_remove_2 in H. apply H. apply in_or_app. auto. Qed.

(** replacing the content of one page *)
Lemma MI_page m a p cs b p' cs' : MI m (a ++ (p, cs) :: b) -> PG p' cs' -> pid p' = pid p -> MI (with_pages m (map fst (a ++ (p', cs') :: b))) (a ++ (p', cs') :: b).
Proof.
  intros [H1 H2 H3 H4 H5 H6] HP HE. assert (EP : pids (a ++ (p', cs') :: b) = pids (a ++ (p, cs) :: b)) by (unfold pids; rewrite !map_app; cbn; rewrite HE; auto).
  constructor; cbn [with_pages pages own cnt]; auto.
  - apply Forall_app in H2. destruct H2 as (A & B). inversion B; subst. apply Forall_app. split; auto.
  - rewrite EP. auto.
  - rewrite EP. auto.
  - rewrite EP. auto.
Qed.
Lemma mem_write_ok m a p cs b off ws p' : MI m (a ++ (p, cs) :: b) -> page_write off ws p = Ok p' ->
  mem_write (pid p, off) ws m = Ok (with_pages m (map fst a ++ p' :: map fst b)).
Proof.
  intros HM HW. unfold mem_write. rewrite (m_p _ _ HM), map_app. cbn [map fst]. rewrite (write_at_ok (pid p, off) ws p p'); auto.
  cbn [fst]. rewrite pids_fst. assert (HN := m_n _ _ HM). unfold pids in HN. rewrite map_app in HN. cbn [map fst] in HN. apply NoDup_mid in HN. auto.
Qed.

(** ** Allocation *)
Lemma new_page_MI m pcs s : MI m pcs -> MI (new_page s m) (pcs ++ [(mkPage (own m, cnt m) s 0 (junk m (cnt m)), [])]) /\ same m (new_page s m) /\
  vis (pcs ++ [(mkPage (own m, cnt m) s 0 (junk m (cnt m)), [])]) = vis pcs.
Proof.
  intros [H1 H2 H3 H4 H5 H6]. split; [|split].
  - constructor; cbn [new_page pages own cnt]; auto.
    + rewrite map_app, H1. reflexivity.
    + apply Forall_app. split; auto. constructor; auto. apply PG_new.
    + unfold pids. rewrite map_app. cbn [map fst pid].
      assert (HN : ~ In (own m, cnt m) (pids pcs)) by (apply H4; auto). revert H3 HN. unfold pids. generalize (map (fun pc : page * list cobj => pid (fst pc)) pcs) (own m, cnt m). clear. intros l x.
      induction l as [|y l IH]; cbn; intros H1 H2; [constructor; auto; constructor|]. inversion H1; subst. constructor; [|apply IH; auto]. intros Hi. apply in_app_or in Hi. destruct Hi as [Hi|[<-|[]]]; auto.
    + intros k Hk. unfold pids. rewrite map_app, in_app_iff. cbn [map fst pid In]. intros [H|[H|[]]]; [apply (H4 k); auto; lia|]. injection H as E. lia.
    + intros i. unfold pids. rewrite map_app, in_app_iff. cbn [map fst pid In]. intros [H|[<-|[]]]; auto.
  - unfold same, new_page; cbn [dsz phase_out own cnt junk]. repeat split; auto.
  - rewrite vis_app. cbn. rewrite app_nil_r. auto.
Qed.
Lemma rev_last {A} (l : list A) x : rev (l ++ [x]) = x :: rev l.
Proof. rewrite rev_app_distr. reflexivity. Qed.
Lemma allocate_ok n m pcs : MI m pcs -> (bytes (S n) <= dsz m)%N ->
  exists m1 pcs0 p cs, mem_allocate n m = ((pid p, pcur p), with_pages m1 (map fst pcs0 ++ [mkPage (pid p) (psz p) (pcur p + cwords n) (pw p)])) /\
    MI m1 (pcs0 ++ [(p, cs)]) /\ same m m1 /\ vis (pcs0 ++ [(p, cs)]) = vis pcs /\ (bytes (pcur p + S n) <= psz p)%N.
Proof.
  intros HM HB. unfold mem_allocate. destruct (fits n m) eqn:EF.
  - unfold fits in EF. assert (EP := m_p _ _ HM). destruct pcs as [|pc pcs _] using rev_ind; [rewrite EP in EF; discriminate|]. destruct pc as (p, cs). rewrite map_app in EP. cbn [map fst] in EP. rewrite EP, rev_last in *.
    exists m, pcs, p, cs. unfold page_allocate. rewrite <- rev_involutive with (l := map fst pcs) at 2. split; [cbn [rev]; reflexivity|]. split; auto. split; [apply same_refl|]. split; auto.
    unfold hasMemory, cwords in EF. apply N.ltb_lt in EF. lia.
  - destruct (new_page_MI m pcs (dsz m) HM) as (A & B & C). set (p := mkPage (own m, cnt m) (dsz m) 0 (junk m (cnt m))) in *.
    exists (new_page (dsz m) m), pcs, p, []. assert (EP := m_p _ _ A). rewrite map_app in EP. cbn [map fst] in EP. rewrite EP, rev_last. unfold page_allocate.
    split; [cbn [rev]; rewrite rev_involutive; reflexivity|]. split; auto.
Qed.
Lemma store_ok c m pcs : MI m pcs -> okc c -> (bytes (S (length (lits c))) <= dsz m)%N ->
  exists x m' pcs', (let '(x, m1) := mem_allocate (length (lits c)) m in m2 <- mem_write x (image c) m1 ;; Ok (x, m2)) = Ok (x, m') /\ MI m' pcs' /\ same m m' /\ vis pcs' = vis pcs ++ [(x, c)].
Proof.
  intros HM HO HB. destruct (allocate_ok _ _ _ HM HB) as (m1 & pcs0 & p & cs & -> & H1 & H2 & H3 & H4).
  assert (HG : PG p cs) by (assert (G := m_g _ _ H1); apply Forall_app in G; destruct G as (_ & G); inversion G; auto).
  destruct (PG_push p cs c HG HO H4) as (p' & W1 & W2 & W3).
  assert (EW : mem_write (pid p, pcur p) (image c) (with_pages m1 (map fst pcs0 ++ [mkPage (pid p) (psz p) (pcur p + cwords (length (lits c))) (pw p)])) = Ok (with_pages m1 (map fst pcs0 ++ [p']))).
  { unfold mem_write. cbn [with_pages pages]. rewrite (write_at_ok (pid p, pcur p) (image c) (mkPage (pid p) (psz p) (pcur p + cwords (length (lits c))) (pw p)) p'); auto.
    cbn [fst]. rewrite pids_fst. assert (HN := m_n _ _ H1). unfold pids in HN. rewrite map_app in HN. apply NoDup_mid in HN. auto. }
  rewrite EW. cbn [bind]. eexists _, _, (pcs0 ++ [(p', cs ++ [c])]). split; [reflexivity|]. split; [|split].
  - assert (HX := MI_page m1 pcs0 p cs [] p' (cs ++ [c]) H1 W2 W3). rewrite map_app in HX. auto.
  - auto.
  - rewrite <- H3. rewrite !vis_app. rewrite <- app_assoc. f_equal. unfold vis. cbn [flat_map]. rewrite !app_nil_r. unfold pvis. cbn [fst snd]. rewrite poss_app, map_app, W3. f_equal. cbn [poss map fst snd plus]. rewrite (p_cur _ _ HG). auto.
Qed.
Lemma create_ok ls w m pcs : MI m pcs -> okc (mkC ls w) -> (bytes (S (length ls)) <= dsz m)%N ->
  exists x m' pcs', mem_create ls w m = Ok (x, m') /\ MI m' pcs' /\ same m m' /\ vis pcs' = vis pcs ++ [(x, mkC ls w)].
Proof. intros H1 H2 H3. apply (store_ok (mkC ls w) m pcs H1 H2 H3). Qed.

(** ** Access through a pointer *)
Lemma vis_split pcs : forall L1 x c L2, vis pcs = L1 ++ (x, c) :: L2 ->
  exists a p cs1 cs2 b, pcs = a ++ (p, cs1 ++ c :: cs2) :: b /\ x = (pid p, words cs1) /\
    L1 = vis a ++ pvis_from p 0 cs1 /\ L2 = pvis_from p (words cs1 + S (length (lits c))) cs2 ++ vis b.
Proof.
  induction pcs as [|(p, cs) pcs IH]; intros L1 x c L2 E; [destruct L1; discriminate|].
  change (vis ((p, cs) :: pcs)) with (pvis_from p 0 cs ++ vis pcs) in E.
  assert (HC : (exists r, pvis_from p 0 cs = L1 ++ (x, c) :: r /\ L2 = r ++ vis pcs) \/ exists L, L1 = pvis_from p 0 cs ++ L /\ vis pcs = L ++ (x, c) :: L2).
  { clear IH. revert L1 E. generalize (pvis_from p 0 cs). induction l as [|y l IH]; intros L1 E; cbn [app] in E; [right; exists L1; auto|].
    destruct L1 as [|z L1]; cbn [app] in E; injection E as -> E; [left; exists l; auto|]. destruct (IH _ E) as [(r & -> & ->)|(L & -> & ->)]; [left; exists r; auto|right; exists L; auto]. }
  destruct HC as [(r & E1 & ->)|(L & -> & E1)].
  - exists [], p. assert (HS : exists cs1 cs2, cs = cs1 ++ c :: cs2 /\ x = (pid p, words cs1) /\ L1 = pvis_from p 0 cs1 /\ r = pvis_from p (words cs1 + S (length (lits c))) cs2).
    { clear E IH. change (pvis_from p 0 cs = L1 ++ (x, c) :: r) in E1. assert (G : forall pos L1, pvis_from p pos cs = L1 ++ (x, c) :: r -> exists cs1 cs2, cs = cs1 ++ c :: cs2 /\ x = (pid p, pos + words cs1) /\ L1 = pvis_from p pos cs1 /\ r = pvis_from p (pos + words cs1 + S (length (lits c))) cs2).
      { clear. induction cs as [|c0 cs IH]; intros pos L1 E; [destruct L1; discriminate|]. unfold pvis_from in E. cbn [poss map fst snd] in E. destruct L1 as [|y L1]; cbn [app] in E.
        - injection E as E1 E2 E3. subst. exists [], cs. change (words []) with 0. rewrite Nat.add_0_r. cbn. auto.
        - injection E as E1 E2. destruct (IH _ _ E2) as (cs1 & cs2 & -> & -> & -> & ->). exists (c0 :: cs1), cs2. rewrite words_cons. split; auto. split; [f_equal; lia|]. split; [unfold pvis_from; cbn [poss map fst snd]; rewrite E1; auto|]. f_equal. lia. }
      destruct (G 0 L1 E1) as (cs1 & cs2 & A & B & C & D). exists cs1, cs2. auto. }
    destruct HS as (cs1 & cs2 & -> & -> & -> & ->). exists cs1, cs2, pcs. cbn. auto.
  - destruct (IH _ _ _ _ E1) as (a & p1 & cs1 & cs2 & b & -> & -> & -> & ->). exists ((p, cs) :: a), p1, cs1, cs2, b. split; auto. split; auto. split; auto.
    change (vis ((p, cs) :: a)) with (pvis_from p 0 cs ++ vis a). rewrite app_assoc. auto.
Qed.
Lemma vis_join a p cs1 c cs2 b : vis (a ++ (p, cs1 ++ c :: cs2) :: b) = (vis a ++ pvis_from p 0 cs1) ++ ((pid p, words cs1), c) :: pvis_from p (words cs1 + S (length (lits c))) cs2 ++ vis b.
Proof.
  rewrite vis_app, <- app_assoc. f_equal. change (vis ((p, cs1 ++ c :: cs2) :: b)) with (pvis_from p 0 (cs1 ++ c :: cs2) ++ vis b). unfold pvis_from at 1. rewrite poss_app, map_app, <- app_assoc. f_equal.
Qed.
(** a page whose words differ only inside the block of one clause *)
Lemma page_update p cs1 c c' cs2 f : PG p (cs1 ++ c :: cs2) -> okc c' -> length (lits c') = length (lits c) ->
  (forall k, k < words cs1 \/ words cs1 + S (length (lits c)) <= k -> f k = pw p k) -> at_ f (words cs1) (image c') ->
  PG (mkPage (pid p) (psz p) (pcur p) f) (cs1 ++ c' :: cs2).
Proof.
  intros [H1 H2 H3 H4] HO HL HE HA. constructor; cbn [pw pcur psz]; auto.
  - apply (layout_replace (pw p) f cs1 c c' cs2 0); auto.
  - rewrite H2, !words_app, !words_cons, HL. auto.
  - apply Forall_app in H4. destruct H4 as (A & B). inversion B; subst. apply Forall_app. auto.
Qed.
Lemma vis_update m a p cs1 c c' cs2 b f : MI m (a ++ (p, cs1 ++ c :: cs2) :: b) -> okc c' -> length (lits c') = length (lits c) ->
  (forall k, k < words cs1 \/ words cs1 + S (length (lits c)) <= k -> f k = pw p k) -> at_ f (words cs1) (image c') ->
  let p' := mkPage (pid p) (psz p) (pcur p) f in
  MI (with_pages m (map fst a ++ p' :: map fst b)) (a ++ (p', cs1 ++ c' :: cs2) :: b) /\
  vis (a ++ (p', cs1 ++ c' :: cs2) :: b) = (vis a ++ pvis_from p 0 cs1) ++ ((pid p, words cs1), c') :: pvis_from p (words cs1 + S (length (lits c))) cs2 ++ vis b.
Proof.
  intros HM HO HL HE HA p'. assert (HG : PG p (cs1 ++ c :: cs2)) by (assert (G := m_g _ _ HM); apply Forall_app in G; destruct G as (_ & G); inversion G; auto).
  assert (HP := page_update p cs1 c c' cs2 f HG HO HL HE HA). split.
  - assert (HX := MI_page m a p _ b p' (cs1 ++ c' :: cs2) HM HP eq_refl). rewrite map_app in HX. auto.
  - rewrite vis_join, HL. reflexivity.
Qed.
Lemma block_fit m a p cs1 c cs2 b : MI m (a ++ (p, cs1 ++ c :: cs2) :: b) -> PG p (cs1 ++ c :: cs2) /\ okc c /\ at_ (pw p) (words cs1) (image c) /\ (bytes (words cs1 + S (length (lits c))) <= psz p)%N.
Proof.
  intros HM. assert (HG : PG p (cs1 ++ c :: cs2)) by (assert (G := m_g _ _ HM); apply Forall_app in G; destruct G as (_ & G); inversion G; auto). split; auto. destruct HG as [H1 H2 H3 H4].
  rewrite layout_app in H1. cbn [layout plus] in H1. destruct H1 as (_ & H1 & _). apply Forall_app in H4. destruct H4 as (_ & H4). inversion H4; subst. split; auto. split; auto.
  rewrite H2, words_app, words_cons in H3. unfold bytes in *. lia.
Qed.
Lemma set_weight_ok m pcs L1 x c L2 w : MI m pcs -> vis pcs = L1 ++ (x, c) :: L2 -> (w < 65536)%N ->
  exists m' pcs', set_weight x w m = Ok m' /\ MI m' pcs' /\ same m m' /\ vis pcs' = L1 ++ (x, mkC (lits c) w) :: L2.
Proof.
  intros HM HV HW. destruct (vis_split _ _ _ _ _ HV) as (a & p & cs1 & cs2 & b & -> & -> & -> & ->). destruct (block_fit _ _ _ _ _ _ _ HM) as (HG & HO & HA & HB).
  unfold set_weight. cbn [fst snd]. rewrite (m_p _ _ HM), map_app. cbn [map fst]. rewrite (page_of_ok (pid p) p); auto.
  2:{ rewrite pids_fst. assert (HN := m_n _ _ HM). unfold pids in HN. rewrite map_app in HN. apply NoDup_mid in HN. auto. }
  rewrite (at_hlen _ _ c HO HA). set (h := header (N.of_nat (length (lits c))) w).
  assert (EW : page_write (words cs1) [h] p = Ok (mkPage (pid p) (psz p) (pcur p) (write (pw p) (words cs1) [h]))).
  { unfold page_write. cbn [length]. unfold bytes in *. destruct (N.leb_spec (4 * N.of_nat (words cs1 + 1)) (psz p)); auto. lia. }
  rewrite (mem_write_ok m a p _ b (words cs1) [h] _ HM EW). eexists _, _. split; [reflexivity|].
  destruct (vis_update m a p cs1 c (mkC (lits c) w) cs2 b (write (pw p) (words cs1) [h]) HM) as (V1 & V2).
  - split; auto. apply HO.
  - reflexivity.
  - intros k Hk. apply write_out. cbn. lia.
  - intros k Hk. rewrite image_length in Hk. cbn [lits] in Hk. destruct k as [|k].
    + rewrite (write_at_ [h] (pw p) (words cs1) 0) by (cbn; lia). reflexivity.
    + rewrite write_out by (cbn; lia). rewrite HA by (rewrite image_length; lia). reflexivity.
  - split; [exact V1|]. split; [apply (same_wp m)|exact V2].
Qed.
Lemma at_kth_length {A} (f : A -> A) l : forall k, length (at_kth k f l) = length l.
Proof. induction l as [|x l IH]; intros [|k]; cbn; auto. Qed.
Lemma at_kth_nth {A} (f : A -> A) d l : forall k i, nth i (at_kth k f l) d = if (i =? k) && (k <? length l) then f (nth k l d) else nth i l d.
Proof.
  induction l as [|x l IH]; intros k i.
  - destruct k, i; cbn; rewrite ?andb_false_r; auto.
  - destruct k as [|k], i as [|i]; cbn [at_kth nth]; auto. rewrite IH. reflexivity.
Qed.
Lemma at_kth_app {A} (f : A -> A) a x b : at_kth (length a) f (a ++ x :: b) = a ++ f x :: b.
Proof. induction a as [|y a IH]; cbn; auto. rewrite IH. auto. Qed.
Lemma at_kth_out {A} (f : A -> A) l : forall k, length l <= k -> at_kth k f l = l.
Proof. induction l as [|x l IH]; intros [|k] H; cbn in *; auto; try lia. rewrite IH by lia. auto. Qed.
Lemma swap_ok m pcs L1 x c L2 i j : MI m pcs -> vis pcs = L1 ++ (x, c) :: L2 -> i < length (lits c) -> j < length (lits c) ->
  exists m' pcs', swap_lits x i j m = Ok m' /\ MI m' pcs' /\ same m m' /\ vis pcs' = L1 ++ (x, mkC (swapped i j (lits c)) (wt c)) :: L2.
Proof.
  intros HM HV Hi Hj. destruct (vis_split _ _ _ _ _ HV) as (a & p & cs1 & cs2 & b & -> & -> & -> & ->). destruct (block_fit _ _ _ _ _ _ _ HM) as (HG & HO & HA & HB).
  assert (HN : ~ In (pid p) (map pid (map fst a))).
  { rewrite pids_fst. assert (HN := m_n _ _ HM). unfold pids in HN. rewrite map_app in HN. apply NoDup_mid in HN. auto. }
  unfold swap_lits. cbn [fst snd]. rewrite (m_p _ _ HM), map_app. cbn [map fst]. rewrite (page_of_ok (pid p) p) by auto.
  set (ia := S (words cs1 + i)). set (ib := S (words cs1 + j)).
  assert (EW1 : page_write ia [pw p ib] p = Ok (mkPage (pid p) (psz p) (pcur p) (write (pw p) ia [pw p ib]))).
  { unfold page_write. cbn [length]. unfold bytes in *. destruct (N.leb_spec (4 * N.of_nat (ia + 1)) (psz p)); auto. unfold ia in *. lia. }
  rewrite (mem_write_ok m a p _ b ia [pw p ib] _ HM EW1). cbn [bind]. set (p1 := mkPage (pid p) (psz p) (pcur p) (write (pw p) ia [pw p ib])) in *.
  set (f := write (write (pw p) ia [pw p ib]) ib [pw p ia]).
  assert (EW2 : page_write ib [pw p ia] p1 = Ok (mkPage (pid p) (psz p) (pcur p) f)).
  { unfold page_write. cbn [length psz p1]. unfold bytes in *. destruct (N.leb_spec (4 * N.of_nat (ib + 1)) (psz p)); auto. unfold ib in *. lia. }
  unfold mem_write. cbn [with_pages pages]. rewrite (write_at_ok (pid p, ib) [pw p ia] p1 _ (map fst a) (map fst b) eq_refl HN EW2). cbn [bind].
  eexists _, _. split; [reflexivity|].
  assert (HLs : length (swapped i j (lits c)) = length (lits c)) by (unfold swapped; rewrite !at_kth_length; auto).
  assert (HLI : forall k, k < length (lits c) -> pw p (S (words cs1 + k)) = N.of_nat (nth k (lits c) 0)).
  { intros k Hk. specialize (HA (S k)). rewrite image_length in HA. replace (S (words cs1 + k)) with (words cs1 + S k) by lia. rewrite HA by lia. unfold image, clause_image. cbn [nth]. change 0%N with (N.of_nat 0). apply (map_nth N.of_nat). }
  destruct (vis_update m a p cs1 c (mkC (swapped i j (lits c)) (wt c)) cs2 b f HM) as (V1 & V2); auto.
  - split; [cbn [lits]; rewrite HLs|]; apply HO.
  - intros k Hk. unfold f. rewrite !write_out; auto; cbn [length]; unfold ia, ib; lia.
  - intros k Hk. rewrite image_length in Hk. cbn [lits] in Hk. rewrite HLs in Hk. destruct k as [|k].
    + unfold f. rewrite !write_out by (cbn; unfold ia, ib; lia). rewrite HA by (rewrite image_length; lia). unfold image, clause_image. cbn [lits wt nth]. rewrite HLs. reflexivity.
    + unfold image, clause_image. cbn [lits wt nth]. change 0%N with (N.of_nat 0). rewrite (map_nth N.of_nat). unfold swapped. rewrite at_kth_nth, at_kth_length.
      assert (Hj2 := Hj). apply Nat.ltb_lt in Hj2. unfold lit in *. rewrite Hj2, andb_true_r. unfold f. destruct (Nat.eqb_spec k j) as [->|Hkj].
      * replace (words cs1 + S j) with (ib + 0) by (unfold ib; lia). rewrite (write_at_ [pw p ia] (write (pw p) ia [pw p ib]) ib 0) by (cbn; lia). cbn [nth]. unfold ia. apply HLI. auto.
      * rewrite (write_out [pw p ia]) by (cbn; unfold ib; lia). rewrite at_kth_nth. assert (Hi2 := Hi). apply Nat.ltb_lt in Hi2. rewrite Hi2, andb_true_r. destruct (Nat.eqb_spec k i) as [->|Hki].
        -- replace (words cs1 + S i) with (ia + 0) by (unfold ia; lia). rewrite (write_at_ [pw p ib] (pw p) ia 0) by (cbn; lia). cbn [nth]. unfold ib. apply HLI. auto.
        -- rewrite write_out by (cbn; unfold ia; lia). replace (words cs1 + S k) with (S (words cs1 + k)) by lia. apply HLI. lia.
  - split; [exact V1|]. split; [apply (same_wp m)|exact V2].
Qed.

(** ** Copying *)
Lemma copy_clause_ok p cs pos c m pcs : PG p cs -> In (pos, c) (poss 0 cs) -> MI m pcs -> (262144 <= dsz m)%N ->
  exists x m' pcs', copy_clause p pos m = Ok m' /\ MI m' pcs' /\ same m m' /\ vis pcs' = vis pcs ++ [(x, c)].
Proof.
  intros HG Hi HM HB. assert (HA := layout_in _ _ _ _ _ Hi (p_lay _ _ HG)).
  assert (HO : okc c). { apply (proj1 (Forall_forall _ _) (p_ok _ _ HG)). rewrite <- (poss_snd cs 0). apply in_map_iff. exists (pos, c). auto. }
  destruct (store_ok c m pcs HM HO) as (x & m' & pcs' & E & H1 & H2 & H3).
  { destruct HO as (HO & _). unfold bytes in *. lia. }
  exists x, m', pcs'. split; [|auto]. unfold copy_clause. rewrite (at_hlen _ _ c HO HA). unfold cwords. rewrite (read_at (S (length (lits c))) (pw p) pos (image c)); auto; [|apply image_length].
  destruct (mem_allocate (length (lits c)) m) as (y, m1). destruct (mem_write y (image c) m1); cbn [bind] in *; congruence.
Qed.
Definition live (l : list cobj) : list cobj := filter (fun c => negb (wt c =? 65535)%N) l.
Lemma copy_page_ok p cs : PG p cs -> forall l m pcs, incl l (poss 0 cs) -> MI m pcs -> (262144 <= dsz m)%N ->
  exists m' pcs', copy_page p l m = Ok m' /\ MI m' pcs' /\ same m m' /\ map snd (vis pcs') = map snd (vis pcs) ++ live (map snd l).
Proof.
  intros HG. induction l as [|(pos, c) l IH]; intros m pcs HI HM HB; cbn [copy_page].
  - exists m, pcs. rewrite app_nil_r. split; auto. split; auto. split; auto. apply same_refl.
  - change (is_del c) with (wt c =? 65535)%N. cbn [map snd live filter]. destruct (wt c =? 65535)%N eqn:ED; cbn [bind negb].
    + apply IH; auto. intros y Hy. apply HI. cbn; auto.
    + destruct (copy_clause_ok p cs pos c m pcs HG (HI _ (or_introl eq_refl)) HM HB) as (x & m1 & pcs1 & E & H1 & H2 & H3). rewrite E. cbn [bind].
      destruct (IH m1 pcs1) as (m' & pcs' & E' & H1' & H2' & H3'); auto; [intros y Hy; apply HI; cbn; auto|destruct H2 as (-> & _); auto|].
      exists m', pcs'. split; auto. split; auto. split; [eapply same_trans; eauto|]. rewrite H3', H3, map_app, <- app_assoc. reflexivity.
Qed.
Lemma copy_pages_ok src : forall m pcs, Forall (fun pc => PG (fst pc) (snd pc)) src -> MI m pcs -> (262144 <= dsz m)%N ->
  exists m' pcs', copy_pages (map fst src) m = Ok m' /\ MI m' pcs' /\ same m m' /\ map snd (vis pcs') = map snd (vis pcs) ++ live (map snd (vis src)).
Proof.
  induction src as [|(p, cs) src IH]; intros m pcs HF HM HB; cbn [map fst copy_pages].
  - exists m, pcs. rewrite app_nil_r. split; auto. split; auto. split; auto. apply same_refl.
  - inversion HF; subst. cbn [fst snd] in *. rewrite (page_clauses_ok p cs) by auto. cbn [bind].
    destruct (copy_page_ok p cs H1 (poss 0 cs) m pcs) as (m1 & pcs1 & E & A & B & C); auto; [intros y; auto|]. rewrite E. cbn [bind].
    destruct (IH m1 pcs1 H2 A) as (m' & pcs' & E' & A' & B' & C'); [destruct B as (-> & _); auto|].
    exists m', pcs'. split; auto. split; auto. split; [eapply same_trans; eauto|]. rewrite C', C, <- app_assoc. f_equal.
    change (vis ((p, cs) :: src)) with (pvis_from p 0 cs ++ vis src). rewrite map_app. unfold live. rewrite filter_app. f_equal. unfold pvis_from. rewrite map_map. reflexivity.
Qed.
Lemma reallocate_ok m pcs : MI m pcs -> phase_out m = [] -> (262144 <= dsz m)%N ->
  exists m' pcs', reallocate m = Ok m' /\ MI m' pcs' /\ phase_out m' = pages m /\ dsz m' = dsz m /\ own m' = own m /\ cnt m <= cnt m' /\ map snd (vis pcs') = live (map snd (vis pcs)).
Proof.
  intros HM HP HB. unfold reallocate. rewrite HP. set (m0 := mkMem (dsz m) [] (pages m) (own m) (cnt m) (junk m)).
  assert (HM0 : MI m0 []) by (constructor; cbn; auto; try constructor; [apply (m_o _ _ HM)|intros i []]). destruct (new_page_MI m0 [] (bytes (used_words (pages m))) HM0) as (A & B & C).
  destruct (copy_pages_ok pcs _ _ (m_g _ _ HM) A HB) as (m' & pcs' & E & A' & B' & C'). rewrite <- (m_p _ _ HM) in E. exists m', pcs'. split; auto. split; auto.
  assert (BB := same_trans _ _ _ B B'). destruct BB as (S1 & S2 & S3 & S4 & S5). rewrite C', C. cbn [vis flat_map map app]. tauto.
Qed.
Lemma reorganize_ok m pcs : MI m pcs -> phase_out m = [] -> (262144 <= dsz m)%N ->
  exists m' pcs', reorganize_mem m = Ok m' /\ MI m' pcs' /\ phase_out m' = [] /\ dsz m' = dsz m /\ own m' = own m /\ map snd (vis pcs') = live (map snd (vis pcs)).
Proof.
  intros HM HP HB. destruct (reallocate_ok m pcs HM HP HB) as (m' & pcs' & E & A & B & C & D & _ & F). unfold reorganize_mem. rewrite E. cbn [bind]. eexists _, pcs'. split; [reflexivity|]. split; [destruct A; constructor; auto|]. auto.
Qed.

(** ** Histories *)
Lemma nth_split_vis {A} (l : list A) k x : nth_error l k = Some x -> exists a b, l = a ++ x :: b /\ length a = k.
Proof. apply nth_error_split. Qed.
Lemma exec_ok o m pcs : MI m pcs -> phase_out m = [] -> (262144 <= dsz m)%N -> op_ok (map snd (vis pcs)) o ->
  exists m' pcs', exec o m = Ok m' /\ MI m' pcs' /\ phase_out m' = [] /\ dsz m' = dsz m /\ map snd (vis pcs') = meaning o (map snd (vis pcs)).
Proof.
  intros HM HP HB HO.
  assert (HK : forall k (f : ptr -> out cmem) g, (forall L1 x c L2, vis pcs = L1 ++ (x, c) :: L2 -> length L1 = k -> exists m' pcs', f x = Ok m' /\ MI m' pcs' /\ same m m' /\ vis pcs' = L1 ++ (x, g c) :: L2) ->
    exists m' pcs', on_kth m k f = Ok m' /\ MI m' pcs' /\ phase_out m' = [] /\ dsz m' = dsz m /\ map snd (vis pcs') = at_kth k g (map snd (vis pcs))).
  { intros k f g Hf. unfold on_kth. rewrite (mem_clauses_ok m pcs (m_p _ _ HM) (m_g _ _ HM)). cbn [bind]. destruct (nth_error (vis pcs) k) as [(x, c)|] eqn:EN.
    - destruct (nth_error_split _ _ EN) as (L1 & L2 & EV & EL). destruct (Hf L1 x c L2 EV EL) as (m' & pcs' & A & B & (C1 & C2 & _) & D). exists m', pcs'. split; auto. split; auto. split; [congruence|]. split; auto.
      rewrite D, EV, !map_app. cbn [map snd]. rewrite <- EL, <- (map_length snd L1). rewrite at_kth_app. auto.
    - exists m, pcs. split; auto. split; auto. split; auto. split; auto. apply nth_error_None in EN. rewrite at_kth_out; auto. rewrite map_length. auto. }
  destruct o as [ls w|k w|k i j|]; cbn [exec meaning op_ok] in *.
  - destruct HO as (H1 & H2). destruct (create_ok ls w m pcs HM) as (x & m' & pcs' & A & B & (C1 & C2 & _) & D); [split; auto|unfold bytes in *; lia|].
    rewrite A. cbn [bind]. exists m', pcs'. split; auto. split; auto. split; [congruence|]. split; auto. rewrite D, map_app. auto.
  - apply HK. intros L1 x c L2 EV EL. apply (set_weight_ok m pcs); auto.
  - apply HK. intros L1 x c L2 EV EL. assert (HN : nth_error (map snd (vis pcs)) k = Some c) by (rewrite EV, map_app; cbn [map snd]; rewrite <- EL, <- (map_length snd L1), nth_error_app2, Nat.sub_diag by auto; auto).
    destruct (HO c HN). apply (swap_ok m pcs); auto.
  - destruct (reorganize_ok m pcs HM HP HB) as (m' & pcs' & A & B & C & D & _ & F). exists m', pcs'. auto.
Qed.
Lemma execs_ok os : forall m pcs, MI m pcs -> phase_out m = [] -> (262144 <= dsz m)%N -> ops_ok (map snd (vis pcs)) os ->
  exists m' pcs', execs os m = Ok m' /\ MI m' pcs' /\ map snd (vis pcs') = fold_left (fun l o => meaning o l) os (map snd (vis pcs)).
Proof.
  induction os as [|o os IH]; intros m pcs HM HP HB HO; cbn [execs fold_left]; [exists m, pcs; auto|]. destruct HO as (H1 & H2).
  destruct (exec_ok o m pcs HM HP HB H1) as (m1 & pcs1 & A & B & C & D & E). rewrite A. cbn [bind]. rewrite <- E in *. destruct (IH m1 pcs1 B C) as (m' & pcs' & F & G & H); auto; [rewrite D; auto|]. exists m', pcs'. auto.
Qed.
Lemma mem_new_MI mb o j : Q o -> MI (mem_new mb o j) [].
Proof. constructor; cbn; auto; try constructor. intros i []. Qed.
End Owner.

(** ** Blocks *)
Lemma vis_in pcs x c : In (x, c) (vis pcs) -> exists p cs, In (p, cs) pcs /\ fst x = pid p /\ In (snd x, c) (poss 0 cs).
Proof.
  unfold vis. rewrite in_flat_map. intros ((p, cs) & H1 & H2). exists p, cs. split; auto. unfold pvis in H2. apply in_map_iff in H2. destruct H2 as ((o, c') & E & H). cbn [fst snd] in *. injection E as <- <-. auto.
Qed.
Lemma inside_ok Q m pcs a : MI Q m pcs -> In a (vis pcs) -> inside (pages m) a.
Proof.
  intros HM. destruct a as (x, c). intros Hi. destruct (vis_in _ _ _ Hi) as (p & cs & H1 & H2 & H3). assert (HG := proj1 (Forall_forall _ _) (m_g _ _ _ HM) _ H1). cbn [fst snd] in HG.
  exists p. cbn [fst snd]. split; [rewrite (m_p _ _ _ HM); apply in_map_iff; exists (p, cs); auto|]. split; auto. apply poss_in in H3. assert (G := p_fit _ _ HG). rewrite (p_cur _ _ HG) in G. unfold bytes in G. lia.
Qed.
Lemma poss_disjoint cs : forall pos a b, a < length cs -> b < length cs -> a < b ->
  fst (nth a (poss pos cs) (0, cnull)) + S (length (lits (snd (nth a (poss pos cs) (0, cnull))))) <= fst (nth b (poss pos cs) (0, cnull)).
Proof.
  induction cs as [|c cs IH]; intros pos a b Ha Hb Hab; cbn [length] in *; [lia|]. destruct b as [|b]; [lia|]. destruct a as [|a]; cbn [poss nth].
  - assert (HL : length (poss (pos + S (length (lits c))) cs) = length cs) by (rewrite <- (map_length snd), poss_snd; auto).
    assert (HI : In (nth b (poss (pos + S (length (lits c))) cs) (0, cnull)) (poss (pos + S (length (lits c))) cs)) by (apply nth_In; lia).
    destruct (nth b (poss (pos + S (length (lits c))) cs) (0, cnull)) as (o, c') eqn:E. apply poss_in in HI. cbn [fst snd]. lia.
  - apply IH; lia.
Qed.
Lemma disjoint_sorted cs : forall pos, ForallOrdPairs (fun a b : nat * cobj => fst a + S (length (lits (snd a))) <= fst b) (poss pos cs).
Proof.
  induction cs as [|c cs IH]; intros pos; cbn [poss]; constructor; auto. apply Forall_forall. intros (o, c') Hi. apply poss_in in Hi. cbn [fst snd]. lia.
Qed.
Lemma fop_map {A B} (R : B -> B -> Prop) (f : A -> B) l : ForallOrdPairs (fun a b => R (f a) (f b)) l -> ForallOrdPairs R (map f l).
Proof. induction 1; cbn; constructor; auto. apply Forall_forall. intros y Hy. apply in_map_iff in Hy. destruct Hy as (z & <- & Hz). apply (proj1 (Forall_forall _ _) H z Hz). Qed.
Lemma fop_app {A} (R : A -> A -> Prop) l1 l2 : ForallOrdPairs R l1 -> ForallOrdPairs R l2 -> (forall a b, In a l1 -> In b l2 -> R a b) -> ForallOrdPairs R (l1 ++ l2).
Proof.
  induction 1; cbn; intros H2 HX; auto. constructor.
  - apply Forall_app. split; auto. apply Forall_forall. intros b Hb. apply HX; auto.
  - apply IHForallOrdPairs; auto.
Qed.
Lemma vis_disjoint pcs : NoDup (pids pcs) -> ForallOrdPairs (fun a b => ~ overlap a b) (vis pcs).
Proof.
  induction pcs as [|(p, cs) pcs IH]; intros HN; [constructor|]. inversion HN; subst. change (vis ((p, cs) :: pcs)) with (pvis_from p 0 cs ++ vis pcs). apply fop_app; auto.
  - unfold pvis_from. apply fop_map. assert (D := disjoint_sorted cs 0). clear - D. induction D; constructor; auto.
    apply Forall_forall. intros y Hy. assert (G := proj1 (Forall_forall _ _) H y Hy). cbn beta in G. intros (_ & k & K1 & K2). cbn [fst snd] in *. lia.
  - intros (x, c) (y, c') Hx Hy. unfold pvis_from in Hx. apply in_map_iff in Hx. destruct Hx as (z & E & _). injection E as <- <-. destruct (vis_in _ _ _ Hy) as (q & cs' & Q1 & Q2 & _).
    intros (E & _). cbn [fst snd] in E. apply H1. rewrite E, Q2. unfold pids. apply in_map_iff. exists (q, cs'). auto.
Qed.
