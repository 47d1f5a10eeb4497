(** Layout of clauses in pages. *)
Require Import List Arith Bool NArith Lia.
From Coq Require Import ZifyBool ZifyNat ZifyN.
Require Import Verif.Base Verif.Outcome Verif.CNFModel Verif.TrailModel Verif.DbModel Verif.AllocModel.
Import ListNotations.

(** ** Words *)
Definition at_ (f : nat -> N) (pos : nat) (ws : list N) : Prop := forall k, k < length ws -> f (pos + k) = nth k ws 0%N.
Lemma write_out ws : forall f i k, k < i \/ i + length ws <= k -> write f i ws k = f k.
Proof.
  induction ws as [|w ws IH]; intros f i k H; cbn [write length] in *; auto. rewrite IH by lia. unfold upd. destruct (Nat.eqb_spec k i); auto. lia.
Qed.
Lemma write_at_ ws : forall f i, at_ (write f i ws) i ws.
Proof.
  induction ws as [|w ws IH]; intros f i k H; cbn [write length nth] in *; [lia|]. destruct k as [|k].
  - rewrite Nat.add_0_r, write_out by lia. unfold upd. rewrite Nat.eqb_refl. auto.
  - replace (i + S k) with (S i + k) by lia. apply IH. lia.
Qed.
Lemma read_at n : forall f i ws, length ws = n -> at_ f i ws -> read f i n = ws.
Proof.
  induction n as [|n IH]; intros f i [|w ws] HL HA; cbn [read length] in *; try lia; auto. f_equal.
  - specialize (HA 0). rewrite Nat.add_0_r in HA. apply HA. cbn. lia.
  - apply IH; [lia|]. intros k Hk. replace (S i + k) with (i + S k) by lia. apply (HA (S k)). cbn. lia.
Qed.
Lemma read_length f n : forall i, length (read f i n) = n.
Proof. induction n as [|n IH]; intros i; cbn; auto. Qed.
Lemma read_nth f n : forall i k, k < n -> nth k (read f i n) 0%N = f (i + k).
Proof. induction n as [|n IH]; intros i k H; [lia|]. destruct k as [|k]; cbn [read nth]; [f_equal; lia|]. rewrite IH by lia. f_equal. lia. Qed.

(** ** Clauses *)
Definition okc (c : cobj) : Prop := (N.of_nat (length (lits c)) < 65536)%N /\ (wt c < 65536)%N.
Definition image (c : cobj) : list N := clause_image (lits c) (wt c).
Lemma image_length c : length (image c) = S (length (lits c)).
Proof. unfold image, clause_image. cbn. rewrite map_length. auto. Qed.
Lemma header_len n w : (n < 65536)%N -> hlen (header n w) = N.to_nat n.
Proof. intros H. unfold hlen, header. f_equal. rewrite (N.mul_comm 65536), N.mod_add by lia. rewrite N.mod_mod by lia. apply N.mod_small. auto. Qed.
Lemma header_wt n w : (w < 65536)%N -> hwt (header n w) = w.
Proof.
  intros H. unfold hwt, header. rewrite (N.mod_small w) by auto. rewrite (N.mul_comm 65536), N.div_add by lia. rewrite N.div_small; [auto|]. apply N.mod_upper_bound. lia.
Qed.
Lemma map_to_of ls : map N.to_nat (map N.of_nat ls) = ls.
Proof. rewrite map_map. rewrite <- (map_id ls) at 2. apply map_ext. intros. apply Nat2N.id. Qed.
Lemma at_hlen f pos c : okc c -> at_ f pos (image c) -> hlen (f pos) = length (lits c).
Proof.
  intros (H1 & H2) HA. specialize (HA 0). rewrite Nat.add_0_r, image_length in HA. rewrite HA by lia. cbn [image clause_image nth]. rewrite header_len by auto. lia.
Qed.
Lemma clause_at_ok p pos c : okc c -> at_ (pw p) pos (image c) -> clause_at p pos = c.
Proof.
  intros HO HA. unfold clause_at. rewrite (at_hlen _ _ c HO HA).
  rewrite (read_at (length (lits c)) (pw p) (S pos) (map N.of_nat (lits c))).
  - rewrite map_to_of. assert (E := HA 0). rewrite Nat.add_0_r, image_length in E. rewrite E by lia. unfold image, clause_image. cbn [nth]. rewrite header_wt by apply HO. destruct c; reflexivity.
  - apply map_length.
  - intros k Hk. rewrite map_length in Hk. specialize (HA (S k)). rewrite image_length in HA. replace (S pos + k) with (pos + S k) by lia. rewrite HA by (unfold lit in *; lia). reflexivity.
Qed.

(** ** Pages *)
Definition words (cs : list cobj) : nat := list_sum (map (fun c => S (length (lits c))) cs).
Fixpoint layout (f : nat -> N) (pos : nat) (cs : list cobj) : Prop :=
  match cs with [] => True | c :: r => at_ f pos (image c) /\ layout f (pos + S (length (lits c))) r end.
Fixpoint poss (pos : nat) (cs : list cobj) : list (nat * cobj) :=
  match cs with [] => [] | c :: r => (pos, c) :: poss (pos + S (length (lits c))) r end.
Lemma words_cons c cs : words (c :: cs) = S (length (lits c)) + words cs.
Proof. reflexivity. Qed.
Lemma words_app a b : words (a ++ b) = words a + words b.
Proof. unfold words. rewrite map_app, list_sum_app. auto. Qed.
Lemma poss_snd cs : forall pos, map snd (poss pos cs) = cs.
Proof. induction cs as [|c cs IH]; intros pos; cbn; auto. rewrite IH. auto. Qed.
Lemma poss_app a b : forall pos, poss pos (a ++ b) = poss pos a ++ poss (pos + words a) b.
Proof.
  induction a as [|c a IH]; intros pos; cbn [app poss]; [unfold words; cbn; rewrite Nat.add_0_r; auto|]. rewrite IH, words_cons. f_equal. f_equal. f_equal. lia.
Qed.
Lemma poss_in cs : forall pos o c, In (o, c) (poss pos cs) -> pos <= o /\ o + S (length (lits c)) <= pos + words cs.
Proof.
  induction cs as [|c0 cs IH]; intros pos o c; cbn [poss]; [intros []|]. rewrite words_cons. intros [E|H].
  - injection E as <- <-. lia.
  - apply IH in H. lia.
Qed.
Lemma layout_ext f f' cs : forall pos, (forall k, pos <= k < pos + words cs -> f' k = f k) -> layout f pos cs -> layout f' pos cs.
Proof.
  induction cs as [|c cs IH]; intros pos HE; cbn [layout]; auto. rewrite words_cons in HE. intros (H1 & H2). split.
  - intros k Hk. rewrite <- H1 by auto. rewrite image_length in Hk. apply HE. lia.
  - apply IH; auto. intros k Hk. apply HE. lia.
Qed.
Lemma layout_app f a b : forall pos, layout f pos (a ++ b) <-> layout f pos a /\ layout f (pos + words a) b.
Proof.
  induction a as [|c a IH]; intros pos; cbn [app layout]; [unfold words; cbn; rewrite Nat.add_0_r; tauto|]. rewrite IH, words_cons.
  replace (pos + S (length (lits c)) + words a) with (pos + (S (length (lits c)) + words a)) by lia. tauto.
Qed.
Lemma layout_in f cs : forall pos o c, In (o, c) (poss pos cs) -> layout f pos cs -> at_ f o (image c).
Proof.
  induction cs as [|c0 cs IH]; intros pos o c; cbn [poss layout]; [intros []|]. intros [E|H] (H1 & H2); [injection E as <- <-; auto|eauto].
Qed.
Lemma layout_replace f f' a c c' b pos : layout f pos (a ++ c :: b) -> length (lits c') = length (lits c) ->
  (forall k, k < pos + words a \/ pos + words a + S (length (lits c)) <= k -> f' k = f k) -> at_ f' (pos + words a) (image c') -> layout f' pos (a ++ c' :: b).
Proof.
  rewrite !layout_app. cbn [layout]. intros (H1 & H2 & H3) HL HO HA. split; [|split; auto].
  - apply (layout_ext f); auto. intros k Hk. apply HO. lia.
  - rewrite HL. apply (layout_ext f); auto. intros k Hk. apply HO. lia.
Qed.

Record PG (p : page) (cs : list cobj) : Prop := {
  p_lay : layout (pw p) 0 cs;
  p_cur : pcur p = words cs;
  p_fit : (bytes (pcur p) <= psz p)%N;
  p_ok : Forall okc cs }.
Lemma walk_ok p fuel : forall cs pos, layout (pw p) pos cs -> Forall okc cs -> pcur p = pos + words cs -> words cs < fuel ->
  page_walk fuel p pos = Ok (poss pos cs).
Proof.
  induction fuel as [|fuel IH]; intros cs pos HL HO HC HF; [lia|]. cbn [page_walk]. destruct cs as [|c cs].
  - unfold words in HC. cbn in HC. rewrite Nat.add_0_r in HC. rewrite HC, Nat.eqb_refl. reflexivity.
  - rewrite words_cons in *. destruct HL as (H1 & H2). inversion HO; subst. rewrite (at_hlen _ _ c) by auto. unfold cwords.
    destruct (Nat.eqb_spec pos (pcur p)); [lia|]. destruct (Nat.ltb_spec (pcur p) (pos + S (length (lits c)))); [lia|].
    rewrite (IH cs) by (auto; lia). cbn [bind poss]. rewrite (clause_at_ok p pos c); auto.
Qed.
Lemma page_clauses_ok p cs : PG p cs -> page_clauses p = Ok (poss 0 cs).
Proof. intros [H1 H2 H3 H4]. unfold page_clauses. apply walk_ok; auto. lia. Qed.
Lemma PG_new i s j : PG (mkPage i s 0 j) [].
Proof. constructor; cbn; auto. lia. Qed.
Lemma PG_push p cs c : PG p cs -> okc c -> (bytes (pcur p + S (length (lits c))) <= psz p)%N ->
  exists p', page_write (pcur p) (image c) (mkPage (pid p) (psz p) (pcur p + cwords (length (lits c))) (pw p)) = Ok p' /\ PG p' (cs ++ [c]) /\ pid p' = pid p.
Proof.
  intros [H1 H2 H3 H4] HO HB. unfold page_write. cbn [psz]. rewrite image_length. destruct (N.leb_spec (bytes (pcur p + S (length (lits c)))) (psz p)); [|lia]. eexists. split; [reflexivity|]. cbn [pid pcur pw]. split; auto. constructor; cbn [pcur pw psz].
  - rewrite layout_app. split.
    + apply (layout_ext (pw p)); auto. intros k Hk. apply write_out. lia.
    + cbn [layout]. split; auto. rewrite <- H2. apply write_at_.
  - rewrite words_app, words_cons. unfold words at 2. cbn. unfold cwords. lia.
  - unfold cwords. auto.
  - apply Forall_app. auto.
Qed.

(** ** Memories *)
Definition pvis (pc : page * list cobj) : list (ptr * cobj) := map (fun x => ((pid (fst pc), fst x), snd x)) (poss 0 (snd pc)).
Definition vis (pcs : list (page * list cobj)) : list (ptr * cobj) := flat_map pvis pcs.
Definition PS (pcs : list (page * list cobj)) : Prop := Forall (fun pc => PG (fst pc) (snd pc)) pcs /\ NoDup (map (fun pc => pid (fst pc)) pcs).

Lemma walk_page p cs pos : PG p cs -> forall a b, cs = a ++ b -> pos = words a -> b <> [] ->
  exists c r, b = c :: r /\ hlen (pw p pos) = length (lits c) /\ clause_at p pos = c /\ pos + S (length (lits c)) <= pcur p.
Proof.
  intros [H1 H2 H3 H4] a b -> -> HB. destruct b as [|c r]; [congruence|]. exists c, r. rewrite layout_app in H1. cbn [layout plus] in H1. destruct H1 as (_ & H1 & _).
  apply Forall_app in H4. destruct H4 as (_ & H4). inversion H4; subst. split; auto. split; [apply at_hlen; auto|]. split; [apply clause_at_ok; auto|]. rewrite H2, words_app, words_cons. lia.
Qed.
Definition pvis_from (p : page) (pos : nat) (cs : list cobj) : list (ptr * cobj) := map (fun x => ((pid p, fst x), snd x)) (poss pos cs).
Lemma skip_ok pcs p a b : PG p (a ++ b) -> Forall (fun pc => PG (fst pc) (snd pc)) pcs ->
  let '(ps1, pos1) := skip_empty_pages (p :: map fst pcs) (words a) in
  (ps1 = [] /\ b = [] /\ vis pcs = []) \/
  exists p1 a1 b1 pcs1, ps1 = p1 :: map fst pcs1 /\ pos1 = words a1 /\ b1 <> [] /\ PG p1 (a1 ++ b1) /\ Forall (fun pc => PG (fst pc) (snd pc)) pcs1 /\
    pvis_from p (words a) b ++ vis pcs = pvis_from p1 (words a1) b1 ++ vis pcs1 /\ length b1 + list_sum (map (fun pc => length (snd pc)) pcs1) = length b + list_sum (map (fun pc => length (snd pc)) pcs).
Proof.
  revert p a b. induction pcs as [|(p2, cs2) pcs IH]; intros p a b HP HF; cbn [skip_empty_pages map fst].
  - rewrite (p_cur _ _ HP), words_app. destruct (Nat.eqb_spec (words a) (words a + words b)) as [E|E].
    + left. destruct b as [|c b]; auto. rewrite words_cons in E. lia.
    + right. exists p, a, b, []. split; auto. split; auto. split; [intros ->; unfold words in E; cbn in E; lia|]. split; auto.
  - rewrite (p_cur _ _ HP), words_app. destruct (Nat.eqb_spec (words a) (words a + words b)) as [E|E].
    + assert (b = []) by (destruct b as [|c b]; auto; rewrite words_cons in E; lia). subst b. inversion HF; subst. cbn [fst snd] in *.
      specialize (IH p2 [] cs2 H1 H2). cbn [skip_empty_pages map fst] in IH. change (words []) with 0 in IH.
      destruct (if 0 =? pcur p2 then skip_empty_pages (map fst pcs) 0 else (p2 :: map fst pcs, 0)) as (ps1, pos1).
      destruct IH as [(I1 & I2 & I3)|(p1 & a1 & b1 & pcs1 & I1 & I2 & I3 & I4 & I5 & I6 & I7)].
      * left. split; auto. split; auto. subst cs2. cbn. auto.
      * right. exists p1, a1, b1, pcs1. tauto.
    + right. exists p, a, b, ((p2, cs2) :: pcs). split; auto. split; auto. split; [intros ->; unfold words in E; cbn in E; lia|]. split; auto.
Qed.
Lemma mem_walk_ok fuel : forall pcs p a b, PG p (a ++ b) -> Forall (fun pc => PG (fst pc) (snd pc)) pcs -> b <> [] ->
  length b + list_sum (map (fun pc => length (snd pc)) pcs) < fuel ->
  mem_walk fuel (p :: map fst pcs) (words a) = Ok (pvis_from p (words a) b ++ vis pcs).
Proof.
  induction fuel as [|fuel IH]; intros pcs p a b HP HF HB HL; [lia|]. cbn [mem_walk].
  destruct (walk_page p (a ++ b) (words a) HP a b eq_refl eq_refl HB) as (c & r & -> & E1 & E2 & E3). rewrite E1. unfold cwords. destruct (Nat.ltb_spec (pcur p) (words a + S (length (lits c)))); [lia|].
  assert (EW : words a + S (length (lits c)) = words (a ++ [c])) by (rewrite words_app, words_cons; unfold words at 3; cbn; lia).
  assert (HP2 : PG p ((a ++ [c]) ++ r)) by (rewrite <- app_assoc; auto).
  assert (HS := skip_ok pcs p (a ++ [c]) r HP2 HF). rewrite EW. destruct (skip_empty_pages (p :: map fst pcs) (words (a ++ [c]))) as (ps1, pos1).
  assert (EV : pvis_from p (words a) (c :: r) = ((pid p, words a), c) :: pvis_from p (words (a ++ [c])) r) by (unfold pvis_from; cbn [poss map fst snd]; rewrite EW; auto).
  rewrite EV, E2. cbn [length] in HL. destruct HS as [(-> & -> & ->)|(p1 & a1 & b1 & pcs1 & -> & -> & I3 & I4 & I5 & I6 & I7)].
  - destruct fuel; [lia|]. reflexivity.
  - rewrite (IH pcs1 p1 a1 b1) by (auto; lia). cbn [bind app]. rewrite I6. reflexivity.
Qed.
Lemma words_ge cs : length cs <= words cs.
Proof. induction cs as [|c cs IH]; [auto|]. rewrite words_cons. cbn [length]. lia. Qed.
Lemma mem_clauses_ok m pcs : pages m = map fst pcs -> Forall (fun pc => PG (fst pc) (snd pc)) pcs -> mem_clauses m = Ok (vis pcs).
Proof.
  intros E HF. unfold mem_clauses. rewrite E. destruct pcs as [|(p, cs) pcs]; [reflexivity|]. inversion HF; subst. cbn [fst snd] in *.
  assert (HS := skip_ok pcs p [] cs H1 H2). change (words []) with 0 in HS. cbn [map fst]. destruct (skip_empty_pages (p :: map fst pcs) 0) as (ps1, pos1).
  destruct HS as [(-> & -> & EV)|(p1 & a1 & b1 & pcs1 & -> & -> & I3 & I4 & I5 & I6 & I7)].
  - change (vis ((p, []) :: pcs)) with (vis pcs). rewrite EV. reflexivity.
  - rewrite (mem_walk_ok _ pcs1 p1 a1 b1); auto.
    + rewrite <- I6. reflexivity.
    + rewrite I7. unfold used_words. cbn [map list_sum fold_right]. rewrite (p_cur _ _ H1). assert (G := words_ge cs).
      assert (GS : list_sum (map (fun pc : page * list cobj => length (snd pc)) pcs) <= list_sum (map pcur (map fst pcs))).
      { clear - H2. induction pcs as [|(p2, cs2) pcs IH]; cbn; auto. inversion H2; subst. cbn [fst snd] in *. rewrite (p_cur _ _ H1). assert (G := words_ge cs2). specialize (IH H3). unfold list_sum in *. lia. }
      unfold list_sum in *. lia.
Qed.
