(** Proofs about GateDFSTraversal. *)
Require Import List Arith Bool Lia Permutation.
Require Import Verif.Base Verif.Outcome Verif.CNFModel Verif.CNFProofs Verif.TrailProofs Verif.GateModel Verif.GateSpec Verif.BlockProofs.
Import ListNotations.

Section D.
Variable prune : var -> bool.
Variable gs : list gate.
Variable root_lits : list lit.
Notation reach := (reachable prune gs root_lits).
Notation inp v := (g_inp (nth v gs gate_none)).

Definition markers (work : list (var * bool)) : list var := flat_map (fun e : var * bool => if snd e then [fst e] else []) work.
Lemma markers_in w v : In v (markers w) <-> In (v, true) w.
Proof. unfold markers. rewrite in_flat_map. split; [intros ((x, b) & H & H'); destruct b; [destruct H' as [<-|[]]; auto|destruct H']|intros H; exists (v, true); split; auto; left; auto]. Qed.
Lemma markers_false l w : (forall e, In e l -> snd e = false) -> markers (l ++ w) = markers w.
Proof. induction l as [|(v, b) l IH]; intros H; auto. cbn. specialize (H (v, b) (or_introl eq_refl)) as Hb. cbn in Hb. subst b. apply IH. intros e He. apply H. right. auto. Qed.
Lemma defined_lt v : defined gs v = true -> v < length gs.
Proof. unfold defined. intros H. destruct (Nat.lt_ge_cases v (length gs)); auto. rewrite nth_overflow in H by auto. discriminate. Qed.

Lemma push_spec visited : forall ins work seen w s es, push_inputs prune gs visited ins work seen = (w, s, es) ->
  (exists pushed, w = pushed ++ work /\ length pushed <= length ins /\ (forall e, In e pushed -> snd e = false /\ defined gs (fst e) = true /\ prune (fst e) = false /\ exists i, In i ins /\ lvar i = fst e) /\
    (forall i, In i ins -> defined gs (lvar i) = true -> prune (lvar i) = false -> In (lvar i) visited \/ In (lvar i, false) pushed)) /\
  (forall v, In v s <-> In v seen \/ (defined gs v = false /\ exists i, In i ins /\ lvar i = v)) /\ (NoDup seen -> NoDup s) /\ s = rev (input_vars es) ++ seen /\ backtracked es = [] /\ collected es = [].
Proof.
  induction ins as [|i ins IH]; intros work seen w s es E; cbn [push_inputs] in E.
  - injection E as <- <- <-. split; [exists []; split; [auto|split; [auto|split; [intros ? []|intros ? []]]]|]. split; [intros v; split; auto; intros [H|(_ & i & [] & _)]; auto|]. auto.
  - destruct (defined gs (lvar i) && negb (existsb (Nat.eqb (lvar i)) visited) && negb (prune (lvar i))) eqn:E1.
    + apply andb_true_iff in E1. destruct E1 as (E1 & P). apply andb_true_iff in E1. destruct E1 as (D & V). rewrite negb_true_iff in P. destruct (IH _ _ _ _ _ E) as ((pu & A1 & A2 & A3 & A4) & B1 & B2 & B3). split; [|split; [|split]]; auto.
      * exists (pu ++ [(lvar i, false)]). split; [rewrite <- app_assoc; auto|]. split; [rewrite app_length; cbn; lia|]. split.
        -- intros e He. apply in_app_or in He. destruct He as [He|[<-|[]]]; [destruct (A3 e He) as (C1 & C2 & C3 & j & C4 & C5); repeat split; auto; exists j; split; auto; right; auto|]. cbn [fst snd]. repeat split; auto. exists i. split; auto. left. auto.
        -- intros j [<-|Hj] Dj Pj; [right; apply in_or_app; right; left; auto|]. destruct (A4 j Hj Dj Pj); auto. right. apply in_or_app. auto.
      * intros v. rewrite B1. split; [intros [H|(H & j & Hj & Ej)]; auto; right; split; auto; exists j; split; auto; right; auto|intros [H|(H & j & [<-|Hj] & Ej)]; auto; [congruence|right; split; auto; exists j; auto]].
    + destruct (negb (defined gs (lvar i)) && negb (existsb (Nat.eqb (lvar i)) seen)) eqn:E2.
      * destruct (push_inputs prune gs visited ins work (lvar i :: seen)) as ((w1, s1), es1) eqn:EP. injection E as <- <- <-. apply andb_true_iff in E2. destruct E2 as (D & S). apply negb_true_iff in D. apply negb_true_iff in S. destruct (IH _ _ _ _ _ EP) as ((pu & A1 & A2 & A3 & A4) & B1 & B2 & B3 & B4 & B5). split; [|split; [|split; [|split; [|split]]]]; auto.
        -- exists pu. split; auto. split; [cbn; lia|]. split.
           ++ intros e He. destruct (A3 e He) as (C1 & C2 & C3 & j & C4 & C5); repeat split; auto; exists j; split; auto; right; auto.
           ++ intros j [<-|Hj] Dj Pj; [congruence|auto].
        -- intros v. rewrite B1. cbn [In]. split; [intros [[<-|H]|(H & j & Hj & Ej)]; auto; right; split; auto; [exists i; auto|exists j; auto]|]. intros [H|(H & j & [<-|Hj] & Ej)]; auto. right. split; auto. exists j. auto.
        -- intros HN. apply B2. constructor; auto. intros H. apply mem_spec in H. congruence.
        -- cbn [input_vars flat_map]. rewrite B3. unfold input_vars. cbn [app rev]. rewrite <- app_assoc. auto.
      * destruct (IH _ _ _ _ _ E) as ((pu & A1 & A2 & A3 & A4) & B1 & B2 & B3). split; [|split; [|split]]; auto.
        -- exists pu. split; auto. split; [cbn; lia|]. split.
           ++ intros e He. destruct (A3 e He) as (C1 & C2 & C3 & j & C4 & C5); repeat split; auto; exists j; split; auto; right; auto.
           ++ intros j [<-|Hj] Dj Pj; auto. rewrite Dj, Pj in E1. cbn in E1. rewrite andb_true_r in E1. apply negb_false_iff, mem_spec in E1. auto.
        -- intros v. rewrite B1. split; [intros [H|(H & j & Hj & Ej)]; auto; right; split; auto; exists j; split; auto; right; auto|]. intros [H|(H & j & [<-|Hj] & Ej)]; auto; [|right; split; auto; exists j; auto].
           subst v. rewrite H in E2. cbn in E2. apply negb_false_iff, mem_spec in E2. auto.
Qed.

Record St (work : list (var * bool)) (visited seen dn : list var) : Prop := {
  s_vis : Permutation visited (dn ++ markers work);
  s_nd : NoDup visited;
  s_reach : forall v b, In (v, b) work -> reach v /\ defined gs v = true;
  s_vreach : forall v, In v visited -> reach v;
  s_roots : forall l, In l root_lits -> defined gs (lvar l) = true -> prune (lvar l) = false -> In (lvar l) visited \/ In (lvar l, false) work;
  s_closed : forall u v, In u visited -> child prune gs u v -> In v visited \/ In (v, false) work;
  s_path : forall a w b, work = a ++ (w, true) :: b -> forall x s, In (x, s) a -> path prune gs w x;
  s_child : forall a u b v, work = a ++ (u, true) :: b -> child prune gs u v -> In v visited \/ In (v, false) a;
  s_order : acyclic prune gs -> forall u v, In u dn -> child prune gs u v -> before v u dn;
  s_seen : forall v, In v seen <-> defined gs v = false /\ exists u, In u visited /\ exists i, In i (inp u) /\ lvar i = v;
  s_snd : NoDup seen
}.
Definition pot (visited : list var) : nat := list_sum (map (fun v => if existsb (Nat.eqb v) visited then 0 else S (length (inp v))) (seq 0 (length gs))).
Lemma pot_visit v visited : v < length gs -> ~ In v visited -> pot (v :: visited) + S (length (inp v)) = pot visited.
Proof.
  intros Hv HN. unfold pot. assert (Hs : In v (seq 0 (length gs))) by (apply in_seq; lia). pose proof (seq_NoDup (length gs) 0) as ND. apply in_split in Hs. destruct Hs as (a & b & E). rewrite E in *. rewrite !map_app, !list_sum_app. cbn [map list_sum fold_right]. fold list_sum. apply NoDup_remove_2 in ND.
  assert (EX : forall l, ~ In v l -> map (fun w => if existsb (Nat.eqb w) (v :: visited) then 0 else S (length (inp w))) l = map (fun w => if existsb (Nat.eqb w) visited then 0 else S (length (inp w))) l).
  { intros l Hl. apply map_ext_in. intros w Hw. cbn [existsb]. destruct (Nat.eqb_spec w v) as [->|]; auto. contradiction. }
  rewrite !EX by (intros H; apply ND, in_or_app; auto). cbn [existsb]. rewrite Nat.eqb_refl. cbn [orb]. destruct (existsb (Nat.eqb v) visited) eqn:EV; [apply mem_spec in EV; contradiction|]. unfold list_sum. cbn [map fold_right]. lia.
Qed.

Definition Final (D V S : list var) : Prop :=
  (NoDup D /\ (forall v, In v D <-> reach v) /\ (acyclic prune gs -> forall u v, In u D -> child prune gs u v -> before v u D)) /\
  (NoDup V /\ forall v, In v V <-> reach v) /\
  (NoDup S /\ forall v, In v S <-> defined gs v = false /\ exists u, reach u /\ exists i, In i (inp u) /\ lvar i = v).

Lemma before_snoc {A} (x y z : A) l : before x y l -> before x y (l ++ [z]).
Proof. intros (a & b & c & ->). exists a, b, (c ++ [z]). rewrite <- !app_assoc. cbn [app]. rewrite <- app_assoc. auto. Qed.

Lemma loop_final : forall fuel work visited seen dn, St work visited seen dn -> length work + pot visited < fuel -> exists es, dfs_loop fuel prune gs work visited seen = Ok es /\ Final (dn ++ backtracked es) (rev visited ++ collected es) (rev seen ++ input_vars es).
Proof.
  induction fuel as [|fuel IH]; intros work visited seen dn HS HL; [lia|]. destruct work as [|(v, back) work].
  - exists []. split; auto. cbn [backtracked collected input_vars flat_map]. rewrite !app_nil_r. pose proof (s_vis _ _ _ _ HS) as PV. cbn [markers flat_map] in PV. rewrite app_nil_r in PV.
    assert (RV : forall v, reach v -> In v visited). { induction 1 as [l Hl D P|u w Hu IHu Hc]; [destruct (s_roots _ _ _ _ HS l Hl D P) as [H|[]]; auto|destruct (s_closed _ _ _ _ HS u w IHu Hc) as [H|[]]; auto]. }
    assert (RI : forall v, In v visited <-> reach v) by (intros v; split; [apply (s_vreach _ _ _ _ HS)|auto]).
    split; [|split].
    + split; [apply (Permutation_NoDup PV), (s_nd _ _ _ _ HS)|]. split; [|apply (s_order _ _ _ _ HS)]. intros v. rewrite <- RI. split; intros H; [apply (Permutation_in _ (Permutation_sym PV)); auto|apply (Permutation_in _ PV); auto].
    + split; [apply NoDup_rev, (s_nd _ _ _ _ HS)|]. intros v. rewrite <- in_rev. auto.
    + split; [apply NoDup_rev, (s_snd _ _ _ _ HS)|]. intros v. rewrite <- in_rev, (s_seen _ _ _ _ HS). split; intros (D & u & Hu & H); split; auto; exists u; split; auto; apply RI; auto.
  - cbn [dfs_loop]. destruct back.
    + (* backtrack *)
      assert (PV : Permutation visited ((dn ++ [v]) ++ markers work)) by (rewrite (s_vis _ _ _ _ HS), <- app_assoc; auto).
      destruct (IH work visited seen (dn ++ [v])) as (es & E & HF).
      * split; [exact PV|apply (s_nd _ _ _ _ HS)| |apply (s_vreach _ _ _ _ HS)| | | | | |apply (s_seen _ _ _ _ HS)|apply (s_snd _ _ _ _ HS)].
        -- intros w b Hw. apply (s_reach _ _ _ _ HS w b). right. auto.
        -- intros l Hl D P. destruct (s_roots _ _ _ _ HS l Hl D P) as [H|[H|H]]; auto. discriminate.
        -- intros u w Hu Hc. destruct (s_closed _ _ _ _ HS u w Hu Hc) as [H|[H|H]]; auto. discriminate.
        -- intros a w b E x s Hx. apply (s_path _ _ _ _ HS ((v, true) :: a) w b) with s; [rewrite E; auto|right; auto].
        -- intros a u b w E Hc. destruct (s_child _ _ _ _ HS ((v, true) :: a) u b w) as [H|[H|H]]; auto; [rewrite E; auto|discriminate].
        -- intros AC u w Hu Hc. apply in_app_or in Hu. destruct Hu as [Hu|[<-|[]]]; [apply before_snoc, (s_order _ _ _ _ HS AC u w); auto|].
           destruct (s_child _ _ _ _ HS [] v work w eq_refl Hc) as [H|[]]. apply (Permutation_in _ (s_vis _ _ _ _ HS)) in H. apply in_app_or in H. destruct H as [H|H].
           ++ apply in_split in H. destruct H as (a & b & ->). exists a, b, []. rewrite <- app_assoc. auto.
           ++ exfalso. apply markers_in in H. destruct H as [H|H]; [injection H as ->; apply (AC w); constructor; auto|]. apply in_split in H. destruct H as (a & b & ->). apply (AC v). apply (p_more prune gs v w v Hc). apply (s_path _ _ _ _ HS ((v, true) :: a) w b eq_refl v true). left. auto.
      * cbn [length] in HL. lia.
      * rewrite E. cbn [bind]. exists (EBacktrack v :: es). split; auto. cbn [backtracked collected input_vars flat_map app]. rewrite <- app_assoc in HF. exact HF.
    + destruct (s_reach _ _ _ _ HS v false (or_introl eq_refl)) as (RV & DV). destruct (existsb (Nat.eqb v) visited) eqn:EV.
      * apply mem_spec in EV. apply (IH work visited seen dn); [|cbn [length] in HL; lia].
        split; [apply (s_vis _ _ _ _ HS)|apply (s_nd _ _ _ _ HS)| |apply (s_vreach _ _ _ _ HS)| | | | |apply (s_order _ _ _ _ HS)|apply (s_seen _ _ _ _ HS)|apply (s_snd _ _ _ _ HS)].
        -- intros w b Hw. apply (s_reach _ _ _ _ HS w b). right. auto.
        -- intros l Hl D P. destruct (s_roots _ _ _ _ HS l Hl D P) as [H|[H|H]]; auto. injection H as <-. auto.
        -- intros u w Hu Hc. destruct (s_closed _ _ _ _ HS u w Hu Hc) as [H|[H|H]]; auto. injection H as <-. auto.
        -- intros a w b E x s Hx. apply (s_path _ _ _ _ HS ((v, false) :: a) w b) with s; [rewrite E; auto|right; auto].
        -- intros a u b w E Hc. destruct (s_child _ _ _ _ HS ((v, false) :: a) u b w) as [H|[H|H]]; auto; [rewrite E; auto|]. injection H as <-. auto.
      * assert (NV : ~ In v visited) by (intros H; apply mem_spec in H; congruence). destruct (push_inputs prune gs (v :: visited) (inp v) ((v, true) :: work) seen) as ((w, s), es) eqn:EP.
        destruct (push_spec _ _ _ _ _ _ _ EP) as ((pu & A1 & A2 & A3 & A4) & B1 & B2 & B3 & B4 & B5).
        assert (A3' : forall e, In e pu -> snd e = false) by (intros e He; apply A3; auto).
        assert (CH : forall x b, In (x, b) pu -> child prune gs v x). { intros x b Hx. destruct (A3 _ Hx) as (_ & D & P & i & Hi & Ei). cbn [fst] in *. split; auto. split; auto. exists i. auto. }
        assert (MW : forall x, In (x, false) work -> In (x, false) w) by (intros x Hx; rewrite A1; apply in_or_app; right; right; auto).
        assert (SPL : forall a u b, w = a ++ (u, true) :: b -> (u = v /\ a = pu) \/ exists a', a = pu ++ (v, true) :: a' /\ work = a' ++ (u, true) :: b).
        { intros a u b E. rewrite A1 in E. clear - E A3'. revert a E. induction pu as [|e pu IH]; intros a E; cbn [app] in E.
          - destruct a as [|x a]; cbn [app] in E; injection E; [intros _ ->; auto|intros E1 <-; right; exists a; auto].
          - destruct a as [|x a]; cbn [app] in E; injection E as E1 E2; [subst; specialize (A3' _ (or_introl eq_refl)); discriminate|]. subst x. destruct (IH (fun e H => A3' e (or_intror H)) a E2) as [(-> & ->)|(a' & -> & E3)]; auto. right. exists a'. auto. }
        destruct (IH w (v :: visited) s dn) as (es' & E & HF).
        -- split.
           ++ rewrite A1, markers_false by auto. change (markers ((v, true) :: work)) with (v :: markers work). rewrite <- Permutation_middle. constructor. apply (s_vis _ _ _ _ HS).
           ++ constructor; auto. apply (s_nd _ _ _ _ HS).
           ++ intros x b Hx. rewrite A1 in Hx. apply in_app_or in Hx. destruct Hx as [Hx|[Hx|Hx]]; [|injection Hx as <- _; auto|apply (s_reach _ _ _ _ HS x b); right; auto]. split; [apply (r_child _ _ _ v); auto; eapply CH; eauto|]. apply (A3 _ Hx).
           ++ intros x [<-|Hx]; auto. apply (s_vreach _ _ _ _ HS). auto.
           ++ intros l Hl D P. destruct (s_roots _ _ _ _ HS l Hl D P) as [H|[H|H]]; [left; right; auto|left; left; injection H; auto|right; auto].
           ++ intros u x [<-|Hu] Hc.
              ** destruct Hc as (D & P & i & Hi & <-). destruct (A4 i Hi D P); auto. right. rewrite A1. apply in_or_app. auto.
              ** destruct (s_closed _ _ _ _ HS u x Hu Hc) as [H|[H|H]]; [left; right; auto|left; left; injection H; auto|right; auto].
           ++ intros a u b E x t Hx. destruct (SPL a u b E) as [(-> & ->)|(a' & -> & E3)]; [constructor; eapply CH; eauto|].
              assert (PU : path prune gs u v) by (apply (s_path _ _ _ _ HS ((v, false) :: a') u b) with false; [rewrite E3; auto|left; auto]).
              apply in_app_or in Hx. destruct Hx as [Hx|[Hx|Hx]]; [|injection Hx as <- _; auto|apply (s_path _ _ _ _ HS ((v, false) :: a') u b) with t; [rewrite E3; auto|right; auto]].
              specialize (CH _ _ Hx). clear - PU CH. induction PU as [u v H|u y z H Hp IHp]; [apply (p_more _ _ _ v); auto; constructor; auto|apply (p_more _ _ _ y); auto].
           ++ intros a u b x E Hc. destruct (SPL a u b E) as [(-> & ->)|(a' & -> & E3)].
              ** destruct Hc as (D & P & i & Hi & <-). apply (A4 i Hi D P).
              ** destruct (s_child _ _ _ _ HS ((v, false) :: a') u b x) as [H|[H|H]]; auto; [rewrite E3; auto|left; right; auto|left; left; injection H; auto|]. right. apply in_or_app. right. right. auto.
           ++ apply (s_order _ _ _ _ HS).
           ++ intros x. rewrite B1, (s_seen _ _ _ _ HS). split.
              ** intros [(D & u & Hu & H)|(D & H)]; split; auto; [exists u; split; auto; right; auto|exists v; split; auto; left; auto].
              ** intros (D & u & [<-|Hu] & H); [right; auto|left; split; auto; exists u; auto].
           ++ apply B2, (s_snd _ _ _ _ HS).
        -- pose proof (pot_visit v visited (defined_lt v DV) NV). rewrite A1, app_length. cbn [length] in *. unfold lit, var in *. lia.
        -- rewrite E. cbn [bind]. exists (ECollect v :: es ++ es'). split; auto. unfold backtracked, collected, input_vars in *. cbn [flat_map app]. rewrite !flat_map_app, B4, B5. cbn [app]. cbn [rev] in HF. rewrite B3, rev_app_distr, rev_involutive, <- !app_assoc in HF. exact HF.
Qed.
Lemma dfs_ok : exists es, traverseDFS prune gs root_lits = Ok es /\ Final (backtracked es) (collected es) (input_vars es).
Proof.
  unfold traverseDFS. destruct (loop_final (dfs_fuel gs root_lits) (dfs_start prune gs root_lits) [] [] []) as (es & E & HF).
  - assert (HM : forall v b, In (v, b) (dfs_start prune gs root_lits) <-> b = false /\ defined gs v = true /\ prune v = false /\ exists l, In l root_lits /\ lvar l = v).
    { intros v b. unfold dfs_start. rewrite <- in_rev, in_map_iff. split.
      - intros (x & E & H). injection E as -> <-. apply filter_In in H. destruct H as (H & H'). apply andb_true_iff in H'. destruct H' as (D & P). apply negb_true_iff in P. apply in_map_iff in H. destruct H as (l & H1 & H2). repeat split; auto. exists l. auto.
      - intros (-> & D & P & l & Hl & <-). exists (lvar l). split; auto. apply filter_In. rewrite D, P. split; auto. apply in_map. auto. }
    assert (NM : forall a w b, dfs_start prune gs root_lits = a ++ (w, true) :: b -> False) by (intros a w b E; assert (H : In (w, true) (dfs_start prune gs root_lits)) by (rewrite E; apply in_or_app; right; left; auto); apply HM in H; destruct H; discriminate).
    split.
    + rewrite <- (app_nil_r (dfs_start prune gs root_lits)), markers_false; auto. intros (v, b) He. apply HM in He. tauto.
    + constructor.
    + intros v b H. apply HM in H. destruct H as (_ & D & P & l & Hl & <-). split; auto. constructor; auto.
    + intros v [].
    + intros l Hl D P. right. apply HM. repeat split; auto. exists l. auto.
    + intros u v [].
    + intros a w b E. exfalso. apply (NM _ _ _ E).
    + intros a u b v E. exfalso. apply (NM _ _ _ E).
    + intros _ u v [].
    + intros v. split; [intros []|]. intros (_ & u & [] & _).
    + constructor.
  - unfold dfs_fuel. assert (L1 : length (dfs_start prune gs root_lits) <= length root_lits). { unfold dfs_start. rewrite rev_length, map_length. rewrite <- (map_length lvar root_lits). generalize (map lvar root_lits). intros l. induction l as [|x l IH]; cbn; auto. destruct (_ && _); cbn; lia. }
    assert (L2 : pot [] = length (flat_map g_inp gs) + length gs). { unfold pot. cbn [existsb]. clear. rewrite <- (map_map (fun v => nth v gs gate_none) (fun g => S (length (g_inp g)))). replace (map (fun v => nth v gs gate_none) (seq 0 (length gs))) with gs; [|symmetry].
      - induction gs as [|g l IH]; cbn [map list_sum fold_right flat_map length]; auto. unfold list_sum in IH. rewrite app_length. cbn [fold_right]. lia.
      - clear. induction gs as [|g l IH]; cbn [length seq map nth]; auto. f_equal. rewrite <- seq_shift, map_map. exact IH. }
    lia.
  - exists es. split; auto.
Qed.
End D.
