(** Invariants of the shared allocator. *)
Require Import List Arith Bool Lia.
Require Import Verif.ShareModel Verif.ShareSpec.
Import ListNotations.

Definition flag (m : list (tid * bool)) (t : tid) (b : bool) : Prop := In (t, b) m.
Definition keys (m : list (tid * bool)) : list tid := map fst m.
Lemma put_in t b m u c : In (u, c) (put t b m) -> (u = t /\ c = b) \/ (In (u, c) m).
Proof.
  induction m as [|(x & y) r IH]; cbn [put]; [intros [H|[]]; injection H as -> ->; auto|]. destruct (Nat.eqb_spec x t) as [->|Hn].
  - intros [H|H]; [injection H as -> ->; auto|]. right. cbn. auto.
  - intros [H|H]; [injection H as -> ->; right; cbn; auto|]. destruct (IH H) as [K|K]; auto. right. cbn. auto.
Qed.
Lemma put_keys t b m u : In u (keys (put t b m)) <-> u = t \/ In u (keys m).
Proof.
  unfold keys. induction m as [|(x & y) r IH]; cbn [put map fst]; [cbn; intuition|]. destruct (Nat.eqb_spec x t) as [->|Hn]; cbn [map fst In].
  - intuition.
  - rewrite IH. intuition.
Qed.
Lemma put_nodup t b m : NoDup (keys m) -> NoDup (keys (put t b m)).
Proof.
  unfold keys. induction m as [|(x & y) r IH]; cbn [put map fst]; intros H; [constructor; auto; constructor|]. inversion H as [|? ? H1 H2]; subst.
  destruct (Nat.eqb_spec x t) as [->|Hn]; cbn [map fst]; constructor; auto. intros K. apply (put_keys t b r x) in K. destruct K; auto.
Qed.
Lemma put_self t b m : In (t, b) (put t b m).
Proof. induction m as [|(x & y) r IH]; cbn [put]; [cbn; auto|]. destruct (Nat.eqb_spec x t) as [->|Hn]; cbn; auto. Qed.
Lemma put_unique t b m c : NoDup (keys m) -> In (t, c) (put t b m) -> c = b.
Proof.
  intros H K. assert (ND := put_nodup t b m H). assert (S := put_self t b m). unfold keys in ND. revert ND S K. generalize (put t b m). clear.
  induction l as [|(x & y) r IH]; cbn [map fst]; intros ND S K; [destruct S|]. inversion ND as [|? ? N1 N2]; subst.
  destruct S as [S|S], K as [K|K].
  - injection S as -> ->. injection K as ->. auto.
  - injection S as -> ->. destruct N1. apply in_map_iff. exists (t, c). auto.
  - injection K as -> ->. destruct N1. apply in_map_iff. exists (t, b). auto.
  - auto.
Qed.
Lemma key_flag m t : In t (keys m) -> exists b, In (t, b) m.
Proof. unfold keys. rewrite in_map_iff. intros ((u & b) & H1 & H2). cbn in H1. subst. eauto. Qed.
Lemma flag_key m t b : In (t, b) m -> In t (keys m).
Proof. intros H. apply in_map_iff. exists (t, b). auto. Qed.

(** what holds in every schedule *)
Record GI (w : world) : Prop := {
  gi_nd : NoDup (keys (g_ready (w_g w)));
  gi_key : forall t, In t (keys (g_ready (w_g w))) <-> t_pc (w_t w t) <> POut;
  gi_lt : forall p, In p (g_pages (w_g w) ++ g_phase (w_g w) ++ g_freed (w_g w)) -> p < g_next (w_g w);
  gi_free : forall p, In p (g_freed (w_g w)) -> ~ In p (g_pages (w_g w)) /\ ~ In p (g_phase (w_g w));
  gi_phase : forall p, In p (g_phase (w_g w)) -> ~ In p (g_pages (w_g w));
  (* a thread that rebuilds is not ready *)
  gi_reb : forall t, rebuilding w t -> In (t, false) (g_ready (w_g w));
  gi_one : forall t u, rebuilding w t -> rebuilding w u -> t = u;
  gi_realloc : forall t, t_pc (w_t w t) = PRealloc -> g_phase (w_g w) = [] }.

Lemma goto_pc t c g w u : t_pc (w_t (goto t c g w) u) = if u =? t then c else t_pc (w_t w u).
Proof. unfold goto, set_thread. cbn [w_t]. destruct (u =? t); auto. Qed.
Lemma goto_g t c g w : w_g (goto t c g w) = g.
Proof. reflexivity. Qed.
Lemma goto_refs t c g w u : t_refs (w_t (goto t c g w) u) = t_refs (w_t w u).
Proof. unfold goto, set_thread. cbn [w_t]. destruct (Nat.eqb_spec u t) as [->|]; auto. Qed.

Lemma GI_init t0 k : GI (world_init t0 k).
Proof.
  constructor; cbn [world_init w_g w_t g_ready g_pages g_phase g_freed g_next keys map fst].
  - constructor; [cbn; tauto|constructor].
  - intros t. cbn [In]. destruct (Nat.eqb_spec t t0) as [->|Hn]; cbn; split; try tauto; try congruence. intros [->|[]]. congruence.
  - intros p Hp. rewrite app_nil_r in Hp. apply in_seq in Hp. lia.
  - intros p [].
  - intros p [].
  - intros t [H|H]; cbn [world_init w_t] in H; destruct (t =? t0); discriminate.
  - intros t u [H|H]; cbn [world_init w_t] in H; destruct (t =? t0); discriminate.
  - auto.
Qed.
Lemma allocate_cases full g p g' : allocate full g = (p, g') -> (g' = g /\ In p (g_pages g)) \/ (g' = absorb 1 g /\ p = g_next g).
Proof.
  unfold allocate. destruct (rev (g_pages g)) as [|q r] eqn:E; [intros H; injection H as <- <-; auto|].
  destruct full; intros H; injection H as <- <-; auto. left. split; auto. apply in_rev. rewrite E. cbn. auto.
Qed.
Lemma absorb_in k g p : In p (g_pages (absorb k g)) <-> In p (g_pages g) \/ g_next g <= p < g_next g + k.
Proof. cbn [absorb g_pages]. rewrite in_app_iff. unfold fresh. rewrite in_seq. tauto. Qed.

(** changes of the allocator that keep its numbers *)
Record gstep (g g' : galloc) : Prop := {
  gs_nd : NoDup (keys (g_ready g)) -> NoDup (keys (g_ready g'));
  gs_lt : (forall p, In p (g_pages g ++ g_phase g ++ g_freed g) -> p < g_next g) ->
          (forall p, In p (g_pages g' ++ g_phase g' ++ g_freed g') -> p < g_next g');
  gs_free : (forall p, In p (g_pages g ++ g_phase g ++ g_freed g) -> p < g_next g) ->
            (forall p, In p (g_freed g) -> ~ In p (g_pages g) /\ ~ In p (g_phase g)) ->
            (forall p, In p (g_phase g) -> ~ In p (g_pages g)) ->
            (forall p, In p (g_freed g') -> ~ In p (g_pages g') /\ ~ In p (g_phase g')) /\ (forall p, In p (g_phase g') -> ~ In p (g_pages g')) }.
Lemma gstep_refl g : gstep g g. Proof. constructor; auto. Qed.
Lemma gstep_ready g m : (NoDup (keys (g_ready g)) -> NoDup (keys m)) -> gstep g (mkG (g_pages g) (g_phase g) (g_freed g) (g_next g) m).
Proof. intros H. constructor; cbn; auto. Qed.
Lemma gstep_absorb k g : gstep g (absorb k g).
Proof.
  constructor; cbn [absorb g_pages g_phase g_freed g_next g_ready]; auto.
  - intros H p Hp. rewrite !in_app_iff in Hp. unfold fresh in Hp. rewrite in_seq in Hp.
    assert (K : In p (g_pages g ++ g_phase g ++ g_freed g) -> p < g_next g) by auto. rewrite !in_app_iff in K. intuition lia.
  - intros H H1 H2. split.
    + intros p Hp. split; [|apply H1; auto]. rewrite in_app_iff. unfold fresh. rewrite in_seq. intros [K|K]; [exact (proj1 (H1 p Hp) K)|].
      specialize (H p). rewrite !in_app_iff in H. intuition lia.
    + intros p Hp. rewrite in_app_iff. unfold fresh. rewrite in_seq. intros [K|K]; [exact (H2 p Hp K)|].
      specialize (H p). rewrite !in_app_iff in H. intuition lia.
Qed.
Lemma gstep_free g : gstep g (free_phase_out_pages g).
Proof.
  constructor; cbn [free_phase_out_pages g_pages g_phase g_freed g_next g_ready]; auto.
  intros H H1 H2. split; [|intros p []]. intros p Hp. split; auto. apply in_app_or in Hp. destruct Hp as [Hp|Hp]; [auto|apply H1; auto].
Qed.
Lemma gstep_realloc k g : gstep g (reallocate k g).
Proof.
  unfold reallocate. destruct (g_phase g) as [|x r] eqn:E; [|apply gstep_refl].
  constructor; cbn [g_pages g_phase g_freed g_next g_ready]; auto.
  - intros H p Hp. rewrite !in_app_iff in Hp. unfold fresh in Hp. rewrite in_seq in Hp. specialize (H p). rewrite E, !in_app_iff in H. intuition lia.
  - intros H H1 H2. split.
    + intros p Hp. split; [|apply H1; auto]. unfold fresh. rewrite in_seq. specialize (H p). rewrite !in_app_iff in H. intuition lia.
    + intros p Hp. unfold fresh. rewrite in_seq. specialize (H p). rewrite !in_app_iff in H. intuition lia.
Qed.

Ltac pcs t := unfold goto, set_thread in *; cbn [w_g w_t] in *.
Lemma GI_act t a w w' : GI w -> act t a w = Some w' -> GI w'.
Proof.
  intros [G1 G2 G3 G4 G5 G6 G7 G8] E.
  assert (HG : forall g c x, gstep (w_g w) g -> w' = mkW g (set_thread t (mkT c x) (w_t w)) -> c <> POut ->
    (forall u, In u (keys (g_ready g)) <-> u = t \/ In u (keys (g_ready (w_g w)))) ->
    (forall u, u <> t -> rebuilding w u -> In (u, false) (g_ready g)) ->
    (c = PFree \/ c = PRealloc -> In (t, false) (g_ready g) /\ forall u, u <> t -> ~ rebuilding w u) ->
    (c = PRealloc -> g_phase g = []) -> (forall u, u <> t -> t_pc (w_t w u) = PRealloc -> g_phase g = []) -> GI w').
  { intros g c x [S1 S2 S3] -> Hc Hk Hr Hreb Hph Hph'. destruct (S3 G3 G4 G5) as (S4 & S5).
    assert (RB : forall u, rebuilding (mkW g (set_thread t (mkT c x) (w_t w))) u -> (u = t /\ (c = PFree \/ c = PRealloc)) \/ (u <> t /\ rebuilding w u)).
    { intros u H. unfold rebuilding, set_thread in H. cbn [w_t] in H. destruct (Nat.eqb_spec u t) as [Eu|Hn]; cbn in H; auto. }
    constructor; cbn [w_g w_t]; auto.
    - intros u. rewrite Hk, G2. unfold set_thread. destruct (Nat.eqb_spec u t) as [Eu|Hn]; cbn; intuition congruence.
    - intros u Hu. destruct (RB u Hu) as [(-> & H)|(H1 & H2)]; [apply Hreb; auto|apply Hr; auto].
    - intros u v Hu Hv. destruct (RB u Hu) as [(-> & H)|(H1 & H2)], (RB v Hv) as [(-> & K)|(K1 & K2)]; auto.
      + destruct (proj2 (Hreb H) v K1 K2).
      + destruct (proj2 (Hreb K) u H1 H2).
    - intros u. unfold set_thread. destruct (Nat.eqb_spec u t) as [Eu|Hn]; cbn; eauto. }
  unfold act in E. destruct (t_pc (w_t w t)) as [| | | | | |ps] eqn:Ep; destruct a as [|p|full|k| | |k| |]; try discriminate.
  - (* join *) injection E as <-. apply (HG (set_ready t false (w_g w)) PColl (t_refs (w_t w t))); auto; try discriminate.
    + apply gstep_ready. apply put_nodup.
    + intros u. cbn [set_ready g_ready]. apply put_keys.
    + intros u Hn Hu. cbn [set_ready g_ready]. destruct (put_keys t false (g_ready (w_g w)) u) as (_ & K). specialize (K (or_intror (flag_key _ _ _ (G6 u Hu)))).
      apply key_flag in K. destruct K as (b & K). destruct (put_in _ _ _ _ _ K) as [(A & _)|A]; [congruence|].
      assert (b = false); [|subst; auto]. destruct b; auto. exfalso. clear -A G1 Hu G6. specialize (G6 u Hu). unfold keys in G1.
      revert A G6 G1. generalize (g_ready (w_g w)). induction l as [|(x & y) r IH]; cbn [map fst In]; intros A B N; [destruct A|].
      inversion N as [|? ? N1 N2]; subst. destruct A as [A|A], B as [B|B]; try (injection A as -> ->); try (injection B as -> ->); try discriminate; auto.
      * apply N1. apply in_map_iff. exists (u, false). auto.
      * apply N1. apply in_map_iff. exists (u, true). auto.
    + intros [H|H]; discriminate.
    + intros u Hu Hp. cbn [set_ready g_phase]. eauto.
  - (* use *) destruct (existsb _ _); [|discriminate]. injection E as <-. constructor; auto.
  - (* alloc *) destruct (allocate full (w_g w)) as (p & g') eqn:Ea. injection E as <-.
    assert (Kt : In t (keys (g_ready (w_g w)))) by (apply G2; congruence).
    destruct (allocate_cases _ _ _ _ Ea) as [(-> & Hp)|(-> & ->)].
    + apply (HG (w_g w) PRun (p :: t_refs (w_t w t))); auto; try discriminate; try apply gstep_refl; eauto.
      * intros u. split; auto. intros [->|H]; auto.
      * intros [H|H]; discriminate.
    + apply (HG (absorb 1 (w_g w)) PRun (g_next (w_g w) :: t_refs (w_t w t))); auto; try discriminate; try apply gstep_absorb; eauto.
      * intros u. cbn [absorb g_ready]. split; auto. intros [->|H]; auto.
      * intros [H|H]; discriminate.
  - (* sync *) injection E as <-. assert (Kt : In t (keys (g_ready (w_g w)))) by (apply G2; congruence).
    apply (HG (absorb k (w_g w)) PCheck (t_refs (w_t w t))); auto; try discriminate; try apply gstep_absorb; eauto.
    + intros u. cbn [absorb g_ready]. split; auto. intros [->|H]; auto.
    + intros [H|H]; discriminate.
  - (* check *) assert (Kt : In t (keys (g_ready (w_g w)))) by (apply G2; congruence). unfold everybody_ready in E.
    destruct (forallb snd (g_ready (w_g w))) eqn:Ef; injection E as <-.
    + assert (EK : keys (map (fun e : tid * bool => (fst e, false)) (g_ready (w_g w))) = keys (g_ready (w_g w))) by (unfold keys; rewrite map_map; apply map_ext; auto).
      assert (NR : forall u, ~ rebuilding w u).
      { intros u Hu. rewrite forallb_forall in Ef. specialize (Ef _ (G6 u Hu)). discriminate. }
      eapply (HG (mkG (g_pages (w_g w)) (g_phase (w_g w)) (g_freed (w_g w)) (g_next (w_g w)) (map (fun e => (fst e, false)) (g_ready (w_g w)))) PFree (t_refs (w_t w t))); auto; try discriminate.
      * apply gstep_ready. rewrite EK. auto.
      * intros u. cbn [g_ready]. rewrite EK. split; auto. intros [->|H]; auto.
      * intros u _ Hu. destruct (NR u Hu).
      * intros _. split; [|intros u _; apply NR]. cbn [g_ready]. apply in_map_iff. apply key_flag in Kt. destruct Kt as (b & Kt). exists (t, b). auto.
      * intros u _ Hu. destruct (NR u). right. auto.
    + apply (HG (w_g w) PColl (t_refs (w_t w t))); auto; try discriminate; try apply gstep_refl; eauto.
      * intros u. split; auto. intros [->|H]; auto.
      * intros [H|H]; discriminate.
  - (* free *) injection E as <-. assert (Kt : In t (keys (g_ready (w_g w)))) by (apply G2; congruence). assert (Rt : rebuilding w t) by (left; auto).
    apply (HG (free_phase_out_pages (w_g w)) PRealloc (t_refs (w_t w t))); auto; try discriminate; try apply gstep_free; eauto.
    + intros u. cbn [free_phase_out_pages g_ready]. split; auto. intros [->|H]; auto.
  - (* realloc *) injection E as <-. assert (Kt : In t (keys (g_ready (w_g w)))) by (apply G2; congruence). assert (Rt : rebuilding w t) by (right; auto).
    apply (HG (reallocate k (w_g w)) PColl (t_refs (w_t w t))); auto; try discriminate; try apply gstep_realloc.
    + intros u. unfold reallocate. destruct (g_phase (w_g w)); cbn [g_ready]; split; auto; intros [->|H]; auto.
    + intros u Hn Hu. unfold reallocate. destruct (g_phase (w_g w)); cbn [g_ready]; auto.
    + intros [H|H]; discriminate.
    + intros u Hn Hu. destruct Hn. apply G7; auto. right. auto.
  - (* collect *) injection E as <-. assert (Kt : In t (keys (g_ready (w_g w)))) by (apply G2; congruence).
    apply (HG (w_g w) (PMark (g_pages (w_g w))) (t_refs (w_t w t))); auto; try discriminate; try apply gstep_refl; eauto.
    + intros u. split; auto. intros [->|H]; auto.
    + intros [H|H]; discriminate.
  - (* ready *) injection E as <-. apply (HG (set_ready t true (w_g w)) PRun ps); auto; try discriminate.
    + apply gstep_ready. apply put_nodup.
    + intros u. cbn [set_ready g_ready]. apply put_keys.
    + intros u Hn Hu. cbn [set_ready g_ready]. specialize (G6 u Hu). clear -G6 Hn. induction (g_ready (w_g w)) as [|(x & y) r IH]; [destruct G6|]. cbn [put].
      destruct (Nat.eqb_spec x t) as [->|Hx]; destruct G6 as [H|H]; try (injection H as -> ->); cbn; auto. congruence.
    + intros [H|H]; discriminate.
    + intros u Hu Hp. cbn [set_ready g_phase]. eauto.
Qed.
Lemma GI_run sch : forall w w', GI w -> run sch w = Some w' -> GI w'.
Proof.
  induction sch as [|(t & a) r IH]; intros w w' H E; cbn [run] in E; [injection E as <-; auto|].
  destruct (act t a w) as [w1|] eqn:E1; [|discriminate]. apply (IH w1); auto. apply (GI_act t a w); auto.
Qed.

(** what holds as long as nobody collects during a rebuild *)
Record SI (w : world) : Prop := {
  si_refs : forall t p, In p (t_refs (w_t w t)) -> In p (g_pages (w_g w)) \/ In p (g_phase (w_g w));
  si_out : forall t, t_pc (w_t w t) = POut -> t_refs (w_t w t) = [];
  si_mark : forall t ps, t_pc (w_t w t) = PMark ps -> incl ps (g_pages (w_g w));
  si_ready : forall t p, In (t, true) (g_ready (w_g w)) -> In p (t_refs (w_t w t)) -> In p (g_pages (w_g w));
  si_free : forall t u p, t_pc (w_t w t) = PFree -> In p (t_refs (w_t w u)) -> In p (g_pages (w_g w));
  si_none : forall t u b, rebuilding w t -> In (u, b) (g_ready (w_g w)) -> b = false }.
Lemma SI_init t0 k : SI (world_init t0 k).
Proof.
  constructor; cbn [world_init w_g w_t g_ready g_pages g_phase].
  - intros t p. destruct (t =? t0); cbn; auto.
  - intros t. destruct (t =? t0); cbn; [discriminate|auto].
  - intros t ps. destruct (t =? t0); discriminate.
  - intros t p. destruct (t =? t0); cbn; auto. intros _ [].
  - intros t u p. destruct (t =? t0); discriminate.
  - intros t u b [H|H]; cbn [world_init w_t] in H; destruct (t =? t0); discriminate.
Qed.
Lemma nodup_flag m t b c : NoDup (keys m) -> In (t, b) m -> In (t, c) m -> b = c.
Proof.
  unfold keys. induction m as [|(x & y) r IH]; cbn [map fst In]; intros N A B; [destruct A|]. inversion N as [|? ? N1 N2]; subst.
  destruct A as [A|A], B as [B|B]; auto.
  - congruence.
  - injection A as -> ->. destruct N1. apply in_map_iff. exists (t, c). auto.
  - injection B as -> ->. destruct N1. apply in_map_iff. exists (t, b). auto.
Qed.

Lemma GI_flag_out w t b : GI w -> t_pc (w_t w t) = POut -> ~ In (t, b) (g_ready (w_g w)).
Proof. intros H E K. apply flag_key in K. apply (gi_key _ H) in K. auto. Qed.

Lemma SI_act t a w w' : GI w -> SI w -> act t a w = Some w' -> ~ overlap w -> SI w'.
Proof.
  intros HG [S1 S2 S3 S4 S5 S6] E HO.
  assert (NOverlap : forall t u, rebuilding w t -> collecting w u -> False) by (intros x y H1 H2; apply HO; exists x, y; auto).
  unfold act in E. destruct (t_pc (w_t w t)) as [| | | | | |ps] eqn:Ep; destruct a as [|p|full|k| | |k| |]; try discriminate.
  - (* join *) injection E as <-. assert (R0 : t_refs (w_t w t) = []) by auto. constructor; try (intros u; rewrite ?goto_g, ?goto_pc, ?goto_refs); cbn [set_ready g_pages g_phase g_ready].
    + intros; eapply S1; eauto.
    + destruct (Nat.eqb_spec u t); [discriminate|auto].
    + intros ps. destruct (Nat.eqb_spec u t); [discriminate|eauto].
    + intros p H. destruct (put_in _ _ _ _ _ H) as [(_ & K)|K]; [discriminate|eauto].
    + intros v p. rewrite goto_refs. destruct (Nat.eqb_spec u t); [discriminate|eauto].
    + intros v b H K. destruct (put_in _ _ _ _ _ K) as [(_ & K0)|K0]; auto. apply (S6 u v b); auto.
      unfold rebuilding in *. rewrite !goto_pc in H. destruct (Nat.eqb_spec u t); auto. destruct H; discriminate.
  - (* use *) destruct (existsb _ _); [|discriminate]. injection E as <-. constructor; auto.
  - (* alloc *) destruct (allocate full (w_g w)) as (p & g') eqn:Ea. injection E as <-.
    assert (Hg : incl (g_pages (w_g w)) (g_pages g') /\ g_phase g' = g_phase (w_g w) /\ g_ready g' = g_ready (w_g w) /\ In p (g_pages g')).
    { destruct (allocate_cases _ _ _ _ Ea) as [(-> & Hp)|(-> & ->)]; [split; [apply incl_refl|auto]|]. split; [intros q Hq; apply absorb_in; auto|].
      split; auto. split; auto. apply absorb_in. right. lia. }
    destruct Hg as (H1 & H2 & H3 & H4).
    assert (HR : forall u q, In q (t_refs (set_thread t (mkT PRun (p :: t_refs (w_t w t))) (w_t w) u)) -> (q = p /\ u = t) \/ In q (t_refs (w_t w u))).
    { intros u q. unfold set_thread. destruct (Nat.eqb_spec u t) as [Eu|Hn]; cbn; auto. rewrite Eu. intros [<-|Hq]; auto. }
    assert (HP : forall u, t_pc (set_thread t (mkT PRun (p :: t_refs (w_t w t))) (w_t w) u) = if u =? t then PRun else t_pc (w_t w u)) by (intros u; unfold set_thread; destruct (u =? t); auto).
    constructor; cbn [w_g w_t].
    + intros u q Hq. rewrite H2. destruct (HR u q Hq) as [(-> & _)|Hq']; auto. destruct (S1 u q Hq'); auto.
    + intros u. rewrite HP. unfold set_thread. destruct (Nat.eqb_spec u t) as [Eu|Hn]; [discriminate|auto].
    + intros u ps. rewrite HP. destruct (Nat.eqb_spec u t) as [Eu|Hn]; [discriminate|]. intros Hu. apply (incl_tran (S3 u ps Hu)). auto.
    + intros u q. rewrite H3. intros Hu Hq. destruct (HR u q Hq) as [(-> & _)|Hq']; auto. eauto.
    + intros u v q. rewrite HP. destruct (Nat.eqb_spec u t) as [Eu|Hn]; [discriminate|]. intros Hu Hq. destruct (HR v q Hq) as [(-> & _)|Hq']; auto. eauto.
    + intros u v b Hu. rewrite H3. apply (S6 u). unfold rebuilding in *. cbn [w_t] in Hu. rewrite !HP in Hu. destruct (u =? t); auto. destruct Hu; discriminate.
  - (* sync *) injection E as <-. assert (HI : incl (g_pages (w_g w)) (g_pages (absorb k (w_g w)))) by (intros q Hq; apply absorb_in; auto).
    constructor; try (intros u; rewrite ?goto_g, ?goto_pc, ?goto_refs); cbn [absorb g_phase g_ready].
    + intros p Hp. destruct (S1 u p Hp); auto.
    + destruct (Nat.eqb_spec u t); [discriminate|auto].
    + intros ps. destruct (Nat.eqb_spec u t); [discriminate|]. intros H. apply (incl_tran (S3 u ps H)). auto.
    + intros p H1 H2. eauto.
    + intros v p. rewrite goto_refs. destruct (Nat.eqb_spec u t); [discriminate|]. intros H1 H2. eauto.
    + intros v b H. apply (S6 u). unfold rebuilding in *. rewrite !goto_pc in H. destruct (u =? t); auto. destruct H; discriminate.
  - (* check *) unfold everybody_ready in E. destruct (forallb snd (g_ready (w_g w))) eqn:Ef; injection E as <-.
    + assert (AR : forall u p, In p (t_refs (w_t w u)) -> In p (g_pages (w_g w))).
      { intros u p Hp. destruct (t_pc (w_t w u)) eqn:Eu; try (apply (S4 u); auto; assert (K : In u (keys (g_ready (w_g w)))) by (apply (gi_key _ HG); congruence);
          apply key_flag in K; destruct K as (b & K); rewrite forallb_forall in Ef; specialize (Ef _ K); cbn in Ef; subst b; auto). rewrite (S2 u Eu) in Hp. destruct Hp. }
      assert (NF : forall u b, In (u, b) (map (fun e : tid * bool => (fst e, false)) (g_ready (w_g w))) -> b = false).
      { intros u b H. apply in_map_iff in H. destruct H as ((x & y) & H & _). injection H as _ <-. auto. }
      constructor; try (intros u; rewrite ?goto_g, ?goto_pc, ?goto_refs); cbn [g_pages g_phase g_ready]; eauto.
      * destruct (Nat.eqb_spec u t); [discriminate|auto].
      * intros ps. destruct (Nat.eqb_spec u t); [discriminate|eauto].
      * intros v p. rewrite goto_refs. eauto.
    + constructor; try (intros u; rewrite ?goto_g, ?goto_pc, ?goto_refs); eauto.
      * destruct (Nat.eqb_spec u t); [discriminate|auto].
      * intros ps. destruct (Nat.eqb_spec u t); [discriminate|eauto].
      * intros v p. rewrite goto_refs. destruct (Nat.eqb_spec u t); [discriminate|eauto].
      * intros v b H. apply (S6 u). unfold rebuilding in *. rewrite !goto_pc in H. destruct (u =? t); auto. destruct H; discriminate.
  - (* free *) injection E as <-. assert (Rt : rebuilding w t) by (left; auto).
    constructor; try (intros u; rewrite ?goto_g, ?goto_pc, ?goto_refs); cbn [free_phase_out_pages g_pages g_phase g_ready]; eauto.
    + destruct (Nat.eqb_spec u t); [discriminate|auto].
    + intros ps. destruct (Nat.eqb_spec u t); [discriminate|eauto].
    + intros v p. rewrite goto_refs. eauto.
  - (* realloc *) injection E as <-. assert (Rt : rebuilding w t) by (right; auto). assert (Ph := gi_realloc _ HG t Ep).
    unfold reallocate in *. rewrite Ph in *.
    assert (NM : forall u ps, t_pc (w_t w u) = PMark ps -> False).
    { intros u ps Hu. assert (Hn : u <> t) by congruence. apply (NOverlap t u); auto. exists ps. auto. }
    constructor; try (intros u; rewrite ?goto_g, ?goto_pc, ?goto_refs); cbn [g_pages g_phase g_ready].
    + intros p Hp. right. destruct (S1 u p Hp) as [H|[]]; auto.
    + destruct (Nat.eqb_spec u t); [discriminate|auto].
    + intros ps. destruct (Nat.eqb_spec u t); [discriminate|]. intros H. destruct (NM _ _ H).
    + intros p H. discriminate (S6 t u true Rt H).
    + intros v p. rewrite goto_refs. destruct (Nat.eqb_spec u t) as [Eu|Hn]; [discriminate|]. intros H. destruct Hn. apply (gi_one _ HG); auto. left. auto.
    + intros v b H K. apply (S6 t v b Rt K).
  - (* collect *) injection E as <-. constructor; try (intros u; rewrite ?goto_g, ?goto_pc, ?goto_refs); eauto.
    + destruct (Nat.eqb_spec u t); [discriminate|auto].
    + intros ps. destruct (Nat.eqb_spec u t); [|eauto]. intros H. injection H as <-. apply incl_refl.
    + intros v p. rewrite goto_refs. destruct (Nat.eqb_spec u t); [discriminate|eauto].
    + intros v b H. apply (S6 u). unfold rebuilding in *. rewrite !goto_pc in H. destruct (u =? t); auto. destruct H; discriminate.
  - (* ready *) injection E as <-.
    assert (NR : forall u, ~ rebuilding w u).
    { intros u Hu. apply (NOverlap u t); auto. exists ps. auto. }
    assert (HP : forall u, t_pc (set_thread t (mkT PRun ps) (w_t w) u) = if u =? t then PRun else t_pc (w_t w u)) by (intros u; unfold set_thread; destruct (u =? t); auto).
    assert (HR : forall u, t_refs (set_thread t (mkT PRun ps) (w_t w) u) = if u =? t then ps else t_refs (w_t w u)) by (intros u; unfold set_thread; destruct (u =? t); auto).
    assert (NR' : forall u, ~ (t_pc (set_thread t (mkT PRun ps) (w_t w) u) = PFree \/ t_pc (set_thread t (mkT PRun ps) (w_t w) u) = PRealloc)).
    { intros u. rewrite HP. destruct (u =? t); [intros [H|H]; discriminate|apply NR]. }
    constructor; cbn [w_g w_t set_ready g_pages g_phase g_ready].
    + intros u p. rewrite HR. destruct (u =? t); intros H; [left; apply (S3 t ps); auto|exact (S1 u p H)].
    + intros u. rewrite HP, HR. destruct (u =? t); [discriminate|auto].
    + intros u qs. rewrite HP. destruct (u =? t); [discriminate|eauto].
    + intros u p H. rewrite HR. destruct (Nat.eqb_spec u t) as [Eu|Hn]; [apply (S3 t ps); auto|]. destruct (put_in _ _ _ _ _ H) as [(K & _)|K]; [contradiction|eauto].
    + intros u v p H. destruct (NR' u). auto.
    + intros u v b H. destruct (NR' u H).
Qed.

Lemma SI_states sch : forall w w', GI w -> SI w -> run sch w = Some w' -> (forall v, In v (states sch w) -> ~ overlap v) -> SI w'.
Proof.
  induction sch as [|(t & a) r IH]; intros w w' HG HS E HO; cbn [run states] in *; [injection E as <-; auto|].
  destruct (act t a w) as [w1|] eqn:E1; [|discriminate]. apply (IH w1); auto.
  - apply (GI_act t a w); auto.
  - apply (SI_act t a w); auto. apply HO. cbn. auto.
  - intros v Hv. apply HO. cbn. auto.
Qed.
Lemma no_freed t0 k sch w t a p w' : run sch (world_init t0 k) = Some w -> (forall v, In v (states sch (world_init t0 k)) -> ~ overlap v) ->
  act t a w = Some w' -> reads w t a p -> ~ is_freed w p.
Proof.
  intros E HO Ea HR HF. assert (HG := GI_run sch _ _ (GI_init t0 k) E). assert (HS := SI_states sch _ _ (GI_init t0 k) (SI_init t0 k) E HO).
  destruct (gi_free _ HG p HF) as (F1 & F2). destruct a; cbn [reads] in HR; try contradiction.
  - subst p0. unfold act in Ea. destruct (t_pc (w_t w t)); try discriminate. destruct (existsb (Nat.eqb p) (t_refs (w_t w t))) eqn:Ex; [|discriminate].
    apply existsb_exists in Ex. destruct Ex as (q & Hq & Eq). apply Nat.eqb_eq in Eq. subst q. destruct (si_refs _ HS t p Hq); auto.
  - destruct HR as (_ & HR). auto.
Qed.
Lemma shared_reads t0 k sch w t a p w' : run sch (world_init t0 k) = Some w -> act t a w = Some w' ->
  (a = ACollect \/ exists n, a = ARealloc n) -> reads w t a p -> ~ is_freed w p.
Proof.
  intros E Ea HA HR HF. assert (HG := GI_run sch _ _ (GI_init t0 k) E). destruct (gi_free _ HG p HF) as (F1 & F2).
  destruct HA as [->|(n & ->)]; cbn [reads] in HR; [auto|]. destruct HR as (_ & HR). auto.
Qed.
Lemma one_rebuild t0 k sch w t u : run sch (world_init t0 k) = Some w -> rebuilding w t -> rebuilding w u -> t = u.
Proof. intros E. apply (gi_one _ (GI_run sch _ _ (GI_init t0 k) E)). Qed.
