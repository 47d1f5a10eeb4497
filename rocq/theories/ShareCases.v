(** Deciding the conditions of C32 for a schedule of the threads below [n]. *)
Require Import List Arith Bool Lia.
Require Import Verif.ShareModel Verif.ShareSpec Verif.ShareProofs.
Import ListNotations.

Definition rebb (w : world) (t : tid) : bool := match t_pc (w_t w t) with PFree | PRealloc => true | _ => false end.
Definition collb (w : world) (t : tid) : bool := match t_pc (w_t w t) with PMark _ => true | _ => false end.
Definition sepb (n : nat) (w : world) : bool := negb (existsb (rebb w) (seq 0 n) && existsb (collb w) (seq 0 n)).
Definition above (n : nat) (w : world) : Prop := forall t, n <= t -> t_pc (w_t w t) = POut.
Lemma above_act n t a w w' : t < n -> above n w -> act t a w = Some w' -> above n w'.
Proof.
  intros Ht H E u Hu. assert (Hn : (u =? t) = false) by (apply Nat.eqb_neq; lia). specialize (H u Hu).
  unfold act in E. destruct (t_pc (w_t w t)); destruct a; try discriminate;
    try (injection E as <-; cbn [goto w_t]; unfold set_thread; rewrite Hn; exact H).
  - destruct (existsb _ _); [|discriminate]. injection E as <-. exact H.
  - destruct (allocate full (w_g w)). injection E as <-. cbn [w_t]. unfold set_thread. rewrite Hn. exact H.
  - destruct (everybody_ready (w_g w)) as ([|] & g); injection E as <-; cbn [goto w_t]; unfold set_thread; rewrite Hn; exact H.
Qed.
Lemma rebb_in n w t : above n w -> rebuilding w t -> existsb (rebb w) (seq 0 n) = true.
Proof.
  intros H Hr. apply existsb_exists. exists t. split.
  - apply in_seq. destruct (le_lt_dec n t) as [K|K]; [|lia]. rewrite (H t K) in Hr || (unfold rebuilding in Hr; rewrite (H t K) in Hr). destruct Hr; discriminate.
  - unfold rebb. destruct Hr as [-> | ->]; reflexivity.
Qed.
Lemma collb_in n w t : above n w -> collecting w t -> existsb (collb w) (seq 0 n) = true.
Proof.
  intros H (ps & Hp). apply existsb_exists. exists t. split.
  - apply in_seq. destruct (le_lt_dec n t) as [K|K]; [|lia]. rewrite (H t K) in Hp. discriminate.
  - unfold collb. rewrite Hp. reflexivity.
Qed.
Lemma sepb_states n sch : forall w, above n w -> forallb (fun e => fst e <? n) sch = true -> forallb (sepb n) (states sch w) = true ->
  forall v, In v (states sch w) -> ~ overlap v.
Proof.
  induction sch as [|(t & a) r IH]; intros w HA Ht HS v Hv; cbn [states forallb fst] in *.
  - destruct Hv as [<-|[]]. intros (x & y & H1 & H2). unfold sepb in HS. rewrite (rebb_in n w x HA H1), (collb_in n w y HA H2) in HS. discriminate.
  - apply andb_true_iff in Ht, HS. destruct Ht as (T1 & T2), HS as (S1 & S2). apply Nat.ltb_lt in T1. destruct Hv as [<-|Hv].
    + intros (x & y & H1 & H2). unfold sepb in S1. rewrite (rebb_in n w x HA H1), (collb_in n w y HA H2) in S1. discriminate.
    + destruct (act t a w) as [w1|] eqn:E; [|destruct Hv]. apply (IH w1); auto. apply (above_act n t a w); auto.
Qed.
Lemma above_init n t0 k : t0 < n -> above n (world_init t0 k).
Proof. intros H t Ht. cbn [world_init w_t]. assert (E : (t =? t0) = false) by (apply Nat.eqb_neq; lia). rewrite E. reflexivity. Qed.

Fixpoint nocollb (n : nat) (sch : list (tid * action)) (w : world) : bool :=
  match sch with
  | [] => true
  | (t, a) :: r =>
    (match a with ACollect => negb (existsb (rebb w) (seq 0 n)) | _ => true end) &&
    match act t a w with Some w' => nocollb n r w' | None => true end
  end.
Lemma nocollb_sound n sch : forall w, above n w -> forallb (fun e => fst e <? n) sch = true -> nocollb n sch w = true ->
  forall pre t post v, sch = pre ++ (t, ACollect) :: post -> run pre w = Some v -> forall u, ~ rebuilding v u.
Proof.
  induction sch as [|(t & a) r IH]; intros w HA Ht HS pre t' post v E R u Hu; [destruct pre; discriminate|].
  cbn [nocollb forallb fst] in *. apply andb_true_iff in Ht, HS. destruct Ht as (T1 & T2), HS as (S1 & S2). apply Nat.ltb_lt in T1.
  destruct pre as [|x pre]; cbn [app run] in E, R.
  - injection E as -> -> _. injection R as <-. rewrite (rebb_in n w u HA Hu) in S1. discriminate.
  - injection E as <- E. destruct (act t a w) as [w1|] eqn:E1; [|discriminate]. apply (IH w1 (above_act n t a w w1 T1 HA E1) T2 S2 pre t' post v E R u Hu).
Qed.

Definition memb (p : nat) (ps : list nat) : bool := existsb (Nat.eqb p) ps.
Lemma memb_in p ps : memb p ps = true -> In p ps.
Proof. unfold memb. rewrite existsb_exists. intros (x & H & E). apply Nat.eqb_eq in E. subst. auto. Qed.
Definition runs (w : world) (t : tid) : bool := match t_pc (w_t w t) with PRun => true | _ => false end.
Lemma use_act w t p : memb p (t_refs (w_t w t)) = true -> runs w t = true -> act t (AUse p) w = Some w.
Proof. unfold runs, act, memb. intros H E. destruct (t_pc (w_t w t)); try discriminate. rewrite H. reflexivity. Qed.
Lemma rebb_reb w t : rebb w t = true -> rebuilding w t.
Proof. unfold rebb, rebuilding. destruct (t_pc (w_t w t)); try discriminate; auto. Qed.
