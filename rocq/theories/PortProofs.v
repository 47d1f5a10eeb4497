(** Invariants of the portfolio. *)
Require Import List Arith Bool Lia.
Require Import Verif.Base Verif.SolverSpec Verif.PortModel Verif.PortSpec.
Import ListNotations.

Ltac flds := cbn [thread_at main_at p_result p_verdict p_solver p_thr p_int p_model p_main p_exit].

Section Port.
Variable ans : tid -> answer.
Definition answered (b : bool) : Prop := exists t, a_status (ans t) = Some b.

Record PI (p : port) : Prop := {
  pi_r : forall b, p_result p = Some b -> answered b;
  pi_v : forall b, p_verdict p = Some (Some b) -> answered b;
  pi_u : forall t, p_thr p t <> TSolving -> a_status (ans t) = None -> p_int p = true;
  pi_s : forall t, p_solver p = Some t -> p_thr p t = TDone;
  pi_m : forall t, p_model p = Some t \/ p_main p = MModel t -> p_thr p t = TDone;
  pi_mt : forall t, p_model p = Some t -> answered true }.
Lemma PI_init : PI port_init.
Proof. constructor; cbn; try discriminate; try contradiction. intros t [H|H]; discriminate. Qed.
Lemma PI_next s p p' : PI p -> next ans s p = Some p' -> PI p'.
Proof.
  intros [A B D C E F] H. destruct s as [|t|]; cbn [next] in H.
  - injection H as <-. constructor; flds; auto.
  - assert (HS : forall c u, set_thr t c (p_thr p) u = if u =? t then c else p_thr p u) by reflexivity.
    destruct (p_thr p t) eqn:Et; [| | | |discriminate].
    + destruct (is_undef (a_status (ans t)) && negb (p_int p)) eqn:Eu; [discriminate|]. injection H as <-. constructor; flds; auto.
      * intros u. rewrite HS. destruct (Nat.eqb_spec u t) as [->|]; eauto. intros _ Hn. rewrite Hn in Eu. cbn in Eu. apply negb_false_iff in Eu. auto.
      * intros u Hu. rewrite HS. destruct (Nat.eqb_spec u t) as [->|]; auto. rewrite (C t Hu) in Et. discriminate.
      * intros u Hu. rewrite HS. destruct (Nat.eqb_spec u t) as [->|]; auto. rewrite (E t Hu) in Et. discriminate.
    + injection H as <-. constructor; flds; auto.
      * intros u. rewrite HS. destruct (Nat.eqb_spec u t) as [->|]; eauto. intros _ Hn. apply (D t); auto. rewrite Et. discriminate.
      * intros u Hu. rewrite HS. destruct (Nat.eqb_spec u t) as [->|]; auto. rewrite (C t Hu) in Et. discriminate.
      * intros u Hu. rewrite HS. destruct (Nat.eqb_spec u t) as [->|]; auto. rewrite (E t Hu) in Et. discriminate.
    + injection H as <-. constructor; flds; auto.
      * intros b Hb. exists t. auto.
      * intros u. rewrite HS. destruct (Nat.eqb_spec u t) as [->|]; eauto. intros _ Hn. apply (D t); auto. rewrite Et. discriminate.
      * intros u Hu. rewrite HS. destruct (Nat.eqb_spec u t) as [->|]; auto. rewrite (C t Hu) in Et. discriminate.
      * intros u Hu. rewrite HS. destruct (Nat.eqb_spec u t) as [->|]; auto. rewrite (E t Hu) in Et. discriminate.
    + injection H as <-. constructor; flds; auto.
      * intros u. rewrite HS. destruct (Nat.eqb_spec u t) as [->|]; eauto. intros _ Hn. apply (D t); auto. rewrite Et. discriminate.
      * intros u Hu. injection Hu as <-. rewrite HS, Nat.eqb_refl. auto.
      * intros u Hu. rewrite HS. destruct (Nat.eqb_spec u t) as [->|]; auto.
  - cbv zeta in H. destruct (p_main p) as [| | | | |t| | |] eqn:Em; [| | | | | | | |discriminate].
    + injection H as <-. constructor; flds; auto. intros t [H|H]; [apply E; auto|]. destruct (_ && _); discriminate.
    + injection H as <-. destruct (p_result p) as [[|]|] eqn:Er; cbn [is_true]; constructor; flds; rewrite ?Er; auto;
        try (intros t [H|H]; [apply E; auto|discriminate]). intros b Hb. injection Hb as <-. auto.
    + injection H as <-. constructor; flds; auto.
      * intros b Hb. injection Hb as Hb. destruct (p_result p) as [[|]|] eqn:Er; cbn in Hb; try discriminate. injection Hb as <-. auto.
      * intros t [H|H]; [apply E; auto|discriminate].
    + injection H as <-. constructor; flds; auto. intros t [H|H]; [apply E; auto|]. destruct (p_solver p); discriminate.
    + destruct (p_solver p) as [u|] eqn:Es; [|discriminate]. injection H as <-. constructor; flds; auto.
      * intros t Ht. rewrite Es in Ht. auto.
      * intros t [H|H]; [apply E; auto|]. injection H as <-. auto.
    + injection H as <-. constructor; flds; auto.
      * intros u [H|H]; [|discriminate]. destruct (is_true (p_result p)); [injection H as <-|]; auto.
      * intros u H. destruct (p_result p) as [[|]|] eqn:Er; cbn in H; eauto.
    + injection H as <-. destruct (is_true (p_result p)); constructor; flds; auto; intros u [H|H]; try discriminate; apply E; auto.
    + injection H as <-. constructor; flds; auto. intros u [H|H]; [|discriminate]. apply E; auto.
Qed.
Lemma PI_run sch : forall p p', PI p -> run ans sch p = Some p' -> PI p'.
Proof.
  induction sch as [|s r IH]; intros p p' HP E; cbn [run] in E; [injection E as <-; auto|].
  destruct (next ans s p) as [p1|] eqn:E1; [|discriminate]. apply (IH p1); auto. apply (PI_next s p); auto.
Qed.
Lemma verdict_answered sch p b : run ans sch port_init = Some p -> p_verdict p = Some (Some b) -> exists t, a_status (ans t) = Some b.
Proof. intros E. exact (pi_v _ (PI_run sch _ _ PI_init E) b). Qed.

(** with a lock *)
Definition quiet (p : port) : Prop := forall t, ~ publishing p t.
Record LI (p : port) : Prop := {
  li_one : forall t u, publishing p t -> publishing p u -> t = u;
  li_res : forall t, p_thr p t = TResult -> p_result p = None;
  li_sol : forall t, p_thr p t = TSolver -> p_result p = a_status (ans t);
  li_q : quiet p -> p_result p = match p_solver p with Some t => a_status (ans t) | None => None end;
  li_v : forall b, p_verdict p = Some (Some b) -> p_result p = Some b;
  li_0 : match p_main p with
         | MPoll | MTrue | MFalse => p_verdict p = None /\ p_model p = None
         | MNull | MGet => p_model p = None
         | MModel t => p_model p = None /\ forall b, p_verdict p = Some (Some b) -> a_status (ans t) = Some b
         | _ => forall b, p_verdict p = Some (Some b) -> exists t, a_status (ans t) = Some b /\ (b = true -> p_model p = Some t)
         end;
  li_x : forall b, p_verdict p = Some (Some b) -> match p_main p with
         | MExitF => b = false
         | MEnd => p_exit p = Some (exit_code (Some b))
         | _ => p_exit p = None end;
  li_y : p_main p <> MEnd -> p_exit p = None }.
Lemma LI_init : LI port_init.
Proof. constructor; cbn; try discriminate; auto. intros t u [H|H]; discriminate. Qed.
Lemma LI_next s p p' : LI p -> (forall t, publishing p t -> s = SThread t) -> next ans s p = Some p' -> LI p'.
Proof.
  intros [A B C Q V M X Y] HL H. destruct s as [|t|]; cbn [next] in H.
  - injection H as <-. constructor; flds; auto.
  - assert (HS : forall c u, set_thr t c (p_thr p) u = if u =? t then c else p_thr p u) by reflexivity.
    assert (OT : forall u, u <> t -> ~ publishing p u). { intros u Hu Hp. specialize (HL u Hp). injection HL as ->. auto. }
    destruct (p_thr p t) eqn:Et; [| | | |discriminate].
    + destruct (is_undef (a_status (ans t)) && negb (p_int p)) eqn:Eu; [discriminate|]. injection H as <-.
      assert (QP : quiet p). { intros u Hu. destruct (Nat.eq_dec u t) as [->|]; [destruct Hu as [Z|Z]; rewrite Et in Z; discriminate|exact (OT u n Hu)]. }
      constructor; flds; auto.
      * intros u w Hu. unfold publishing in Hu. cbn in Hu. rewrite HS in Hu. destruct (Nat.eqb_spec u t) as [->|]; [destruct Hu; discriminate|]. destruct (OT u n Hu).
      * intros u. rewrite HS. destruct (u =? t); [discriminate|]; eauto.
      * intros u. rewrite HS. destruct (u =? t); [discriminate|]; eauto.
    + injection H as <-.
      assert (QP : quiet p). { intros u Hu. destruct (Nat.eq_dec u t) as [->|]; [destruct Hu as [Z|Z]; rewrite Et in Z; discriminate|exact (OT u n Hu)]. }
      assert (ONE : forall c u, publishing (thread_at t c p) u -> u = t).
      { intros c u Hu. unfold publishing in Hu. cbn in Hu. rewrite HS in Hu. destruct (Nat.eqb_spec u t) as [e|n]; [exact e|]. destruct (OT u n Hu). }
      constructor; flds; auto.
      * intros u w Hu Hw. rewrite (ONE _ _ Hu), (ONE _ _ Hw). auto.
      * intros u. rewrite HS. destruct (u =? t); [destruct (p_result p); cbn; [discriminate|auto]|]; eauto.
      * intros u. rewrite HS. destruct (u =? t); [destruct (p_result p); cbn; discriminate|]; eauto.
    + injection H as <-. assert (R := B t Et). assert (NV : forall b, p_verdict p <> Some (Some b)). { intros b Hb. rewrite (V b Hb) in R. discriminate. }
      constructor; flds; auto.
      * intros u w Hu Hw. unfold publishing in Hu, Hw. cbn in Hu, Hw. rewrite !HS in *. destruct (Nat.eqb_spec u t) as [->|]; [|destruct (OT u n Hu)].
        destruct (Nat.eqb_spec w t) as [->|]; auto. destruct (OT w n Hw).
      * intros u. rewrite HS. destruct (Nat.eqb_spec u t) as [->|]; [discriminate|]. intros Z. destruct (OT u n (or_introl Z)).
      * intros u. rewrite HS. destruct (Nat.eqb_spec u t) as [->|]; auto. intros Z. destruct (OT u n (or_intror Z)).
      * intros Z. destruct (Z t). right. cbn. rewrite HS, Nat.eqb_refl. auto.
      * intros b Hb. destruct (NV b Hb).
    + injection H as <-. assert (R := C t Et). constructor; flds; auto.
      * intros u w Hu. unfold publishing in Hu. cbn in Hu. rewrite HS in Hu. destruct (Nat.eqb_spec u t) as [->|]; [destruct Hu; discriminate|]. destruct (OT u n Hu).
      * intros u. rewrite HS. destruct (Nat.eqb_spec u t) as [->|]; [discriminate|]; eauto.
      * intros u. rewrite HS. destruct (Nat.eqb_spec u t) as [->|]; [discriminate|]; eauto.
  - assert (QP : quiet p). { intros u Hu. specialize (HL u Hu). discriminate. } assert (Q' := Q QP).
    cbv zeta in H. destruct (p_main p) as [| | | | |t| | |] eqn:Em; [| | | | | | | |discriminate].
    + injection H as <-. assert (Y' : p_exit p = None) by (apply Y; discriminate). constructor; flds; auto; destruct (_ && _); auto.
    + destruct M as (M1 & M2). assert (Y' : p_exit p = None) by (apply Y; discriminate).
      injection H as <-. destruct (p_result p) as [[|]|] eqn:Er; cbn [is_true]; constructor; flds; rewrite ?Er; auto; try discriminate.
      intros b Hb. injection Hb as <-. auto.
    + destruct M as (M1 & M2). assert (Y' : p_exit p = None) by (apply Y; discriminate).
      injection H as <-. constructor; flds; auto. intros b Hb. injection Hb as Hb. destruct (p_result p) as [[|]|]; try discriminate. injection Hb as <-. auto.
    + assert (Y' : p_exit p = None) by (apply Y; discriminate).
      injection H as <-. constructor; flds; auto; destruct (p_solver p) as [u|] eqn:Es; auto.
      intros b Hb. rewrite (V b Hb) in Q'. discriminate.
    + assert (Y' : p_exit p = None) by (apply Y; discriminate).
      destruct (p_solver p) as [u|] eqn:Es; [|discriminate]. injection H as <-. constructor; flds; rewrite ?Es; auto.
      split; auto. intros b Hb. rewrite <- Q'. auto.
    + assert (Y' : p_exit p = None) by (apply Y; discriminate). destruct M as (M1 & M2).
      injection H as <-. constructor; flds; auto. intros b Hb. exists t. split; auto. intros ->. rewrite (V true Hb). auto.
    + assert (Y' : p_exit p = None) by (apply Y; discriminate).
      injection H as <-. destruct (is_true (p_result p)) eqn:Et; constructor; flds; auto.
      * intros b Hb. rewrite (V b Hb) in Et. destruct b; [auto|discriminate].
      * intros Z. destruct Z. auto.
      * intros b Hb. rewrite (V b Hb) in Et. destruct b; [discriminate|auto].
    + injection H as <-. constructor; flds; auto.
      * intros b Hb. rewrite (V b Hb). rewrite (X b Hb). auto.
      * intros Z. destruct Z. auto.
Qed.
Lemma locked_run sch : forall p, locked ans sch -> run ans sch port_init = Some p -> LI p.
Proof.
  induction sch as [|s sch IH] using rev_ind; intros p HL E; [injection E as <-; exact LI_init|].
  assert (RA : forall l1 l2 q, run ans (l1 ++ l2) q = match run ans l1 q with Some q' => run ans l2 q' | None => None end).
  { induction l1 as [|x l1 IHl]; intros l2 q; cbn [run app]; auto. destruct (next ans x q); auto. }
  rewrite RA in E. destruct (run ans sch port_init) as [q|] eqn:Eq; [|discriminate]. cbn [run] in E.
  destruct (next ans s q) as [q'|] eqn:En; [|discriminate]. injection E as <-. apply (LI_next s q); auto.
  - apply IH; auto. intros pre x rest r t -> Hr. apply (HL pre x (rest ++ [s]) r t); auto. rewrite <- app_assoc. auto.
  - intros t. apply (HL sch s []); auto.
Qed.
Lemma locked_model sch p : locked ans sch -> run ans sch port_init = Some p -> p_main p = MEnd -> p_verdict p = Some (Some true) ->
  exists t, p_model p = Some t /\ a_status (ans t) = Some true.
Proof.
  intros HL E Hm Hv. assert (I := locked_run sch p HL E). assert (M := li_0 p I). rewrite Hm in M. destruct (M true Hv) as (t & H1 & H2). exists t. auto.
Qed.
Lemma locked_exit sch p b : locked ans sch -> run ans sch port_init = Some p -> p_main p = MEnd -> p_verdict p = Some (Some b) -> p_exit p = Some (exit_code (Some b)).
Proof. intros HL E Hm Hv. assert (I := locked_run sch p HL E). assert (M := li_x p I b Hv). rewrite Hm in M. auto. Qed.

(** answers agree *)
Variable F : formula.
Hypothesis HS : sound F ans.
Lemma model_sat_sat m : model_sat m F -> satisfiable F.
Proof.
  intros H. exists (fun v => match nth v m None with Some b => b | None => false end). intros c Hc. destruct (H c Hc) as (l & Hl & Hm).
  exists l. split; auto. unfold model_lit in Hm. unfold lit_holds, lit_val. rewrite Hm. destruct (lsign l); auto.
Qed.
Lemma sound_agree t u : a_status (ans t) = Some true -> a_status (ans u) = Some false -> False.
Proof.
  intros H1 H2. assert (A := HS t). assert (B := HS u). rewrite H1 in A. rewrite H2 in B. destruct (model_sat_sat _ A) as (x & Hx). exact (B x Hx).
Qed.
Lemma sound_eq t u b c : a_status (ans t) = Some b -> a_status (ans u) = Some c -> b = c.
Proof. intros H1 H2. destruct b, c; auto; [destruct (sound_agree t u)|destruct (sound_agree u t)]; auto. Qed.
Lemma verdict_correct sch p b : run ans sch port_init = Some p -> p_verdict p = Some (Some b) -> if b then satisfiable F else unsat F.
Proof.
  intros E H. destruct (verdict_answered sch p b E H) as (t & Ht). assert (A := HS t). rewrite Ht in A. destruct b; auto. exact (model_sat_sat _ A).
Qed.
Lemma model_correct sch p t : run ans sch port_init = Some p -> p_int p = false -> p_model p = Some t -> a_status (ans t) = Some true /\ model_sat (a_model (ans t)) F.
Proof.
  intros E Hi Hm. destruct (PI_run sch _ _ PI_init E) as [A B D C G K]. assert (T := G t (or_introl Hm)).
  assert (St : a_status (ans t) = Some true).
  { destruct (a_status (ans t)) as [[|]|] eqn:Es; auto.
    - destruct (K t Hm) as (u & Hu). destruct (sound_agree u t Hu Es).
    - assert (p_int p = true); [|congruence]. apply (D t); auto. rewrite T. discriminate. }
  split; auto. assert (X := HS t). rewrite St in X. exact X.
Qed.

(** without interruption there is one result *)
Definition UI (p : port) : Prop :=
  (p_main p = MPoll /\ p_verdict p = None /\ p_exit p = None) \/
  exists b, p_result p = Some b /\
    match p_main p with
    | MPoll | MTrue => p_verdict p = None /\ p_exit p = None
    | MFalse => b = false /\ p_verdict p = None /\ p_exit p = None
    | MExitF => b = false /\ p_verdict p = Some (Some b) /\ p_exit p = None
    | MEnd => p_verdict p = Some (Some b) /\ p_exit p = Some (exit_code (Some b))
    | _ => p_verdict p = Some (Some b) /\ p_exit p = None
    end.
Lemma UI_next s p p' : PI p -> UI p -> next ans s p = Some p' -> p_int p' = false -> UI p'.
Proof.
  intros HP HU H Hi. destruct s as [|t|]; cbn [next] in H.
  - injection H as <-. discriminate.
  - destruct (p_thr p t) eqn:Et; [| | | |discriminate].
    + destruct (_ && _); [discriminate|]. injection H as <-. exact HU.
    + injection H as <-. exact HU.
    + injection H as <-. cbn in Hi. destruct (a_status (ans t)) as [c|] eqn:Ec.
      * destruct HU as [HU|(b & Hb & HU)]; [left; exact HU|]. right. exists b. flds. split; auto.
        destruct (pi_r _ HP b Hb) as (u & Hu). f_equal. apply (sound_eq t u); auto.
      * rewrite (pi_u _ HP t) in Hi; [discriminate|rewrite Et; discriminate|auto].
    + injection H as <-. exact HU.
  - cbv zeta in H. assert (Hi0 : p_int p = false).
    { destruct (p_main p); [| | | |destruct (p_solver p); [|discriminate]| | | |discriminate]; injection H as <-; auto; destruct (is_true _); auto. }
    unfold UI in HU. destruct (p_main p) as [| | | | |t| | |] eqn:Em; [| | | | | | | |discriminate].
    all: destruct HU as [(HU & HV)|(b & Hb & HU)]; try discriminate HU.
    + injection H as <-. rewrite Hi0. destruct (p_result p) as [b|] eqn:Er; cbn [is_undef negb andb].
      * right. exists b. flds. rewrite Er. auto.
      * left. flds. auto.
    + injection H as <-. rewrite Hb. cbn [is_undef andb]. right. exists b. flds. auto.
    + injection H as <-. rewrite Hb. right. exists b. destruct b; cbn [is_true]; flds; destruct HU; auto.
    + injection H as <-. rewrite Hb. right. exists b. flds. destruct HU as (-> & H1 & H2). auto.
    + injection H as <-. right. exists b. flds. destruct (p_solver p); auto.
    + destruct (p_solver p) as [u|]; [|discriminate]. injection H as <-. right. exists b. flds. auto.
    + injection H as <-. right. exists b. flds. auto.
    + injection H as <-. rewrite Hb. right. exists b. destruct HU as (H1 & H2). destruct b; cbn [is_true]; flds; auto.
    + injection H as <-. rewrite Hb. right. exists b. flds. destruct HU as (-> & H1 & H2). auto.
Qed.
Lemma int_next s p p' : next ans s p = Some p' -> p_int p' = false -> p_int p = false.
Proof.
  intros H Hi. destruct s as [|t|]; cbn [next] in H; cbv zeta in H.
  - injection H as <-. discriminate.
  - destruct (p_thr p t); [destruct (_ && _); [discriminate|]| | | |discriminate]; injection H as <-; exact Hi.
  - destruct (p_main p); [| | | |destruct (p_solver p); [|discriminate]| | | |discriminate]; injection H as <-; auto; destruct (is_true _); auto.
Qed.
Lemma int_run sch : forall p p', run ans sch p = Some p' -> p_int p' = false -> p_int p = false.
Proof.
  induction sch as [|s r IH]; intros p p' E Hi; cbn [run] in E; [injection E as <-; auto|].
  destruct (next ans s p) as [p1|] eqn:E1; [|discriminate]. apply (int_next s p p1); auto. apply (IH p1 p'); auto.
Qed.
Lemma UI_run sch : forall p p', PI p -> UI p -> run ans sch p = Some p' -> p_int p' = false -> UI p'.
Proof.
  induction sch as [|s r IH]; intros p p' HP HU E Hi; cbn [run] in E; [injection E as <-; auto|].
  destruct (next ans s p) as [p1|] eqn:E1; [|discriminate]. apply (IH p1); auto; [apply (PI_next s p); auto|].
  apply (UI_next s p p1); auto. apply (int_run r p1 p'); auto.
Qed.
Lemma exit_correct sch p x : run ans sch port_init = Some p -> p_int p = false -> p_exit p = Some x ->
  exists b, p_verdict p = Some (Some b) /\ x = exit_code (Some b).
Proof.
  intros E Hi Hx. destruct (UI_run sch port_init p PI_init) as [(H1 & H2 & H3)|(b & Hb & HU)]; auto; [left; auto|congruence|]. exists b.
  destruct (p_main p); try (destruct HU as (H1 & H2); congruence); try (destruct HU as (H1 & H2 & H3); congruence).
  destruct HU as (H1 & H2). split; auto. congruence.
Qed.
Lemma verdict_definite sch p v : run ans sch port_init = Some p -> p_int p = false -> p_verdict p = Some v -> v <> None.
Proof.
  intros E Hi Hv. destruct (UI_run sch port_init p PI_init) as [(H1 & H2 & H3)|(b & Hb & HU)]; auto; [left; auto|congruence|].
  destruct (p_main p); try (destruct HU as (H1 & H2); congruence); destruct HU as (H1 & H2 & H3); congruence.
Qed.
End Port.

(** deciding [locked] *)
Section Locked.
Variable ans : tid -> answer.
Definition publishingb (p : port) (t : tid) : bool := match p_thr p t with TResult | TSolver => true | _ => false end.
Definition isb (s : step) (t : tid) : bool := match s with SThread u => u =? t | _ => false end.
Fixpoint lockedb (ts : list tid) (sch : list step) (p : port) : bool :=
  match sch with
  | [] => true
  | s :: r => forallb (fun t => negb (publishingb p t) || isb s t) ts && match next ans s p with Some p' => lockedb ts r p' | None => true end
  end.
Definition tids (sch : list step) : list tid := flat_map (fun s => match s with SThread t => [t] | _ => [] end) sch.
Lemma started sch : forall p p' t, run ans sch p = Some p' -> p_thr p' t <> p_thr p t -> In t (tids sch).
Proof.
  induction sch as [|s r IH]; intros p p' t E H; cbn [run] in E; [injection E as <-; destruct H; auto|].
  destruct (next ans s p) as [p1|] eqn:E1; [|discriminate]. cbn [tids flat_map]. apply in_or_app.
  assert (D : In t (match s with SThread u => [u] | _ => [] end) \/ p_thr p1 t = p_thr p t).
  { destruct s as [|u|]; cbn [next] in E1.
    - injection E1 as <-. auto.
    - destruct (Nat.eq_dec u t) as [->|Hn]; [left; left; auto|right]. assert (X : forall c, set_thr u c (p_thr p) t = p_thr p t).
      { intros c. unfold set_thr. destruct (Nat.eqb_spec t u) as [e|]; auto. destruct Hn. auto. }
      destruct (p_thr p u); [destruct (_ && _); [discriminate|]| | | |discriminate]; injection E1 as <-; flds; apply X.
    - right. cbv zeta in E1. destruct (p_main p); [| | | |destruct (p_solver p); [|discriminate]| | | |discriminate]; injection E1 as <-; auto; destruct (is_true _); auto. }
  destruct D as [D|D]; auto. right. apply (IH p1 p'); auto. rewrite D. auto.
Qed.
Lemma lockedb_run ts sch : forall p, lockedb ts sch p = true -> forall pre s rest q t, sch = pre ++ s :: rest -> run ans pre p = Some q -> In t ts -> publishing q t -> s = SThread t.
Proof.
  induction sch as [|s0 r IH]; intros p H pre s rest q t E R Ht Hp; [destruct pre; discriminate|].
  cbn [lockedb] in H. apply andb_true_iff in H as (H1 & H2). destruct pre as [|s1 pre]; cbn [app] in E; injection E as -> ->.
  - cbn [run] in R. injection R as <-. rewrite forallb_forall in H1. specialize (H1 t Ht). unfold publishingb in H1. destruct Hp as [Hp|Hp]; rewrite Hp in H1; cbn in H1.
    + destruct s as [|u|]; cbn in H1; try discriminate. apply Nat.eqb_eq in H1. f_equal. exact H1.
    + destruct s as [|u|]; cbn in H1; try discriminate. apply Nat.eqb_eq in H1. f_equal. exact H1.
  - cbn [run] in R. destruct (next ans s1 p) as [p1|]; [|discriminate]. apply (IH p1 H2 pre s rest q t); auto.
Qed.
Lemma lockedb_sound sch : lockedb (tids sch) sch port_init = true -> locked ans sch.
Proof.
  intros H pre s rest p t E R Hp. apply (lockedb_run (tids sch) sch port_init H pre s rest p t); auto. rewrite E. unfold tids. rewrite flat_map_app.
  apply in_or_app. left. apply (started pre port_init p); auto. cbn. destruct Hp as [-> | ->]; discriminate.
Qed.
End Locked.

(** what can be seen of a run *)
Definition obs (p : port) := (p_int p, p_main p, p_verdict p, p_model p, p_exit p).
Lemma run_obs ans sch i m v t x : option_map obs (run ans sch port_init) = Some (i, m, v, t, x) ->
  exists p, run ans sch port_init = Some p /\ p_int p = i /\ p_main p = m /\ p_verdict p = v /\ p_model p = t /\ p_exit p = x.
Proof. destruct (run ans sch port_init) as [p|]; cbn; [|discriminate]. intros H. injection H as <- <- <- <- <-. exists p. auto 10. Qed.
