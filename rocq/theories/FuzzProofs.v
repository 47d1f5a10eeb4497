(** Proofs about the fuzzing program. *)
Require Import List Arith ZArith NArith Lia String Bool.
Require Import Verif.Base Verif.Outcome Verif.OptModel Verif.CNFModel Verif.CNFSpec Verif.CNFProofs Verif.DimacsModel Verif.DimacsSpec Verif.DimacsProofs Verif.DimacsMore
  Verif.TrailModel Verif.DbModel Verif.DRATModel Verif.DRATProofs Verif.DratFileModel Verif.DratFileProofs Verif.SolverModel Verif.SolverSpec Verif.SolverBase Verif.PropSpec
  Verif.IpasirModel Verif.IpasirSpec Verif.IpasirProofs Verif.MainModel Verif.MainSpec Verif.MainProofs Verif.MainMore Verif.FuzzModel Verif.FuzzSpec.
Import ListNotations.
Open Scope list_scope.

(** ** Literals *)
Lemma c2i_nz l : c2i l <> 0%Z.
Proof. unfold c2i. destruct (lsign l); nia. Qed.
Lemma import_c2i l : import (c2i l) = l.
Proof.
  rewrite (lit_eta l) at 2. unfold import, c2i. destruct (lsign l).
  - replace (Z.to_nat (Z.abs ((Z.of_nat (lvar l) + 1) * -1) - 1)) with (lvar l) by lia. f_equal. apply Z.ltb_lt. lia.
  - replace (Z.to_nat (Z.abs ((Z.of_nat (lvar l) + 1) * 1) - 1)) with (lvar l) by lia. f_equal. apply Z.ltb_ge. lia.
Qed.
Lemma imp_c2i F : imp (map (map c2i) F) = F.
Proof.
  unfold imp. rewrite map_map. rewrite <- (map_id F) at 2. apply map_ext. intros c. rewrite map_map. rewrite <- (map_id c) at 2. apply map_ext. exact import_c2i.
Qed.

(** ** The session *)
Definition add_calls (F : list clause) : list call := List.concat (map (fun c => map CAdd (map c2i c ++ [0%Z])) F).
Definition fuzz_calls (p : cnf) : list call := add_calls (problem p) ++ map CAssume (map c2i (hd [] (problem p))).
Lemma irun_app C cs : forall ds s, irun C s (cs ++ ds) = (s' <- irun C s cs ;; irun C s' ds).
Proof. induction cs as [|c cs IH]; intros ds s; cbn [irun app]; [reflexivity|]. destruct (istep C s c) as [s'|e]; cbn [bind]; auto. Qed.
Lemma run_lits C c : forall s, irun C s (map CAdd (map c2i c)) = Ok (fold_left (fun s l => ipasir_add (c2i l) s) c s).
Proof. induction c as [|l c IH]; intros s; cbn [map irun fold_left]; [reflexivity|]. cbn [istep bind]. apply IH. Qed.
Lemma run_adds C F : forall s, irun C s (add_calls F) = Ok (fold_left fuzz_add F s).
Proof.
  induction F as [|c F IH]; intros s; [reflexivity|]. unfold add_calls. cbn [map List.concat fold_left]. rewrite irun_app, map_app, irun_app, run_lits. cbn [bind map irun istep].
  apply IH.
Qed.
Lemma run_assumes C ls : forall s, irun C s (map CAssume (map c2i ls)) = Ok (fold_left (fun s l => ipasir_assume (c2i l) s) ls s).
Proof. induction ls as [|l c IH]; intros s; cbn [map irun fold_left]; [reflexivity|]. cbn [istep bind]. apply IH. Qed.
Lemma run_load p : irun fuzz_cfg (ipasir_init fuzz_cfg) (fuzz_calls p) = Ok (fuzz_load p).
Proof. unfold fuzz_calls, fuzz_load. rewrite irun_app, run_adds. cbn [bind]. apply run_assumes. Qed.

Lemma fold_adds c : (forall z, In z c -> z <> 0%Z) -> forall F cl As, fold_left mstep (map CAdd c) (F, cl, As) = (F, cl ++ c, As).
Proof.
  induction c as [|z c IH]; intros H F cl As; cbn [map fold_left]; [rewrite app_nil_r; reflexivity|]. cbn [mstep].
  destruct (Z.eqb_spec z 0) as [E|E]; [destruct (H z); cbn; auto|]. rewrite IH by (intros y Hy; apply H; cbn; auto). rewrite <- app_assoc. reflexivity.
Qed.
Lemma c2i_all_nz c z : In z (map c2i c) -> z <> 0%Z.
Proof. intros H. apply in_map_iff in H. destruct H as (l & <- & _). apply c2i_nz. Qed.
Lemma fold_clauses P : forall F As, fold_left mstep (add_calls P) (F, [], As) = (F ++ map (map c2i) P, [], As).
Proof.
  induction P as [|c P IH]; intros F As; [cbn; rewrite app_nil_r; reflexivity|]. unfold add_calls. cbn [map List.concat]. rewrite fold_left_app, map_app, fold_left_app.
  rewrite (fold_adds (map c2i c) (c2i_all_nz c)). cbn [map fold_left mstep]. change (0 =? 0)%Z with true. cbn iota. cbn [app]. rewrite IH. rewrite <- app_assoc. reflexivity.
Qed.
Lemma fold_assumes ls : forall F cl As, fold_left mstep (map CAssume ls) (F, cl, As) = (F, cl, As ++ ls).
Proof. induction ls as [|l ls IH]; intros F cl As; cbn [map fold_left]; [rewrite app_nil_r; reflexivity|]. cbn [mstep]. rewrite IH, <- app_assoc. reflexivity. Qed.
Lemma session_fuzz p : session (fuzz_calls p) = (map (map c2i) (problem p), [], map c2i (hd [] (problem p))).
Proof. unfold session, fuzz_calls. rewrite fold_left_app, fold_clauses, fold_assumes. reflexivity. Qed.
Lemma clauses_fuzz p : IpasirSpec.clauses (fuzz_calls p) = map (map c2i) (problem p).
Proof. unfold IpasirSpec.clauses. rewrite session_fuzz. reflexivity. Qed.
Lemma assumptions_fuzz p : assumptions (fuzz_calls p) = map c2i (hd [] (problem p)).
Proof. unfold assumptions. rewrite session_fuzz. reflexivity. Qed.
Definition simple (c : call) : Prop := match c with CAdd _ => True | CAssume l => l <> 0%Z | _ => False end.
Lemma simple_calls p : Forall simple (fuzz_calls p).
Proof.
  apply Forall_app. split.
  - apply Forall_forall. intros x Hx. unfold add_calls in Hx. apply in_concat in Hx. destruct Hx as (l & L1 & L2). apply in_map_iff in L1. destruct L1 as (c & <- & _).
    apply in_map_iff in L2. destruct L2 as (z & <- & _). exact I.
  - apply Forall_forall. intros x Hx. apply in_map_iff in Hx. destruct Hx as (z & <- & Hz). exact (c2i_all_nz _ _ Hz).
Qed.
Lemma simple_legal cs : Forall simple cs -> legal cs.
Proof.
  intros H. rewrite <- (rev_involutive cs) in *. induction (rev cs) as [|c r IH]; [constructor|]. cbn [rev] in *. apply Forall_app in H. destruct H as (H1 & H2).
  inversion H2; subst. destruct c; try contradiction; constructor; auto.
Qed.
Lemma simple_no_solve cs : Forall simple cs -> forall h n, ~ In (CSolve h n) cs.
Proof. intros H h n HI. rewrite Forall_forall in H. exact (H _ HI). Qed.
Lemma fuzz_reach p : ireach fuzz_cfg (fuzz_calls p) (fuzz_load p).
Proof. split; [apply simple_legal; apply simple_calls|apply run_load]. Qed.
Lemma fuzz_solvable p : solvable (fuzz_calls p).
Proof.
  intros z Hz. rewrite assumptions_fuzz in Hz. rewrite clauses_fuzz. destruct (problem p) as [|c r]; [destruct Hz|]. exists (map c2i c), z. cbn [hd] in Hz. cbn [map]. cbn. auto.
Qed.

(** ** The model *)
Lemma set_nth_end {A} (m : list A) x y : set_nth (List.length m) y (m ++ [x]) = m ++ [y].
Proof. unfold set_nth. rewrite firstn_app, firstn_all, Nat.sub_diag. cbn [firstn]. rewrite skipn_app, skipn_all, Nat.sub_diag. cbn [skipn app]. rewrite app_nil_r. reflexivity. Qed.
Lemma set_model_end (m : model) n b : List.length m = n -> setModelValue m (mkLit n (negb b)) = m ++ [Some b].
Proof.
  intros L. unfold setModelValue. rewrite lvar_mk, lsign_mk, negb_involutive, L, Nat.leb_refl. replace (n + 1 - n) with 1 by lia. cbn [repeat]. rewrite <- L at 1. apply set_nth_end.
Qed.
Lemma set_model_seq (f : nat -> bool) n : fold_left (fun (m : model) (v : nat) => setModelValue m (mkLit v (negb (f v)))) (seq 0 n) [] = map (fun v => Some (f v)) (seq 0 n).
Proof.
  induction n as [|n IH]; [reflexivity|]. rewrite seq_S, fold_left_app, map_app. cbn [fold_left map]. rewrite Nat.add_0_l.
  rewrite set_model_end; [f_equal; exact IH|]. etransitivity; [apply f_equal; exact IH|]. rewrite map_length. apply seq_length.
Qed.
Lemma fuzz_model_map n s : fuzz_model n s = map (fun v => Some (0 <? ipasir_val (Z.of_nat v + 1) s)%Z) (seq 0 n).
Proof. exact (set_model_seq (fun v => (0 <? ipasir_val (Z.of_nat v + 1) s)%Z) n). Qed.
Lemma fuzz_model_nth n s v : v < n -> nth_error (fuzz_model n s) v = Some (Some (0 <? ipasir_val (Z.of_nat v + 1) s)%Z).
Proof.
  intros H. rewrite fuzz_model_map. rewrite nth_error_map. rewrite (nth_error_nth' (seq 0 n) 0) by (rewrite seq_length; exact H). cbn [option_map]. rewrite seq_nth by exact H. reflexivity.
Qed.
Definition fuzz_asg (s : ips) : assignment := fun v => (0 <? ipasir_val (Z.of_nat v + 1) s)%Z.

Lemma fuzz_val p (Hok : Forall (clause_ok (variables p)) (problem p)) O fuel s : ipasir_solve fuzz_cfg O fuel (fuzz_load p) = Ok (10%Z, s) ->
  (forall c, In c (problem p) -> exists l, In l c /\ assigns (fuzz_model (variables p) s) l /\ lit_holds (fuzz_asg s) l) /\
  (forall l, In l (hd [] (problem p)) -> lit_holds (fuzz_asg s) l).
Proof.
  intros E. destruct (ip_sat_first fuzz_cfg (fuzz_calls p) (fuzz_load p) O fuel 10 s) as (M1 & M2 & M3);
    [vm_compute; reflexivity|apply simple_no_solve; apply simple_calls|apply fuzz_reach|apply fuzz_solvable|exact E|reflexivity|].
  rewrite clauses_fuzz in M1, M3. rewrite assumptions_fuzz in M2.
  assert (HK : forall c l, In c (problem p) -> In l c -> ipasir_val (c2i l) s = c2i l -> (0 <? ipasir_val (Z.of_nat (lvar l) + 1) s)%Z = negb (lsign l)).
  { intros c l Hc Hl E1. unfold c2i in E1. destruct (lsign l) eqn:ES; cbn [negb].
    - assert (M := M3 (Z.of_nat (lvar l) + 1)%Z). replace (- (Z.of_nat (lvar l) + 1))%Z with ((Z.of_nat (lvar l) + 1) * -1)%Z in M by lia. rewrite <- M, E1; [apply Z.ltb_ge; lia|lia|].
      exists (map c2i c), (c2i l). split; [apply in_map; exact Hc|]. split; [apply in_map; exact Hl|]. unfold c2i. rewrite ES. lia.
    - rewrite Z.mul_1_r in E1. rewrite E1. apply Z.ltb_lt. lia. }
  assert (HH : forall c l, In c (problem p) -> In l c -> ipasir_val (c2i l) s = c2i l -> lit_holds (fuzz_asg s) l).
  { intros c l Hc Hl E1. unfold lit_holds, lit_val, fuzz_asg. rewrite (HK c l Hc Hl E1). destruct (lsign l); reflexivity. }
  rewrite Forall_forall in Hok. split.
  - intros c Hc. destruct (M1 (map c2i c)) as (z & Z1 & Z2); [apply in_map; exact Hc|]. apply in_map_iff in Z1. destruct Z1 as (l & <- & Hl). exists l. split; [exact Hl|].
    split; [|exact (HH c l Hc Hl Z2)]. unfold assigns. rewrite fuzz_model_nth by (apply (Hok c Hc); exact Hl). rewrite (HK c l Hc Hl Z2). reflexivity.
  - intros l Hl. destruct (problem p) as [|c r] eqn:EP; [destruct Hl|]. cbn [hd] in *. apply (HH c l); [cbn; auto|exact Hl|]. apply M2. apply in_map. exact Hl.
Qed.

(** ** The failed literals *)
Lemma failed_problem : forall ls s p q, fuzz_failed ls s p = Ok q -> Forall (clause_ok (variables p)) (problem p) ->
  Forall (clause_ok (variables q)) (problem q) /\ (In [] (problem q) <-> In [] (problem p)) /\
  (forall a, sat a (problem p) -> (forall l, In l ls -> lit_holds a l) -> sat a (problem q)) /\ variables p <= variables q /\
  (forall c, In c (problem q) -> In c (problem p) \/ List.length c <= 1).
Proof.
  induction ls as [|l ls IH]; intros s p q E H; cbn [fuzz_failed] in E; [injection E as <-; split; [exact H|]; split; [tauto|]; split; [auto|]; split; [lia|auto]|].
  apply bind_ok in E. destruct E as ((b & s1) & _ & E). destruct b; cbn iota in E.
  - destruct (read_step p [l] H) as (R1 & R2 & R3 & R4). destruct (IH _ _ _ E R1) as (A & B & C & D & L). split; [exact A|].
    destruct (readClause_spec p [l]) as ([(HT & ER)|(HT & u & ER & HU & HS)] & _).
    + destruct HT as (k & [<-|[]] & [K|[]]). exfalso. revert K. apply not_eq_sym. apply lneg_neq.
    + assert (U1 : u <> []) by (intros ->; destruct (proj1 (HU l)); cbn; auto).
      assert (U2 : List.length u <= 1).
      { destruct u as [|x [|y u]]; cbn; try lia. exfalso. inversion HS as [|? ? HS' HF]; subst. inversion HF; subst.
        destruct (proj2 (HU x)) as [<-|[]]; [cbn; auto|]. destruct (proj2 (HU y)) as [Ey|[]]; [cbn; auto|]. subst. lia. }
      split; [rewrite B, ER; split; [intros K; apply in_app_iff in K; destruct K as [K|[K|[]]]; [exact K|congruence]|intros K; apply in_app_iff; auto]|]. split.
      * intros a Ha Hl. apply C; [|intros k Hk; apply Hl; cbn; auto]. apply R4. split; [exact Ha|]. exists l. split; [cbn; auto|]. apply Hl. cbn. auto.
      * split; [lia|]. intros c Hc. destruct (L c Hc) as [K|K]; [|auto]. rewrite ER in K. apply in_app_iff in K. destruct K as [K|[<-|[]]]; auto.
  - destruct (IH _ _ _ E H) as (A & B & C & D & L). split; [exact A|]. split; [exact B|]. split; [intros a Ha Hl; apply C; auto; intros k Hk; apply Hl; cbn; auto|auto].
Qed.

(** ** The empty proof *)
Lemma create_all_empt cs : forall lem d d', create_all cs lem d = Ok d' -> empt d' = true <-> empt d = true \/ In [] cs.
Proof.
  induction cs as [|c cs IH]; intros lem d d' E; cbn [create_all] in E; [injection E as <-; cbn; tauto|].
  apply bind_ok in E. destruct E as ((x & d1) & E1 & E). rewrite (IH _ _ _ E). unfold createClause in E1. destruct (_ <=? _)%N; [discriminate|]. injection E1 as _ <-. cbn [empt In].
  destruct c as [|l c]; cbn [List.length Nat.eqb]; [intuition|]. split; [intros [K|K]; auto|intros [K|[K|K]]; auto; discriminate].
Qed.
Lemma chk_new_empt n cs k : chk_new n cs = Ok k -> empt (k_d k) = true <-> In [] cs.
Proof.
  intros E. unfold chk_new in E. apply bind_ok in E. destruct E as (d & E1 & E). apply bind_ok in E. destruct E as (t & E2 & E). injection E as <-. cbn [k_d].
  unfold db_init in E1. rewrite (create_all_empt _ _ _ _ E1). split; [intros [K|K]; auto|auto]. unfold db_grow in K. destruct (nv db_new <? n)%nat; discriminate.
Qed.
Lemma empty_proof B junk n cs b : 0 < B -> check_proof_file B junk [] n cs = POk (Ok b) -> b = true <-> In [] cs.
Proof.
  intros HB E. unfold check_proof_file in E. destruct (chk_new n cs) as [k|e] eqn:EK; [|discriminate]. rewrite <- (chk_new_empt n cs k EK).
  destruct (empt (k_d k)) eqn:EE; [injection E as <-; tauto|]. unfold sb_new, refill in E. cbn [eof size off pos file buf Nat.sub Nat.leb firstn skipn app List.length Nat.add] in E.
  rewrite Nat.sub_0_r, firstn_nil, skipn_nil in E. cbn [List.length Nat.add app] in E. rewrite (proj2 (Nat.ltb_lt 0 B) HB) in E.
  cbn [pbind Nat.mul Nat.add skipWhitespace eof size off pos Nat.sub Nat.leb negb andb proof_loop] in E. rewrite EE in E. injection E as <-. split; intros; congruence.
Qed.
Lemma empty_proof_answers B junk n cs : 0 < B -> (forall c l, In c cs -> In l c -> lvar l < n) -> (forall c, In c cs -> List.length c < 200) ->
  exists b, check_proof_file B junk [] n cs = POk (Ok b).
Proof.
  intros HB HV HL. unfold check_proof_file. destruct (new_spec n cs HV) as [(e & E & E')|(k & E & _)]; rewrite E.
  - exfalso. unfold db_init in E'. apply create_all_err in E'. destruct E' as (_ & c & C1 & C2). specialize (HL c C1). lia.
  - destruct (empt (k_d k)) eqn:EE; [eexists; reflexivity|]. unfold sb_new, refill. cbn [eof size off pos file buf Nat.sub Nat.leb firstn skipn app List.length Nat.add].
    rewrite Nat.sub_0_r, firstn_nil, skipn_nil. cbn [List.length Nat.add app]. rewrite (proj2 (Nat.ltb_lt 0 B) HB).
    cbn [pbind Nat.mul Nat.add skipWhitespace eof size off pos Nat.sub Nat.leb negb andb proof_loop]. eexists. reflexivity.
Qed.

(** ** The first clause *)
Lemma taut_zlit c : (forall z, In z c -> z <> 0%Z) -> tautology (map DimacsSpec.zlit c) <-> exists z, In z c /\ In (- z)%Z c.
Proof.
  intros H. split.
  - intros (l & L1 & L2). apply in_map_iff in L1. destruct L1 as (z & <- & Hz). apply in_map_iff in L2. destruct L2 as (y & E & Hy). exists z. split; [exact Hz|].
    rewrite <- zlit_neg in E by (apply H; exact Hz). assert (N := H z Hz). apply zlit_inj in E; [subst; exact Hy|apply H; exact Hy|lia].
  - intros (z & Z1 & Z2). exists (DimacsSpec.zlit z). split; [apply in_map; exact Z1|]. rewrite <- zlit_neg by (apply H; exact Z1). apply in_map. exact Z2.
Qed.
Lemma read_more cs : forall p, exists us, problem (readClauses p cs) = problem p ++ us.
Proof.
  induction cs as [|c cs IH]; intros p; [exists []; symmetry; apply app_nil_r|]. change (readClauses p (c :: cs)) with (readClauses (readClause p c) cs).
  destruct (IH (readClause p c)) as (us & E). rewrite E. destruct (readClause_spec p c) as ([(_ & ->)|(_ & u & -> & _)] & _); [eauto|]. rewrite <- app_assoc. eauto.
Qed.
Definition first_of (cs : list (list Z)) (p : cnf) : Prop :=
  problem (readClauses p (clauses cs)) = [] \/ exists c, first_clause cs c /\ same_literals (map DimacsSpec.zlit c) (hd [] (problem (readClauses p (clauses cs)))).
Lemma first_exists cs : (forall c z, In c cs -> In z c -> z <> 0%Z) -> forall p, problem p = [] -> first_of cs p.
Proof.
  induction cs as [|c cs IH]; intros H p EP; [left; exact EP|]. unfold first_of, clauses. cbn [map].
  change (readClauses p (map DimacsSpec.zlit c :: map (map DimacsSpec.zlit) cs)) with (readClauses (readClause p (map DimacsSpec.zlit c)) (map (map DimacsSpec.zlit) cs)).
  assert (HZ : forall z, In z c -> z <> 0%Z) by (intros z; apply H; cbn; auto).
  destruct (readClause_spec p (map DimacsSpec.zlit c)) as ([(HT & ER)|(HT & u & ER & HU & HS)] & _).
  - destruct (IH (fun c' z H' => H c' z (or_intror H')) (readClause p (map DimacsSpec.zlit c))) as [K|(d & (pre & post & F1 & F2 & F3) & K)]; [congruence|left; exact K|right].
    exists d. split; [|exact K]. exists (c :: pre), post. split; [rewrite F1; reflexivity|]. split; [|exact F3]. intros x [<-|Hx]; [|exact (F2 x Hx)]. apply taut_zlit; assumption.
  - right. destruct (read_more (map (map DimacsSpec.zlit) cs) (readClause p (map DimacsSpec.zlit c))) as (us & E). exists c. split.
    + exists [], cs. split; [reflexivity|]. split; [intros d []|]. intros K. apply HT. apply taut_zlit; assumption.
    + rewrite E, ER, EP. exact HU.
Qed.
Lemma first_unique cs c d : first_clause cs c -> first_clause cs d -> c = d.
Proof.
  intros (p1 & q1 & E1 & F1 & G1) (p2 & q2 & E2 & F2 & G2). rewrite E1 in E2. clear E1. revert p2 E2 F2. induction p1 as [|x p1 IH]; intros [|y p2] E2 F2; cbn in E2; injection E2 as EX E2.
  - exact EX.
  - subst y. destruct G1. apply F2. cbn. auto.
  - subst x. destruct G2. apply F1. cbn. auto.
  - apply (IH (fun d' H' => F1 d' (or_intror H')) p2 E2). intros d' H'. apply F2. cbn. auto.
Qed.
Lemma solution_loaded cs a : nonzero cs -> problem (loaded cs) <> [] ->
  solution cs a <-> sat a (problem (loaded cs)) /\ forall l, In l (hd [] (problem (loaded cs))) -> lit_holds a l.
Proof.
  intros HZ HP. destruct (first_exists cs (fun c z H1 H2 => proj1 (HZ c z H1 H2)) cnf_empty eq_refl) as [K|(c & C1 & C2)]; [contradiction|]. fold (loaded cs) in C2.
  unfold solution. rewrite loaded_sat. split; intros (A1 & A2); split; auto.
  - intros l Hl. apply C2 in Hl. apply in_map_iff in Hl. destruct Hl as (z & <- & Hz). exact (A2 c z C1 Hz).
  - intros d z Hd Hz. rewrite (first_unique cs d c Hd C1) in Hz. apply A2. apply C2. apply in_map. exact Hz.
Qed.

(** ** The program *)
Lemma fuzz_called_nz B w args cs : fuzz_called B w args cs -> nonzero cs /\ 0 < B.
Proof. intros (f & rest & text & _ & _ & _ & HB & _ & ml & D & _). split; [exact (dimacs_nz ml text cs D)|exact HB]. Qed.
Definition skips (p : cnf) : bool := ((100 <? variables p) || (List.length (problem p) =? 0))%nat.
Lemma fuzz_called_main B w args cs : fuzz_called B w args cs -> fuzz_main B w args =
  if skips (loaded cs) then Exits 0 [] else
  match ipasir_solve fuzz_cfg (w_oracle w) (w_fuel w) (fuzz_load (loaded cs)) with Err UB => Crashes | Err _ => Silent | Ok (r, s) => fuzz_answer B w (loaded cs) r s end.
Proof.
  intros (f & rest & text & -> & HF & HT & HB & HJ & ml & D1 & D2 & D3). unfold fuzz_main, fuzz_file. replace (f =? cert_name)%string with false by (symmetry; apply String.eqb_neq; exact HF).
  cbn [andb]. rewrite HT. rewrite (readDimacs_ok B ml (w_junk w 0) text cs cnf_empty HB HJ D2 D3 D1). reflexivity.
Qed.
Lemma c2i_holds (a : assignment) l : IpasirSpec.zlit (fun z => a (Z.to_nat (z - 1))) (c2i l) <-> lit_holds a l.
Proof.
  unfold IpasirSpec.zlit, c2i, lit_holds, lit_val. destruct (lsign l).
  - replace (0 <? (Z.of_nat (lvar l) + 1) * -1)%Z with false by (symmetry; apply Z.ltb_ge; lia). replace (Z.to_nat (- ((Z.of_nat (lvar l) + 1) * -1) - 1)) with (lvar l) by lia.
    destruct (a (lvar l)); cbn; split; congruence.
  - replace (0 <? (Z.of_nat (lvar l) + 1) * 1)%Z with true by (symmetry; apply Z.ltb_lt; lia). replace (Z.to_nat ((Z.of_nat (lvar l) + 1) * 1 - 1)) with (lvar l) by lia.
    destruct (a (lvar l)); cbn; split; congruence.
Qed.
Lemma fuzz_unsat p O fuel s : ipasir_solve fuzz_cfg O fuel (fuzz_load p) = Ok (20%Z, s) -> forall a, sat a (problem p) -> ~ forall l, In l (hd [] (problem p)) -> lit_holds a l.
Proof.
  intros E a Ha Hl. assert (U := ip_unsat_all fuzz_cfg (fuzz_calls p) (fuzz_load p) O fuel 20%Z s (fuzz_reach p) (fuzz_solvable p) E eq_refl).
  rewrite clauses_fuzz, assumptions_fuzz in U. apply (U (fun z => a (Z.to_nat (z - 1)))). split.
  - intros c Hc. apply in_map_iff in Hc. destruct Hc as (d & <- & Hd). destruct (Ha d Hd) as (l & L1 & L2). exists (c2i l). split; [apply in_map; exact L1|]. apply c2i_holds. exact L2.
  - intros z Hz. apply in_map_iff in Hz. destruct Hz as (l & <- & Hl'). apply c2i_holds. apply Hl. exact Hl'.
Qed.

(** how the program ends with an exit code *)
Inductive fuzz_end (B : nat) (w : world) (cs : list (list Z)) : Z -> list (list nat) -> Prop :=
| fe_none : fuzz_end B w cs 0 []
| fe_model a : solution cs a -> fuzz_end B w cs 0 [model_verified]
| fe_proof q text b : (forall a, ~ solution cs a) -> fuzz_file w cert_name = Some text -> Forall (clause_ok (variables q)) (problem q) ->
    (In [] (problem q) <-> In [] cs) -> check_proof_file B (w_junk w 1) text (variables q) (problem q) = POk (Ok b) ->
    fuzz_end B w cs (if b then 0 else 1) [if b then proof_verified else proof_refused].
Lemma in_empty cs : In [] (problem (loaded cs)) <-> In [] cs.
Proof.
  split.
  - intros H. destruct (readClauses_shape (clauses cs) [] H) as (_ & _ & d & D1 & D2). apply in_map_iff in D1. destruct D1 as (c & <- & Hc). destruct c as [|z c]; [exact Hc|].
    destruct (proj2 (D2 (DimacsSpec.zlit z))); cbn; auto.
  - intros H. destruct (readClauses_stored (clauses cs) []) as (u & U1 & U2); [apply (in_map (map DimacsSpec.zlit) cs [] H)|intros (l & [] & _)|].
    destruct u as [|x u]; [exact U1|]. destruct (proj2 (U2 x)); cbn; auto.
Qed.
Lemma fuzz_ends B w args cs code lines : fuzz_called B w args cs -> fuzz_main B w args = Exits code lines -> fuzz_end B w cs code lines.
Proof.
  intros HC E. destruct (fuzz_called_nz B w args cs HC) as (HZ & HB). rewrite (fuzz_called_main B w args cs HC) in E. destruct (skips (loaded cs)) eqn:ES; [injection E as <- <-; constructor|].
  assert (HP : problem (loaded cs) <> []) by (intros K; unfold skips in ES; rewrite K in ES; cbn in ES; rewrite orb_true_r in ES; discriminate).
  destruct (ipasir_solve _ _ _ _) as [(r & s)|e] eqn:EI; [|destruct e; discriminate]. unfold fuzz_answer in E. destruct (Z.eqb_spec r 10) as [->|N1].
  - destruct (fuzz_val (loaded cs) (loaded_ok cs) _ _ _ EI) as (M1 & M2).
    assert (EC : checkResult (problem (loaded cs)) (fuzz_model (variables (loaded cs)) s) = Some true) by (apply checkResult_true; intros c Hc; destruct (M1 c Hc) as (l & L1 & L2 & _); eauto).
    rewrite EC in E. injection E as <- <-. apply (fe_model B w cs (fuzz_asg s)). apply (solution_loaded cs _ HZ HP). split; [|exact M2].
    intros c Hc. destruct (M1 c Hc) as (l & L1 & _ & L3). exists l. auto.
  - destruct (Z.eqb_spec r 20) as [->|N2]; [|injection E as <- <-; constructor].
    destruct (fuzz_failed _ _ _) as [q|e] eqn:EF; [|destruct e; discriminate]. destruct (fuzz_file w cert_name) as [text|] eqn:ET; [|discriminate].
    destruct (failed_problem _ _ _ _ EF (loaded_ok cs)) as (Q1 & Q2 & Q3 & Q4 & Q5). rewrite in_empty in Q2.
    assert (HU : forall a, ~ solution cs a) by (intros a Ha; apply (solution_loaded cs a HZ HP) in Ha; destruct Ha as (A1 & A2); exact (fuzz_unsat _ _ _ _ EI a A1 A2)).
    destruct (check_proof_file _ _ _ _ _) as [[b|e]| | |] eqn:EK; try discriminate; [|destruct e; discriminate].
    assert (X := fe_proof B w cs q text b HU ET Q1 Q2 EK). destruct b; injection E as <- <-; exact X.
Qed.

(** ** The claims *)
Ltac lines_of H := cbn [In] in H; destruct H as [H|H]; [try discriminate H|try contradiction].
Lemma fz_model B w args cs code lines : fuzz_called B w args cs -> fuzz_main B w args = Exits code lines -> In model_verified lines -> code = 0%Z /\ exists a, solution cs a.
Proof.
  intros HC E H. destruct (fuzz_ends B w args cs code lines HC E) as [|a Ha|q text b Hu _ _ _ _]; [destruct H|eauto|]. destruct H as [H|[]]. destruct b; discriminate H.
Qed.
Lemma fz_proof B w args cs code lines : fuzz_called B w args cs -> fuzz_main B w args = Exits code lines -> In proof_verified lines -> code = 0%Z /\ forall a, ~ solution cs a.
Proof.
  intros HC E H. destruct (fuzz_ends B w args cs code lines HC E) as [|a Ha|q text b Hu _ _ _ _]; [destruct H|destruct H as [H|[]]; discriminate H|]. destruct H as [H|[]].
  destruct b; [split; auto|discriminate H].
Qed.
Lemma fz_solution B w args cs code lines : fuzz_called B w args cs -> (exists a, solution cs a) -> fuzz_main B w args = Exits code lines ->
  code = 0%Z /\ (lines = [] \/ lines = [model_verified]).
Proof. intros HC (x & Hx) E. destruct (fuzz_ends B w args cs code lines HC E) as [|a Ha|q text b Hu _ _ _ _]; auto. destruct (Hu x Hx). Qed.
Lemma fz_no_solution B w args cs code lines : fuzz_called B w args cs -> w_writable w "cert.drat" = true -> (forall a, ~ solution cs a) -> fuzz_main B w args = Exits code lines ->
  lines = [] \/ In [] cs /\ code = 0%Z /\ lines = [proof_verified] \/ ~ In [] cs /\ code = 1%Z /\ lines = [proof_refused].
Proof.
  intros HC HW HU E. destruct (fuzz_called_nz B w args cs HC) as (_ & HB). destruct (fuzz_ends B w args cs code lines HC E) as [|a Ha|q text b Hu ET Q1 Q2 EK]; [auto|destruct (HU a Ha)|right].
  unfold fuzz_file in ET. change (cert_name =? cert_name)%string with true in ET. change cert_name with "cert.drat"%string in ET. rewrite HW in ET. cbn [andb] in ET. injection ET as <-.
  assert (X := empty_proof B (w_junk w 1) (variables q) (problem q) b HB EK). rewrite Q2 in X. destruct b; [left|right]; (split; [|auto]); [apply X; reflexivity|].
  intros K. apply X in K. discriminate.
Qed.
Lemma fz_false_alarm B w args cs code lines : fuzz_called B w args cs -> fuzz_main B w args = Exits code lines ->
  ~ In model_refused lines /\ (In proof_refused lines -> code = 1%Z /\ forall a, ~ solution cs a).
Proof.
  intros HC E. destruct (fuzz_ends B w args cs code lines HC E) as [|a Ha|q text b Hu ET Q1 Q2 EK].
  - split; intros [].
  - split; [intros [H|[]]; discriminate H|intros [H|[]]; discriminate H].
  - split; [intros [H|[]]; destruct b; discriminate H|]. intros [H|[]]. destruct b; [discriminate H|auto].
Qed.
Lemma fz_skip B w args cs n : fuzz_called B w args cs -> last_variable cs n -> 100 < n \/ (forall c, In c cs -> exists z, In z c /\ In (- z)%Z c) -> fuzz_main B w args = Exits 0 [].
Proof.
  intros HC HL H. destruct (fuzz_called_nz B w args cs HC) as (HZ & HB). rewrite (fuzz_called_main B w args cs HC). replace (skips (loaded cs)) with true; [reflexivity|]. symmetry.
  unfold skips. apply orb_true_iff. destruct H as [H|H].
  - left. apply Nat.ltb_lt. assert (L := loaded_last cs HZ). destruct HL as (A1 & A2), L as (B1 & B2). destruct A2 as [->|(c & z & C1 & C2 & C3)]; [lia|]. assert (B3 := B1 c z C1 C2). lia.
  - right. apply Nat.eqb_eq. destruct (problem (loaded cs)) as [|u us] eqn:EP; [reflexivity|]. exfalso. assert (HU : In u (problem (loaded cs))) by (rewrite EP; cbn; auto).
    destruct (readClauses_shape (clauses cs) u HU) as (_ & HT & d & D1 & D2). apply in_map_iff in D1. destruct D1 as (c & <- & Hc). apply HT.
    destruct (proj2 (taut_zlit c (fun z Hz => proj1 (HZ c z Hc Hz))) (H c Hc)) as (l & L1 & L2). exists l. split; apply D2; assumption.
Qed.
Lemma clause_short n c : clause_ok n c -> List.length c <= n.
Proof.
  intros (H1 & H2). rewrite <- (map_length lvar c). rewrite <- (seq_length n 0). apply NoDup_incl_length; [exact H1|]. intros v Hv. apply in_map_iff in Hv. destruct Hv as (l & <- & Hl).
  apply in_seq. specialize (H2 l Hl). lia.
Qed.
Lemma fz_no_exception B w args cs : fuzz_called B w args cs -> w_writable w "cert.drat" = true -> fuzz_main B w args <> Throws.
Proof.
  intros HC HW E. destruct (fuzz_called_nz B w args cs HC) as (HZ & HB). rewrite (fuzz_called_main B w args cs HC) in E. destruct (skips (loaded cs)) eqn:ES; [discriminate|].
  assert (HV : variables (loaded cs) <= 100) by (unfold skips in ES; apply orb_false_iff in ES; destruct ES as (ES & _); apply Nat.ltb_ge in ES; exact ES).
  destruct (ipasir_solve _ _ _ _) as [(r & s)|e] eqn:EI; [|destruct e; discriminate]. unfold fuzz_answer in E. destruct (r =? 10)%Z.
  { destruct (checkResult _ _) as [[|]|]; discriminate. }
  destruct (r =? 20)%Z; [|discriminate]. destruct (fuzz_failed _ _ _) as [q|e] eqn:EF; [|destruct e; discriminate].
  unfold fuzz_file in E. change (cert_name =? cert_name)%string with true in E. change cert_name with "cert.drat"%string in E. rewrite HW in E. cbn [andb] in E.
  destruct (failed_problem _ _ _ _ EF (loaded_ok cs)) as (Q1 & Q2 & Q3 & Q4 & Q5).
  destruct (empty_proof_answers B (w_junk w 1) (variables q) (problem q) HB) as (b & Eb).
  - intros c l Hc. rewrite Forall_forall in Q1. apply (Q1 c Hc).
  - intros c Hc. destruct (Q5 c Hc) as [K|K]; [|lia]. assert (HO := loaded_ok cs). rewrite Forall_forall in HO. assert (L := clause_short _ c (HO c K)). lia.
  - rewrite Eb in E. destruct b; discriminate.
Qed.
