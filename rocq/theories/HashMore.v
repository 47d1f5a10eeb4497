(** The hashed texts. *)
Require Import List Arith Bool NArith ZArith Lia Sorted Permutation ZifyBool ZifyNat ZifyN.
Require Import Verif.Base Verif.Outcome Verif.DimacsModel Verif.DimacsSpec Verif.DimacsMore Verif.CNFModel Verif.CNFSpec Verif.CNFProofs.
Require Import Verif.HashModel Verif.HashSpec Verif.HashProofs.
Import ListNotations.

(** ** decimal numbers *)
Lemma dec_digits : forall n, dec n <> [] /\ Forall digit (dec n) /\ decimal (dec n) = Z.of_N n /\ ((n < 10 ^ 10)%N -> length (dec n) <= 10).
Proof.
  intros n; destruct (dec_from_ok (S (N.to_nat (N.log2 n))) n []) as (ds & E & H1 & H2 & H3 & H4); [|lia|].
  - rewrite Nat2N.inj_succ, N2Nat.id; destruct n as [|q]; [reflexivity|]; destruct (N.log2_spec (N.pos q) ltac:(lia)) as (_ & H).
    eapply N.lt_le_trans; [apply H|]; apply N.pow_le_mono_l; lia.
  - unfold dec; rewrite E, app_nil_r; repeat split; auto; intros L; apply H4; [lia|exact L].
Qed.
Lemma dec_inj : forall a b, dec a = dec b -> a = b.
Proof.
  intros a b E; destruct (dec_digits a) as (_ & _ & A & _), (dec_digits b) as (_ & _ & B & _); rewrite E, B in A; lia.
Qed.
Definition token (x : list nat) : Prop := x <> [] /\ ~ In 32 x.
Lemma dec_token : forall n, token (dec n).
Proof.
  intros n; destruct (dec_digits n) as (A & B & _); split; [exact A|]; intros I; rewrite Forall_forall in B; specialize (B _ I); unfold digit in B; lia.
Qed.
Lemma zero_token : token [48].
Proof. split; [discriminate|]; intros [H|[]]; discriminate. Qed.

(** ** joined tokens *)
Lemma join_cons : forall x r, r <> [] -> join (x :: r) = x ++ 32 :: join r.
Proof. intros x [|y r] H; [congruence|reflexivity]. Qed.
Lemma join_app : forall a b, a <> [] -> b <> [] -> join (a ++ b) = join a ++ 32 :: join b.
Proof.
  induction a as [|x a IH]; intros b A B; [congruence|]; destruct a as [|y a].
  - cbn [app]; rewrite join_cons by exact B; reflexivity.
  - change ((x :: y :: a) ++ b) with (x :: ((y :: a) ++ b)); rewrite !join_cons by discriminate.
    rewrite IH by (discriminate || exact B); rewrite <- app_assoc; reflexivity.
Qed.
Lemma split_unique : forall (x y : list nat) a b, ~ In 32 x -> ~ In 32 y -> x ++ 32 :: a = y ++ 32 :: b -> x = y /\ a = b.
Proof.
  induction x as [|c x IH]; intros [|d y] a b X Y E; simpl in *.
  - injection E as E; auto.
  - injection E as E1 E2; exfalso; apply Y; left; congruence.
  - injection E as E1 E2; exfalso; apply X; left; congruence.
  - injection E as E1 E2; destruct (IH y a b) as [A B]; auto; subst; auto.
Qed.
Lemma join_nonempty : forall a, Forall token a -> a <> [] -> join a <> [].
Proof. intros [|x [|y a]] F H; [congruence| |]; inversion F as [|? ? [T _] _]; subst; [exact T|]; simpl; destruct x; [congruence|discriminate]. Qed.
Lemma join_inj : forall a b, Forall token a -> Forall token b -> join a = join b -> a = b.
Proof.
  induction a as [|x a IH]; intros b A B E.
  - destruct b as [|y b]; [reflexivity|]; exfalso; apply (join_nonempty (y :: b) B); [discriminate|symmetry; exact E].
  - destruct b as [|y b]; [exfalso; apply (join_nonempty (x :: a) A); [discriminate|exact E]|].
    inversion A as [|? ? [X1 X2] A']; inversion B as [|? ? [Y1 Y2] B']; subst.
    destruct a as [|x' a], b as [|y' b].
    + simpl in E; subst; reflexivity.
    + rewrite (join_cons y) in E by discriminate; simpl in E; exfalso; apply X2; rewrite E; apply in_or_app; right; left; reflexivity.
    + rewrite (join_cons x) in E by discriminate; simpl join in E at 2; exfalso; apply Y2; rewrite <- E; apply in_or_app; right; left; reflexivity.
    + rewrite !join_cons in E by discriminate; apply split_unique in E; [|exact X2|exact Y2]; destruct E as [E1 E2].
      rewrite (IH (y' :: b)); subst; auto.
Qed.

(** ** gbd_hash *)
Fixpoint chunks (s : list nat) (cs : list clause) : list (list nat) :=
  match cs with [] => [] | c :: r => ((s ++ concat (map lit_text c)) ++ [48]) :: chunks [32] r end.

Lemma gbd_chunks : forall cs s st, gbd_loop cs s st = process_all (chunks s cs) st.
Proof. induction cs as [|c cs IH]; intros s st; simpl; [reflexivity|]; destruct (process _ st); cbn [bind]; auto. Qed.

Definition clause_tokens (c : clause) : list (list nat) := map (fun l => dec (N.of_nat l)) c ++ [[48]].
Lemma clause_text : forall c, concat (map lit_text c) ++ [48] = join (clause_tokens c).
Proof.
  unfold clause_tokens; induction c as [|l c IH]; [reflexivity|]; cbn [map app concat].
  rewrite join_cons by (destruct c; discriminate); rewrite <- IH; unfold lit_text; rewrite <- !app_assoc; reflexivity.
Qed.
Lemma clause_tokens_nil : forall c, clause_tokens c <> [].
Proof. intros c; unfold clause_tokens; destruct c; discriminate. Qed.
Lemma tokens_cons : forall c F, tokens (c :: F) = clause_tokens c ++ tokens F.
Proof. reflexivity. Qed.

Lemma chunks_text : forall cs, concat (chunks [32] cs) = match cs with [] => [] | _ => 32 :: problem_text cs end.
Proof.
  induction cs as [|c cs IH]; [reflexivity|]; cbn [chunks concat]; rewrite IH, <- (app_assoc [32]), clause_text.
  unfold problem_text; rewrite tokens_cons; destruct cs as [|d cs].
  - simpl tokens; rewrite !app_nil_r; reflexivity.
  - rewrite join_app; [rewrite tokens_cons; reflexivity|apply clause_tokens_nil|rewrite tokens_cons; intros E; apply app_eq_nil in E; apply (clause_tokens_nil d); tauto].
Qed.
Lemma chunks_all : forall cs, concat (chunks [] cs) = problem_text cs.
Proof.
  intros [|c cs]; [reflexivity|]; cbn [chunks concat app]; rewrite chunks_text, clause_text; unfold problem_text; rewrite tokens_cons.
  destruct cs as [|d cs].
  - simpl tokens; rewrite !app_nil_r; reflexivity.
  - rewrite join_app; [reflexivity|apply clause_tokens_nil|rewrite tokens_cons; intros E; apply app_eq_nil in E; apply (clause_tokens_nil d); tauto].
Qed.
Lemma problem_text_one : forall c, problem_text [c] = join (clause_tokens c).
Proof. intros c; unfold problem_text; rewrite tokens_cons; simpl tokens; rewrite app_nil_r; reflexivity. Qed.

Lemma chunks_ok : forall cs s, length s <= 1 -> (forall c, In c cs -> (N.of_nat (length (problem_text [c])) < 4294967000)%N) -> Forall chunk_ok (chunks s cs).
Proof.
  induction cs as [|c cs IH]; intros s L H; cbn [chunks]; constructor.
  - split; [intros E; apply app_eq_nil in E; destruct E; discriminate|].
    rewrite <- app_assoc, clause_text, <- problem_text_one, app_length; pose proof (H c (or_introl eq_refl)); lia.
  - apply IH; [simpl; lia|]; intros d I; apply H; right; exact I.
Qed.

Lemma gbd_hash_text : forall p, (forall c, In c (problem p) -> (N.of_nat (length (problem_text [c])) < 4294967000)%N) ->
  gbd_hash p = Ok (hex (MD5 (problem_text (problem p)))).
Proof.
  intros p H; unfold gbd_hash; rewrite gbd_chunks.
  destruct (process_all_ok (chunks [] (problem p)) [] initialise holds_new) as (st & A & B); [apply chunks_ok; [simpl; lia|exact H]|].
  rewrite A; cbn [bind app] in *; rewrite chunks_all in B; exact (digest_ok _ _ B).
Qed.

Lemma process_chunks : forall cs, Forall (fun c => c <> [] /\ (N.of_nat (length c) < 4294967168)%N) cs ->
  exists st, process_all cs initialise = Ok st /\ digest_string st = Ok (hex (MD5 (concat cs))).
Proof.
  intros cs H; destruct (process_all_ok cs [] initialise holds_new H) as (st & A & B); exists st; split; [exact A|exact (digest_ok _ _ B)].
Qed.

(** ** the text determines the clauses *)
Definition flat (F : list clause) : list nat := flat_map (fun c => c ++ [0]) F.
Lemma tokens_flat : forall F, tokens F = map (fun l => dec (N.of_nat l)) (flat F).
Proof.
  induction F as [|c F IH]; [reflexivity|]; rewrite tokens_cons, IH; unfold flat, clause_tokens; cbn [flat_map]; rewrite !map_app; reflexivity.
Qed.
Lemma tokens_token : forall F, Forall token (tokens F).
Proof. intros F; rewrite tokens_flat; apply Forall_forall; intros x I; apply in_map_iff in I; destruct I as (l & <- & _); apply dec_token. Qed.

Lemma zero_split : forall (x y : list nat) a b, ~ In 0 x -> ~ In 0 y -> x ++ 0 :: a = y ++ 0 :: b -> x = y /\ a = b.
Proof.
  induction x as [|c x IH]; intros [|d y] a b X Y E; simpl in *.
  - injection E as E; auto.
  - injection E as E1 E2; exfalso; apply Y; left; congruence.
  - injection E as E1 E2; exfalso; apply X; left; congruence.
  - injection E as E1 E2; destruct (IH y a b) as [A B]; auto; subst; auto.
Qed.
Definition shaped (F : list clause) : Prop := forall c, In c F -> exists x r, c = x :: r /\ ~ In 0 r.
Lemma flat_inj : forall F G, shaped F -> shaped G -> flat F = flat G -> F = G.
Proof.
  induction F as [|c F IH]; intros G A B E.
  - destruct G as [|d G]; [reflexivity|]; destruct (B d (or_introl eq_refl)) as (x & r & -> & _); discriminate.
  - destruct (A c (or_introl eq_refl)) as (x & r & -> & N); destruct G as [|d G]; [discriminate|].
    destruct (B d (or_introl eq_refl)) as (y & s & -> & M); unfold flat in E; cbn [flat_map] in E; rewrite <- !app_assoc in E; cbn [app] in E.
    injection E as -> E; apply zero_split in E; [|exact N|exact M]; destruct E as [-> E]; f_equal; apply IH.
    + intros e I; apply A; right; exact I.
    + intros e I; apply B; right; exact I.
    + exact E.
Qed.
Lemma map_inj : forall (l m : list nat), map (fun l => dec (N.of_nat l)) l = map (fun l => dec (N.of_nat l)) m -> l = m.
Proof.
  induction l as [|x l IH]; intros [|y m] E; try discriminate; [reflexivity|]; cbn [map] in E; injection E as E1 E2.
  apply dec_inj in E1; f_equal; [lia|apply IH; exact E2].
Qed.
Lemma text_inj : forall F G, shaped F -> shaped G -> problem_text F = problem_text G -> F = G.
Proof.
  intros F G A B E; apply join_inj in E; [|apply tokens_token|apply tokens_token]; rewrite !tokens_flat in E.
  apply map_inj in E; apply flat_inj; assumption.
Qed.
Lemma read_shaped : forall cs, ~ In [] cs -> shaped (problem (readClauses cnf_empty cs)).
Proof.
  intros cs N c I; destruct (readClauses_shape cs c I) as (S & _ & d & D1 & D2); destruct c as [|x r].
  - exfalso; destruct d as [|y d]; [apply N; exact D1|]; apply (proj2 (D2 y)); left; reflexivity.
  - exists x, r; split; [reflexivity|]; intros Z; unfold strictly_sorted in S; inversion S as [|? ? S1 S2]; subst.
    rewrite Forall_forall in S2; specialize (S2 _ Z); lia.
Qed.
Lemma gbd_text_inj : forall cs ds, ~ In [] cs -> ~ In [] ds ->
  problem_text (problem (readClauses cnf_empty cs)) = problem_text (problem (readClauses cnf_empty ds)) ->
  problem (readClauses cnf_empty cs) = problem (readClauses cnf_empty ds).
Proof. intros cs ds A B; apply text_inj; apply read_shaped; assumption. Qed.
