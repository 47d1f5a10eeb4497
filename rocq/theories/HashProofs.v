(** The implementation of MD5 computes MD5, however the message is split. *)
Require Import List Arith Bool NArith ZArith Lia ZifyBool ZifyNat ZifyN.
Require Import Verif.Base Verif.Outcome Verif.DimacsModel Verif.CNFModel Verif.HashModel Verif.HashSpec.
Import ListNotations.
Ltac Zify.zify_post_hook ::= Z.to_euclidean_division_equations.

(** ** words *)
Lemma lor_add : forall a b s, (b < 2 ^ s)%N -> N.lor (a * 2 ^ s) b = (a * 2 ^ s + b)%N.
Proof.
  intros a b s L; assert (Z : N.land (a * 2 ^ s) b = 0%N).
  { apply N.bits_inj; intros n; rewrite N.land_spec, N.bits_0, <- N.shiftl_mul_pow2.
    destruct (N.lt_ge_cases n s) as [H|H].
    - rewrite N.shiftl_spec_low by exact H; reflexivity.
    - rewrite <- (N.mod_small b (2 ^ s) L), N.mod_pow2_bits_high by exact H; apply andb_false_r. }
  rewrite <- (N.lxor_lor _ _ Z), N.add_nocarry_lxor by exact Z; reflexivity.
Qed.

Lemma rotate_eq : forall x s, (x < 2 ^ 32)%N -> (s <= 32)%N -> cyclic_left_rotate x s = rotate x s.
Proof.
  intros x s H L; unfold cyclic_left_rotate, rotate, w32, word; change 4294967296%N with (2 ^ 32)%N.
  rewrite N.shiftl_mul_pow2, N.shiftr_div_pow2.
  assert (E : (2 ^ 32 = 2 ^ (32 - s) * 2 ^ s)%N) by (rewrite <- N.pow_add_r; f_equal; lia).
  assert (P : (2 ^ s <> 0)%N) by (apply N.pow_nonzero; discriminate).
  assert (P' : (2 ^ (32 - s) <> 0)%N) by (apply N.pow_nonzero; discriminate).
  rewrite E, N.mul_mod_distr_r by assumption; apply lor_add.
  apply N.div_lt_upper_bound; [exact P'|]; rewrite <- E; exact H.
Qed.

Lemma word_lt : forall x, (word x < 2 ^ 32)%N.
Proof. intros; apply N.mod_lt; discriminate. Qed.

Lemma add32_word : forall a b, add32 a b = word (a + b).
Proof. reflexivity. Qed.
Lemma word_add_l : forall a b, word (word a + b) = word (a + b).
Proof. intros; unfold word; apply N.add_mod_idemp_l; discriminate. Qed.
Lemma word_add_r : forall a b, word (a + word b) = word (a + b).
Proof. intros; unfold word; apply N.add_mod_idemp_r; discriminate. Qed.

Lemma op_eq : forall a b f x t s, (s <= 32)%N ->
  add32 (cyclic_left_rotate (add32 a (add32 (add32 f x) t)) s) b = word (b + rotate (word (a + f + x + t)) s).
Proof.
  intros a b f x t s L; rewrite !add32_word, word_add_l, word_add_r, !N.add_assoc, rotate_eq by (exact L || apply word_lt).
  f_equal; apply N.add_comm.
Qed.

(** ** one block *)
Definition op_model (X : nat -> N) (q : N * N * N * N) (i : nat) : N * N * N * N :=
  let '(a, b, c, d) := q in
  (d, match i / 16 with 0 => FF | 1 => GG | 2 => HH | _ => II end a b c d (X (word_of i)) (i mod 4) i, b, c).

Lemma op_model_eq : forall X q i, operation X q i = op_model X q i.
Proof.
  intros X [[[a b] c] d] i; unfold operation, op_model; f_equal; f_equal; f_equal.
  assert (M : i mod 4 < 4) by (apply Nat.mod_upper_bound; discriminate).
  assert (L : (shift_of i <= 32)%N).
  { unfold shift_of; destruct (i / 16) as [|[|[|r]]]; destruct (i mod 4) as [|[|[|[|m]]]]; cbn; lia. }
  rewrite <- op_eq by exact L; unfold shift_of.
  destruct (i / 16) as [|[|[|r]]]; reflexivity.
Qed.

Lemma fold_ext : forall {A B} (f g : A -> B -> A) l q, (forall q i, In i l -> f q i = g q i) -> fold_left f l q = fold_left g l q.
Proof.
  intros A B f g l; induction l as [|i l IH]; intros q H; simpl; [reflexivity|].
  rewrite H by (left; reflexivity); apply IH; intros; apply H; right; assumption.
Qed.

Opaque FF GG HH II.
Lemma round1_eq : forall X q, round1 X q = fold_left (op_model X) (seq 0 16) q.
Proof. intros X [[[a b] c] d]; reflexivity. Qed.
Lemma round2_eq : forall X q, round2 X q = fold_left (op_model X) (seq 16 16) q.
Proof. intros X [[[a b] c] d]; reflexivity. Qed.
Lemma round3_eq : forall X q, round3 X q = fold_left (op_model X) (seq 32 16) q.
Proof. intros X [[[a b] c] d]; reflexivity. Qed.
Lemma round4_eq : forall X q, round4 X q = fold_left (op_model X) (seq 48 16) q.
Proof. intros X [[[a b] c] d]; reflexivity. Qed.
Transparent FF GG HH II.

Lemma from_le_eq : forall b k, from_le b (4 * k) = block_word b k.
Proof.
  intros b k; unfold from_le, block_word, byte_at; generalize (4 * k); intros i.
  assert (N : forall j, nth (i + j) b 0 = nth j (skipn i b) 0).
  { clear; revert i; induction b as [|x b IH]; intros [|i] j; simpl; auto; destruct j; reflexivity. }
  rewrite <- (Nat.add_0_r i) at 1; rewrite !N.
  destruct (skipn i b) as [|x0 [|x1 [|x2 [|x3 r]]]]; cbn -[N.add N.mul N.of_nat]; lia.
Qed.

Definition same_rest (st st' : md5_t) : Prop := stored st' = stored st /\ finished st' = finished st.

Lemma process_block_regs : forall b st, regs (process_block b st) = compress (regs st) b.
Proof.
  intros b st; unfold process_block, compress, add_length; cbn [regs].
  rewrite round1_eq, round2_eq, round3_eq, round4_eq, <- !fold_left_app.
  change ((((seq 0 16 ++ seq 16 16) ++ seq 32 16) ++ seq 48 16)) with (seq 0 64).
  rewrite (fold_ext (operation (block_word b)) (op_model (fun i => from_le b (4 * i))) (seq 0 64) (regs st)).
  - destruct (fold_left _ _ _) as [[[a b0] c] d], (regs st) as [[[aa bb] cc] dd]; reflexivity.
  - intros q i _; rewrite op_model_eq; unfold op_model; destruct q as [[[a b0] c] d]; rewrite from_le_eq; reflexivity.
Qed.

(** ** the length *)
Definition counts (n : N) (st : md5_t) : Prop :=
  len0 st = (n mod 4294967296)%N /\ len1 st = ((n / 4294967296) mod 4294967296)%N.

Lemma add_length_counts : forall n k st, (k < 4294967296)%N -> counts n st -> counts (n + k) (add_length k st).
Proof.
  intros n k st K [A B]; unfold counts, add_length, add32, w32; cbn [len0 len1]; rewrite A, B; split.
  - apply N.add_mod_idemp_l; discriminate.
  - destruct (N.ltb_spec ((n mod 4294967296 + k) mod 4294967296) (n mod 4294967296)) as [L|L].
    + rewrite N.add_mod_idemp_l by discriminate; f_equal; lia.
    + f_equal; lia.
Qed.

Lemma process_block_len : forall n b st, counts n st -> counts (n + 64) (process_block b st).
Proof.
  intros n b st H; apply (add_length_counts n 64) in H; [|lia]; unfold process_block.
  destruct (regs (add_length 64 st)) as [[[a1 b1] c1] d1]; destruct (round4 _ _) as [[[a2 b2] c2] d2]; exact H.
Qed.
Lemma process_block_rest : forall b st, same_rest st (process_block b st).
Proof.
  intros b st; unfold process_block; destruct (regs (add_length 64 st)) as [[[a1 b1] c1] d1]; destruct (round4 _ _) as [[[a2 b2] c2] d2].
  split; reflexivity.
Qed.

(** ** blocks of the message *)
Definition init : N * N * N * N := (0x67452301, 0xefcdab89, 0x98badcfe, 0x10325476)%N.
Definition absorbed (m : list nat) (k : nat) : N * N * N * N := fold_left compress (blocks m k) init.

Lemma absorbed_S : forall m k, absorbed m (S k) = compress (absorbed m k) (firstn 64 (skipn (64 * k) m)).
Proof. intros; unfold absorbed, blocks; rewrite seq_S, map_app, fold_left_app; reflexivity. Qed.

Lemma absorbed_app : forall m x k, 64 * k <= length m -> absorbed (m ++ x) k = absorbed m k.
Proof.
  intros m x k; induction k as [|k IH]; intros H; [reflexivity|]; rewrite !absorbed_S, IH by lia; f_equal.
  rewrite skipn_app, firstn_app.
  replace (64 - length (skipn (64 * k) m)) with 0 by (rewrite skipn_length; lia); simpl firstn; apply app_nil_r.
Qed.

(** state after [k] blocks of [m] *)
Record at_block (m : list nat) (k : nat) (st : md5_t) : Prop := {
  ab_run : finished st = false;
  ab_regs : regs st = absorbed m k;
  ab_len : counts (64 * N.of_nat k) st;
  ab_in : 64 * k <= length m }.

Lemma at_block_next : forall m k st b, at_block m k st -> 64 * S k <= length m -> b = firstn 64 (skipn (64 * k) m) ->
  at_block m (S k) (process_block b st).
Proof.
  intros m k st b [A B C D] L ->; constructor.
  - rewrite (proj2 (process_block_rest _ st)); exact A.
  - rewrite process_block_regs, absorbed_S, B; reflexivity.
  - apply process_block_len with (b := firstn 64 (skipn (64 * k) m)) in C.
    replace (64 * N.of_nat (S k))%N with (64 * N.of_nat k + 64)%N by lia; exact C.
  - exact L.
Qed.

Lemma at_block_app : forall m x k st, at_block m k st -> at_block (m ++ x) k st.
Proof. intros m x k st [A B C D]; constructor; auto; [rewrite absorbed_app; auto|rewrite app_length; lia]. Qed.

Lemma at_block_stored : forall m k st s, at_block m k st -> at_block m k (set_stored s st).
Proof. intros m k st s [A B C D]; constructor; auto. Qed.

(** state between calls *)
Definition holds (m : list nat) (st : md5_t) : Prop :=
  exists k, at_block m k st /\ stored st = skipn (64 * k) m /\ length m < 64 * S k.

Lemma holds_new : holds [] initialise.
Proof. exists 0; split; [|split]; [|reflexivity|simpl; lia]; constructor; [reflexivity|reflexivity|split; reflexivity|simpl; lia]. Qed.

Lemma loop_ok : forall m x f p k st, at_block (m ++ x) k st -> length m + p = 64 * k -> p <= length x -> length x - p <= f ->
  exists p' k' st', process_loop f x p st = Ok (p', st') /\ at_block (m ++ x) k' st' /\ length m + p' = 64 * k' /\
    p' <= length x < p' + 64 /\ stored st' = stored st.
Proof.
  intros m x f; induction f as [|f IH]; intros p k st A E L F; cbn [process_loop].
  - destruct (Nat.leb_spec (p + BLOCK_SIZE) (length x)) as [H|H]; unfold BLOCK_SIZE in H; [lia|].
    exists p, k, st; repeat split; try apply A; auto; lia.
  - destruct (Nat.leb_spec (p + BLOCK_SIZE) (length x)) as [H|H]; unfold BLOCK_SIZE in *; [|exists p, k, st; repeat split; try apply A; auto; lia].
    destruct (IH (p + 64) (S k) (process_block (firstn 64 (skipn p x)) st)) as (p' & k' & st' & B1 & B2 & B3 & B4 & B5).
    + apply at_block_next; [exact A|rewrite app_length; lia|].
      rewrite <- E, skipn_app, (skipn_all2 m) by lia; cbn [app]; replace (length m + p - length m) with p by lia; reflexivity.
    + lia.
    + lia.
    + lia.
    + exists p', k', st'; repeat split; try apply B2; auto; try lia.
      rewrite B5; apply (proj1 (process_block_rest _ _)).
Qed.

Lemma process_ok : forall m x st, holds m st -> x <> [] -> (N.of_nat (length x) < 4294967168)%N ->
  exists st', process x st = Ok st' /\ holds (m ++ x) st'.
Proof.
  intros m x st (k & A & B & C) X L; unfold process; rewrite (ab_run _ _ _ A).
  destruct (N.leb_spec 4294967168 (N.of_nat (length x))) as [K|_]; [lia|].
  pose proof (ab_in _ _ _ A) as Hk.
  assert (Sn : length (stored st) = length m - 64 * k) by (rewrite B; apply skipn_length).
  assert (Xn : 0 < length x) by (destruct x; [congruence|simpl; lia]).
  destruct (negb (length (stored st) =? 0) && (BLOCK_SIZE <=? length x + length (stored st))) eqn:Q; unfold BLOCK_SIZE in *.
  - apply andb_prop in Q; destruct Q as [Q1 Q2]; apply Nat.leb_le in Q2; apply negb_true_iff, Nat.eqb_neq in Q1.
    destruct (loop_ok m x (length x) (64 - length (stored st)) (S k)
      (process_block (stored st ++ firstn (64 - length (stored st)) x) (set_stored [] st))) as (p' & k' & st' & B1 & B2 & B3 & B4 & B5).
    + apply at_block_next; [apply at_block_stored, at_block_app; exact A|rewrite app_length; lia|].
      rewrite skipn_app, <- B, firstn_app, (firstn_all2 (stored st)) by lia.
      replace (64 * k - length m) with 0 by lia; reflexivity.
    + lia.
    + lia.
    + lia.
    + rewrite B1; cbn [bind]; rewrite (proj1 (process_block_rest _ _)) in B5; cbn [stored set_stored] in B5.
      destruct (Nat.eqb_spec p' (length x)) as [E|E]; cbn [negb].
      * eexists; split; [reflexivity|]; exists k'; split; [apply at_block_stored; exact B2|]; cbn [stored set_stored]; rewrite app_length.
        split; [rewrite skipn_all2; [reflexivity|rewrite app_length; lia]|lia].
      * rewrite B5; simpl length at 1; destruct (Nat.leb_spec (0 + (length x - p')) (2 * 64)) as [W|W]; [|lia].
        eexists; split; [reflexivity|]; exists k'; split; [apply at_block_stored; exact B2|]; cbn [stored set_stored]; rewrite app_length.
        split; [|lia]; rewrite skipn_app, (skipn_all2 m) by lia; simpl; f_equal; lia.
  - destruct (Nat.eq_dec (length (stored st)) 0) as [Z|Z].
    + assert (S0 : stored st = []) by (destruct (stored st); [reflexivity|discriminate]).
      destruct (loop_ok m x (length x) 0 k st) as (p' & k' & st' & B1 & B2 & B3 & B4 & B5);
        [apply at_block_app; exact A|lia|lia|lia|].
      rewrite B1; cbn [bind]; rewrite S0 in B5.
      destruct (Nat.eqb_spec p' (length x)) as [E|E]; cbn [negb].
      * eexists; split; [reflexivity|]; exists k'; split; [apply at_block_stored; exact B2|]; cbn [stored set_stored]; rewrite app_length.
        split; [rewrite skipn_all2; [reflexivity|rewrite app_length; lia]|lia].
      * rewrite B5; simpl length at 1; destruct (Nat.leb_spec (0 + (length x - p')) (2 * 64)) as [W|W]; [|lia].
        eexists; split; [reflexivity|]; exists k'; split; [apply at_block_stored; exact B2|]; cbn [stored set_stored]; rewrite app_length.
        split; [|lia]; rewrite skipn_app, (skipn_all2 m) by lia; simpl; f_equal; lia.
    + apply andb_false_iff in Q; destruct Q as [Q|Q]; [apply negb_false_iff, Nat.eqb_eq in Q; lia|]; apply Nat.leb_gt in Q.
      assert (Lp : process_loop (length x) x 0 st = Ok (0, st)).
      { destruct (length x) eqn:Lx; cbn [process_loop]; rewrite Lx; unfold BLOCK_SIZE;
        match goal with |- context [?a <=? ?b] => destruct (Nat.leb_spec a b) end; try lia; reflexivity. }
      rewrite Lp; cbn [bind].
      destruct (Nat.eqb_spec 0 (length x)) as [E|E]; cbn [negb]; [lia|].
      destruct (Nat.leb_spec (length (stored st) + (length x - 0)) (2 * 64)) as [W|W]; [|lia].
      eexists; split; [reflexivity|]; exists k; split; [apply at_block_stored, at_block_app; exact A|]; cbn [stored set_stored skipn].
      rewrite app_length; split; [|lia]; rewrite skipn_app, <- B; f_equal; replace (64 * k - length m) with 0 by lia; reflexivity.
Qed.

Definition chunk_ok (x : list nat) : Prop := x <> [] /\ (N.of_nat (length x) < 4294967168)%N.

Lemma process_all_ok : forall cs m st, holds m st -> Forall chunk_ok cs ->
  exists st', process_all cs st = Ok st' /\ holds (m ++ concat cs) st'.
Proof.
  induction cs as [|c cs IH]; intros m st A F; simpl.
  - exists st; rewrite app_nil_r; auto.
  - inversion F as [|? ? [F1 F2] F3]; subst; destruct (process_ok m c st A F1 F2) as (st1 & B1 & B2); rewrite B1; cbn [bind].
    destruct (IH _ _ B2 F3) as (st' & C1 & C2); exists st'; rewrite app_assoc; auto.
Qed.

(** ** the end of the message *)
Lemma to_le_bytes : forall w, to_le w = bytes_of w.
Proof. intros w; unfold to_le, bytes_of; cbn [map]; rewrite N.pow_0_r, N.div_1_r; reflexivity. Qed.

Lemma size_low_eq : forall n st, counts n st -> w32 (N.shiftl (N.land (len0 st) 0x1fffffff) 3) = word (8 * n).
Proof.
  intros n st [A _]; rewrite A; change 0x1fffffff%N with (N.ones 29); rewrite N.land_ones, N.shiftl_mul_pow2; unfold w32, word.
  change (2 ^ 29)%N with 536870912%N; change (2 ^ 3)%N with 8%N; change (2 ^ 32)%N with 4294967296%N; lia.
Qed.

Lemma size_high_eq : forall n st, counts n st ->
  N.lor (w32 (N.shiftl (len1 st) 3)) (N.shiftr (N.land (len0 st) 0xe0000000) 29) = word (8 * n / 2 ^ 32).
Proof.
  intros n st [A B]; rewrite A, B, N.shiftr_land; change (N.shiftr 0xe0000000 29) with (N.ones 3).
  rewrite N.land_ones, N.shiftl_mul_pow2, N.shiftr_div_pow2; unfold w32, word.
  replace 4294967296%N with (536870912 * 2 ^ 3)%N at 3 by reflexivity; rewrite N.mul_mod_distr_r by discriminate.
  rewrite lor_add by (apply N.mod_lt; discriminate).
  change (2 ^ 29)%N with 536870912%N; change (2 ^ 3)%N with 8%N; change (2 ^ 32)%N with 4294967296%N; lia.
Qed.

Lemma bytes_length : forall w, length (bytes_of w) = 4.
Proof. reflexivity. Qed.

Lemma finish_ok : forall m st, holds m st ->
  exists st', finish st = Ok (Some (MD5 m), st') /\ finished st' = true.
Proof.
  intros m st (k & A & B & C); unfold finish; rewrite (ab_run _ _ _ A); cbv zeta; pose proof (ab_in _ _ _ A) as Hk.
  set (r := length (stored st)); assert (Rn : r = length m - 64 * k) by (unfold r; rewrite B; apply skipn_length).
  assert (CN : counts (N.of_nat (length m)) (add_length (N.of_nat r) st)).
  { replace (N.of_nat (length m)) with (64 * N.of_nat k + N.of_nat r)%N by lia; apply add_length_counts; [lia|apply (ab_len _ _ _ A)]. }
  rewrite (size_low_eq _ _ CN), (size_high_eq _ _ CN), !to_le_bytes.
  set (tl := 128 :: repeat 0 ((119 - length m mod 64) mod 64) ++ bytes_of (word (8 * N.of_nat (length m))) ++ bytes_of (word (8 * N.of_nat (length m) / 2 ^ 32))).
  assert (PM : padded m = m ++ tl) by reflexivity.
  assert (Mr : length m mod 64 = r) by lia.
  set (pad0 := (64 - 8 - Z.of_nat r)%Z); set (pad := if (pad0 <=? 0)%Z then (pad0 + 64)%Z else pad0).
  assert (Pp : (0 < pad)%Z) by (unfold pad, pad0; destruct (Z.leb_spec (64 - 8 - Z.of_nat r) 0); lia).
  assert (Pz : Z.to_nat (pad - 1) = (119 - length m mod 64) mod 64).
  { rewrite Mr; unfold pad, pad0; destruct (Z.leb_spec (64 - 8 - Z.of_nat r) 0); lia. }
  destruct (Z.ltb_spec 0 pad) as [_|W]; [|lia]; rewrite Pz.
  set (s2 := (stored st ++ 128 :: repeat 0 ((119 - length m mod 64) mod 64)) ++
    bytes_of (word (8 * N.of_nat (length m))) ++ bytes_of (word (8 * N.of_nat (length m) / 2 ^ 32))).
  assert (S2 : s2 = skipn (64 * k) (padded m)).
  { rewrite PM, skipn_app; unfold s2; rewrite B; replace (64 * k - length m) with 0 by lia; rewrite <- app_assoc; reflexivity. }
  assert (T : length tl = 9 + (119 - r) mod 64).
  { unfold tl; cbn [length]; rewrite !app_length, repeat_length, !bytes_length, Mr; lia. }
  assert (L2 : length s2 = r + 9 + (119 - r) mod 64) by (rewrite S2, PM, skipn_length, app_length, T; lia).
  destruct (Nat.ltb_spec (2 * BLOCK_SIZE) (length s2)) as [W|_]; [unfold BLOCK_SIZE in W; lia|]; unfold BLOCK_SIZE.
  assert (A1 : at_block (padded m) (S k) (process_block (firstn 64 s2) (set_stored s2 st))).
  { apply at_block_next; [rewrite PM; apply at_block_stored, at_block_app; exact A|rewrite PM, app_length, T; lia|rewrite <- S2; reflexivity]. }
  set (u := process_block (firstn 64 s2) (set_stored s2 (add_length (N.of_nat r) st))).
  assert (R1 : regs u = absorbed (padded m) (S k)) by (unfold u; rewrite process_block_regs, <- (ab_regs _ _ _ A1), process_block_regs; reflexivity).
  assert (Q : get_result (if 64 <? length s2 then process_block (skipn 64 s2) u else u) = MD5 m).
  { unfold MD5, get_result; change (0x67452301, 0xefcdab89, 0x98badcfe, 0x10325476)%N with init; fold (absorbed (padded m) (length (padded m) / 64)).
    assert (E : regs (if 64 <? length s2 then process_block (skipn 64 s2) u else u) = absorbed (padded m) (length (padded m) / 64)).
    { assert (PL : length (padded m) = 64 * k + length s2) by (rewrite PM, app_length, T, L2; lia).
      destruct (Nat.ltb_spec 64 (length s2)) as [W|W].
      - replace (length (padded m) / 64) with (S (S k)) by lia; rewrite process_block_regs, R1, (absorbed_S _ (S k)); f_equal.
        assert (K : skipn (64 * S k) (padded m) = skipn 64 s2).
        { rewrite S2; clear; generalize (padded m); intros l; rewrite (Nat.mul_succ_r 64 k); generalize (64 * k); intros n; revert l; induction n as [|n IH]; intros [|x l]; simpl; auto;
            try apply IH; try (destruct (n + 64); reflexivity); reflexivity. }
        rewrite K, firstn_all2; [reflexivity|rewrite skipn_length; lia].
      - replace (length (padded m) / 64) with (S k) by lia; exact R1. }
    rewrite E; generalize (absorbed (padded m) (length (padded m) / 64)); clear; intros [[[a b] c] d].
    rewrite <- !to_le_bytes; reflexivity. }
  eexists; split; [rewrite Q; reflexivity|reflexivity].
Qed.

Lemma md5_bytes : forall m, Forall (fun b => b < 256) (MD5 m) /\ length (MD5 m) = 16.
Proof.
  intros m; unfold MD5; destruct (fold_left _ _ _) as [[[a b] c] d]; split; [|reflexivity].
  assert (W : forall w, Forall (fun x => x < 256) (bytes_of w)).
  { intros w; apply Forall_forall; intros x I; apply in_map_iff in I; destruct I as (i & <- & _).
    pose proof (N.mod_lt (w / 256 ^ i) 256); lia. }
  repeat (apply Forall_app; split); apply W.
Qed.

Lemma hex_nth : forall n, n < 16 -> nth n HEX_STRING 0 = hex_digit n.
Proof. intros n H; do 16 (destruct n as [|n]; [reflexivity|]); lia. Qed.

Lemma sig_string : forall sig room, Forall (fun b => b < 256) sig -> 2 * length sig < room -> sig_to_string sig room = Ok (hex sig).
Proof.
  induction sig as [|b sig IH]; intros room F L; simpl in L; cbn [sig_to_string].
  - destruct (Nat.ltb_spec 0 room); [reflexivity|lia].
  - inversion F; subst; destruct (Nat.leb_spec room 1); [lia|]; rewrite IH by (assumption || lia); cbn [bind].
    rewrite !hex_nth; [reflexivity|apply Nat.mod_upper_bound; discriminate|apply Nat.div_lt_upper_bound; lia].
Qed.

Lemma digest_ok : forall m st, holds m st -> digest_string st = Ok (hex (MD5 m)).
Proof.
  intros m st H; destruct (finish_ok m st H) as (st' & A & _); unfold digest_string; rewrite A; cbn [bind].
  destruct (md5_bytes m) as [B C]; apply sig_string; [exact B|rewrite C; unfold MD5_STRING_SIZE; lia].
Qed.
