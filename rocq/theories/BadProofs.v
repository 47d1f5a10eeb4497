(** The programs on malformed input. *)
Require Import List Arith ZArith Bool String.
Require Import Verif.Base Verif.Outcome Verif.CNFModel Verif.DimacsModel Verif.DimacsSpec Verif.DimacsProps Verif.OptModel Verif.OptSpec Verif.OptProps
  Verif.MainModel Verif.MainSpec Verif.FuzzModel Verif.AigModel Verif.AigTextModel Verif.BadSpec.
Import ListNotations.
Open Scope list_scope.

Lemma bad_throws B junk text p : bad_input B junk text -> readDimacs B junk text p = PThrow.
Proof.
  intros (HB & HJ & ml & HM & HF & HL). destruct HM as [t cs r HD HN|t cs w1 z1 n1 w2 z2 n2 c rest HD H1 H2 H3 H4 H5 H6 H7 H8 H9|t cs pre z n c rest HD H1 H2 H3 H4 H5].
  - exact (C06_misspelled_header_partial B ml junk t cs r p HB HJ HD HN HF HL).
  - exact (C06_negative_header_partial B ml junk t cs w1 z1 n1 w2 z2 n2 c rest p HB HJ HD H1 H2 H3 H4 H5 H6 H7 H8 H9 HF HL).
  - exact (proj1 (C06_out_of_range_partial B ml junk t cs pre z n c rest p HB HJ HD H1 H2 H3 H4 HF HL) H5).
Qed.
Lemma main_bad B w args text : (forall a, In a args -> good cli_options a) -> gets w args text -> bad_input B (w_junk w 0) text -> program B w args = Exits 1 [w_what w].
Proof.
  intros G (HM & HW) HB. destruct (C51_values args G) as (os & E & _). unfold program. rewrite E, HM.
  destruct (wanted args) as [|f|]; [| |destruct HW]; rewrite HW, (bad_throws _ _ _ _ HB); reflexivity.
Qed.
Lemma fuzz_bad B w f rest text : f <> "cert.drat"%string -> w_files w f = Some text -> bad_input B (w_junk w 0) text -> fuzz_main B w (f :: rest) = Exits 1 [w_what w].
Proof.
  intros N HF HB. unfold fuzz_main, fuzz_file. replace (String.eqb f cert_name) with false by (symmetry; apply String.eqb_neq; exact N). cbn [andb]. rewrite HF, (bad_throws _ _ _ _ HB). reflexivity.
Qed.
Lemma aig_bad B junk cfg text : bad_input B junk text -> cnf2aig_main B junk cfg text = Aborted.
Proof. intros HB. unfold cnf2aig_main. rewrite (bad_throws _ _ _ _ HB). reflexivity. Qed.

Lemma short_fits B text : List.length text < B -> lines_fit B text.
Proof. intros H a b -> L. rewrite app_length in H. exfalso. apply (Nat.lt_irrefl (List.length b)). eapply Nat.lt_le_trans; [|exact L]. eapply Nat.le_lt_trans; [|exact H]. apply Nat.le_add_l. Qed.
