(** Concrete runs of the program. *)
Require Import List Arith ZArith NArith Lia String Ascii Bool.
Require Import Verif.Base Verif.Outcome Verif.OptModel Verif.OptSpec Verif.OptProofs Verif.DimacsModel Verif.DimacsSpec Verif.DimacsMore Verif.SolverModel
  Verif.DratTextProofs Verif.MainModel Verif.MainSpec.
Import ListNotations.
Open Scope list_scope.

Definition file_of (F : formula) : list nat := List.concat (map print_clause F).
Definition a_world (F : formula) (O : oracle) : world :=
  mkWorld 0 (fun f => if String.eqb f "f.cnf" then Some (file_of F) else None) [] (fun _ => true) (fun _ => repeat 57 64) [] O (fun _ => false) 500.
Definition fitsb (F : formula) : bool := forallb (fun c => forallb (fun l => Nat.ltb l 1000) c && Nat.leb (List.length c) 5)%bool F.
Definition numbers (F : formula) : list (list Z) := map (map litz) F.
Lemma numbers_clauses F : clauses (numbers F) = F.
Proof. unfold clauses, numbers. rewrite map_map. rewrite <- (map_id F) at 2. apply map_ext. intros c. apply zlit_lits. Qed.
Lemma fitsb_small F : fitsb F = true -> forall c, In c F -> Forall small c /\ List.length c <= 5.
Proof.
  intros H c Hc. unfold fitsb in H. rewrite forallb_forall in H. specialize (H c Hc). apply andb_prop in H. destruct H as (H1 & H2). split; [|apply Nat.leb_le; exact H2].
  apply Forall_forall. intros l Hl. rewrite forallb_forall in H1. specialize (H1 l Hl). apply Nat.ltb_lt in H1. unfold small, lvar.
  assert (l / 2 <= l) by (apply Nat.div_le_upper_bound; lia). assert (E : Nat.div2 l = l / 2) by (apply Nat.div2_div). lia.
Qed.
Lemma a_states junk F : fitsb F = true -> List.length junk = 64 -> states 64 junk (file_of F) (numbers F).
Proof.
  intros H HJ. assert (HS := fitsb_small F H). split; [lia|]. split; [exact HJ|]. exists false. split; [|split; [|discriminate]].
  - apply print_clauses_text. apply Forall_forall. intros c Hc. apply HS. exact Hc.
  - apply lines_concat; [|lia]. apply Forall_forall. intros x Hx. apply in_map_iff in Hx. destruct Hx as (c & <- & Hc). destruct (HS c Hc) as (H1 & H2).
    split; [pose proof (print_clause_len c H1); lia|]. unfold print_clause. change [48; 10] with ([48] ++ [10]). rewrite app_assoc. eauto.
Qed.
Lemma a_called F O args : fitsb F = true -> wanted args = File "f.cnf" -> called_with 64 (a_world F O) args (numbers F).
Proof.
  intros H HW. exists (file_of F). split; [|apply a_states; [exact H|reflexivity]]. split; [|rewrite HW; reflexivity].
  rewrite HW. unfold wanted in HW. destruct (filter (fun a => negb (flag a)) args) as [|f r] eqn:E; [discriminate|]. injection HW as ->. rewrite <- E. apply (input_file _ args "f.cnf" r E). cbn [a_world w_garbage]. lia.
Qed.
