(** The minimiser returns. *)
Require Import List Arith Bool NArith ZArith Lia.
Require Import Verif.Base Verif.Outcome Verif.CNFModel Verif.CNFSpec Verif.CNFProofs Verif.TrailModel Verif.DbModel Verif.PropModel Verif.PropSpec Verif.AnalyzeModel Verif.SimpModel
  Verif.SolverModel Verif.SolverSpec Verif.SolverBase Verif.SolverProofs Verif.SolverLemmas Verif.SolverElim Verif.IpasirProofs Verif.RestartModel Verif.RestartSpec Verif.RestartProofs Verif.RestartLemmas
  Verif.RestartCount Verif.DRATProofs Verif.GateModel Verif.GateSpec Verif.GateProps Verif.MinModel Verif.MinSpec Verif.MinProofs Verif.MinMore Verif.MinRunModel.
Import ListNotations.

(** ** More fuel changes no result *)
Section Mono.
Variables (C : cfg) (O : oracle) (bl : N -> bool).
Hypothesis (HI : c_inproc C = 0%N) (HC : c_pre C = false).
Lemma rsearch_mono f : forall f' q s r, f <= f' -> rsearch C O bl f q s = Ok r -> rsearch C O bl f' q s = Ok r.
Proof.
  induction f as [|f IH]; intros f' q s r Hf E; [discriminate|]. destruct f' as [|f']; [lia|]. cbn [rsearch] in *.
  destruct (propagate _ _ _) as [(((k & d) & w) & t)|]; [|discriminate]. cbn [bind] in *. destruct k as [c|].
  - destruct (dlevel t =? 0); [exact E|]. destruct (handle_conflict d t c) as [(an & d0)|]; [|discriminate]. cbn [bind] in *.
    destruct (process_conflict _ _ _ _ _) as [q1|]; [|discriminate]. cbn [bind] in *. destruct (createClause _ _ _ _) as [(c' & d2)|]; [|discriminate]. cbn [bind] in *.
    destruct (tpropagate _ _ _) as [(u & t2)|]; [|discriminate]. cbn [bind] in *. apply (IH f'); [lia|exact E].
  - destruct (trigger_restart _ _ _) as [(b & q1)|]; [|discriminate]. cbn [bind] in *. destruct b; [exact E|]. destruct (assume_loop _ _ _) as (r1 & t1). destruct r1 as [p|cs|]; try exact E.
    + destruct (decide _ _) as [t2|]; [|discriminate]. cbn [bind] in *. apply (IH f'); [lia|exact E].
    + destruct (pick _ _) as [p|]; [|exact E]. destruct (decide _ _) as [t2|]; [|discriminate]. cbn [bind] in *. apply (IH f'); [lia|exact E].
Qed.
Lemma maintain_fuel f f' s : maintain C O f s = maintain C O f' s.
Proof. unfold maintain. rewrite HI. reflexivity. Qed.
Lemma riter_mono f f' q s r : f <= f' -> rsolve_iter C O bl f q s = Ok r -> rsolve_iter C O bl f' q s = Ok r.
Proof.
  intros Hf E. unfold rsolve_iter in *. rewrite (maintain_fuel f' f). destruct (maintain _ _ _ _) as [s1|]; [|discriminate]. cbn [bind] in *.
  destruct (pmu _ _ _) as [((d & w) & t)|]; [|discriminate]. cbn [bind] in *. destruct (empt d); [exact E|]. apply (rsearch_mono f); assumption.
Qed.
Lemma rloop_mono f f' n : f <= f' -> forall n' q s r, n <= n' -> rsolve_loop C O bl n f q s = Ok r -> rsolve_loop C O bl n' f' q s = Ok r.
Proof.
  intros Hf. induction n as [|n IH]; intros n' q s r Hn E; [discriminate|]. destruct n' as [|n']; [lia|]. cbn [rsolve_loop] in *. destruct (o_term O (sv_clk s)); [exact E|].
  destruct (rsolve_iter C O bl f q (tick s)) as [(((r1 & cs) & q1) & s1)|] eqn:E1; [|discriminate]. rewrite (riter_mono f f' _ _ _ Hf E1). cbn [bind] in *.
  destruct r1; [exact E|]. apply IH; [lia|exact E].
Qed.
Lemma rsolve_mono f f' q s r : f <= f' -> rsolve C O bl f q s = Ok r -> rsolve C O bl f' q s = Ok r.
Proof.
  intros Hf E. unfold rsolve in *. assert (S : solve_start C O f' s = solve_start C O f s) by (unfold solve_start; rewrite HC; reflexivity). rewrite S.
  destruct (solve_start C O f s) as [s1|]; [|discriminate]. cbn [bind] in *. destruct (empt (sv_d s1)); [exact E|].
  destruct (rsolve_loop C O bl f f q s1) as [r1|] eqn:E1; [|discriminate]. rewrite (rloop_mono f f' f Hf f' _ _ _ Hf E1). exact E.
Qed.
End Mono.

(** ** Refinement *)
Section Refine.
Variables (C : cfg) (n : nat).
Lemma shrink_ext O O' sf fuel : forall k card ass s, (forall j, k <= j -> O j = O' j) -> shrink C O sf n fuel k card ass s = shrink C O' sf n fuel k card ass s.
Proof.
  induction fuel as [|fuel IH]; intros k card ass s H; [reflexivity|]. cbn [shrink]. destruct (load _ _) as [s1|]; [|reflexivity]. cbn [bind]. rewrite (H k (le_n k)).
  destruct (solve _ _ _ _) as [(x & s2)|]; [|reflexivity]. cbn [bind]. destruct (r_status x) as [[|]|]; try reflexivity. apply IH. intros j Hj. apply H. lia.
Qed.
Lemma count_ext O O' sf fuel : forall k outs lt card s, (forall j, k <= j -> O j = O' j) -> count_down C O sf n fuel k outs lt card s = count_down C O' sf n fuel k outs lt card s.
Proof.
  induction fuel as [|fuel IH]; intros k outs lt card s H; [reflexivity|]. cbn [count_down]. destruct (load _ _) as [s1|]; [|reflexivity]. cbn [bind]. rewrite (H k (le_n k)).
  destruct (solve _ _ _ _) as [(x & s2)|]; [|reflexivity]. cbn [bind]. destruct (r_status x) as [[|]|]; try reflexivity. apply IH. intros j Hj. apply H. lia.
Qed.
Variables (O : nat -> oracle) (bl : nat -> N -> bool) (sf : nat).
Lemma rcount_refine fuel : forall k outs lt card q s r, rcount_down C O bl sf n fuel k outs lt card q s = Ok r ->
  exists f, count_down C (fun j => with_restart (f j) (O j)) sf n fuel k outs lt card s = Ok r.
Proof.
  induction fuel as [|fuel IH]; intros k outs lt card q s r E; [discriminate|]. cbn [rcount_down count_down] in *. destruct (load _ _) as [s1|]; [|discriminate]. cbn [bind] in *.
  destruct (rsolve _ _ _ _ _ _) as [((x & q2) & s2)|] eqn:ES; [|discriminate]. cbn [bind] in E. destruct (rsolve_solve _ _ _ _ _ _ _ _ _ ES) as (g & Eg).
  destruct (r_status x) as [[|]|] eqn:ER.
  - destruct (IH _ _ _ _ _ _ _ E) as (f & Ef). exists (fun j => if j =? k then g else f j). rewrite Nat.eqb_refl, Eg. cbn [bind]. rewrite ER. rewrite <- Ef.
    apply count_ext. intros j Hj. destruct (Nat.eqb_spec j k); [lia|reflexivity].
  - exists (fun _ => g). rewrite Eg. cbn [bind]. rewrite ER. exact E.
  - exists (fun _ => g). rewrite Eg. cbn [bind]. rewrite ER. exact E.
Qed.
End Refine.
Lemma shrink_count C n O sf fuel : forall k card ass s card' k' s', shrink C O sf n fuel k card ass s = Ok (card', k', s') -> k < k'.
Proof.
  induction fuel as [|fuel IH]; intros k card ass s card' k' s' E; [discriminate|]. cbn [shrink] in E. destruct (load _ _) as [s1|]; [|discriminate]. cbn [bind] in E.
  destruct (solve _ _ _ _) as [(x & s2)|]; [|discriminate]. cbn [bind] in E. destruct (r_status x) as [[|]|]; [apply IH in E; lia|injection E as _ <- _; lia..].
Qed.
Lemma shrink_below C n O O' sf fuel : forall k card ass s card' k' s', shrink C O sf n fuel k card ass s = Ok (card', k', s') -> (forall j, k <= j < k' -> O j = O' j) ->
  shrink C O' sf n fuel k card ass s = Ok (card', k', s').
Proof.
  induction fuel as [|fuel IH]; intros k card ass s card' k' s' E H; [discriminate|]. assert (L := shrink_count C n O sf (S fuel) k card ass s card' k' s' E). cbn [shrink] in *.
  destruct (load _ _) as [s1|]; [|discriminate]. cbn [bind] in *. rewrite <- (H k) by lia. destruct (solve _ _ _ _) as [(x & s2)|]; [|discriminate]. cbn [bind] in *.
  destruct (r_status x) as [[|]|]; try exact E. apply IH; [exact E|]. intros j Hj. apply H. lia.
Qed.
Section Refine2.
Variables (C : cfg) (n : nat) (O : nat -> oracle) (bl : nat -> N -> bool) (sf : nat).
Lemma rshrink_refine fuel : forall k card ass q s card' k' q' s', rshrink C O bl sf n fuel k card ass q s = Ok (card', k', q', s') ->
  exists f, shrink C (fun j => with_restart (f j) (O j)) sf n fuel k card ass s = Ok (card', k', s').
Proof.
  induction fuel as [|fuel IH]; intros k card ass q s card' k' q' s' E; [discriminate|]. cbn [rshrink shrink] in *. destruct (load _ _) as [s1|]; [|discriminate]. cbn [bind] in *.
  destruct (rsolve _ _ _ _ _ _) as [((x & q2) & s2)|] eqn:ES; [|discriminate]. cbn [bind] in E. destruct (rsolve_solve _ _ _ _ _ _ _ _ _ ES) as (g & Eg).
  destruct (r_status x) as [[|]|] eqn:ER.
  - destruct (IH _ _ _ _ _ _ _ _ _ E) as (f & Ef). exists (fun j => if j =? k then g else f j). rewrite Nat.eqb_refl, Eg. cbn [bind]. rewrite ER. rewrite <- Ef.
    apply shrink_ext. intros j Hj. destruct (Nat.eqb_spec j k); [lia|reflexivity].
  - exists (fun _ => g). rewrite Eg. cbn [bind]. rewrite ER. injection E as <- <- _ <-. reflexivity.
  - exists (fun _ => g). rewrite Eg. cbn [bind]. rewrite ER. injection E as <- <- _ <-. reflexivity.
Qed.
Lemma riter_refine nl nt fuel hs minimal r : riterativeMinimization C O bl sf n nl nt fuel hs minimal = Ok r ->
  exists f, iterativeMinimization C (fun j => with_restart (f j) (O j)) sf n fuel hs minimal = Ok r.
Proof.
  unfold riterativeMinimization, iterativeMinimization. intros E. destruct (load _ _) as [s0|]; [|discriminate]. cbn [bind] in *.
  destruct (rshrink _ _ _ _ _ _ _ _ _ _ _) as [(((card & k) & q1) & s1)|] eqn:E1; [|discriminate]. cbn [bind] in E. destruct (rshrink_refine _ _ _ _ _ _ _ _ _ _ E1) as (f & Ef).
  destruct minimal.
  2: { exists f. rewrite Ef. cbn [bind]. exact E. }
  destruct (genParCounter _ _ _) as (outs & counter). destruct (load counter s1) as [s2|] eqn:E2; [|discriminate]. cbn [bind] in E.
  destruct (rcount_down _ _ _ _ _ _ _ _ _ _ _ _) as [card'|] eqn:E3; [|discriminate]. cbn [bind] in E. destruct (rcount_refine _ _ _ _ _ _ _ _ _ _ _ _ _ E3) as (g & Eg).
  exists (fun j => if j <? k then f j else g j). rewrite (shrink_below C n _ (fun j => with_restart (if j <? k then f j else g j) (O j)) sf fuel _ _ _ _ _ _ _ Ef).
  - cbn [bind]. rewrite E2. cbn [bind]. rewrite (count_ext C n _ (fun j => with_restart (g j) (O j))); [rewrite Eg; cbn [bind]; exact E|].
    intros j Hj. destruct (Nat.ltb_spec j k); [lia|reflexivity].
  - intros j Hj. cbn beta. destruct (Nat.ltb_spec j k); [reflexivity|lia].
Qed.
End Refine2.
Lemma rmin_refine C O bl nl nt G fuel p m pruning minimal project mm : rmimimizeModel C O bl nl nt G fuel p m pruning minimal project = Ok mm ->
  exists f, mimimizeModel C (fun j => with_restart (f j) (O j)) G fuel p m pruning minimal project = Ok mm.
Proof.
  unfold rmimimizeModel, mimimizeModel. intros E. destruct (if pruning || project then _ else _) as [g|]; [|discriminate]. cbn [bind] in *.
  destruct (if pruning then _ else _) as [hs|]; [|discriminate]. cbn [bind] in *. destruct (riterativeMinimization _ _ _ _ _ _ _ _ _ _) as [k|] eqn:E1; [|discriminate].
  destruct (riter_refine _ _ _ _ _ _ _ _ _ _ _ E1) as (f & Ef). exists f. rewrite Ef. exact E.
Qed.

(** ** Termination *)
Lemma read_bound n cs : (forall c l, In c cs -> In l c -> lvar l < n) -> variables (readClauses cnf_empty cs) <= n.
Proof.
  intros H. destruct (readClauses_nvars cs) as (_ & [->|(v & (c & l & Hc & Hl & <-) & ->)]); [lia|]. specialize (H c l Hc Hl). lia.
Qed.
Lemma read_clause_le top p c : variables p <= top -> (forall l, In l c -> lvar l < top) -> variables (readClause p c) <= top.
Proof.
  intros HP H. destruct (readClause_spec p c) as (_ & ->). revert HP. generalize (variables p). induction c as [|l c IH]; intros v HP; [exact HP|]. cbn [fold_left].
  apply IH; [intros x Hx; apply H; right; exact Hx|]. specialize (H l (or_introl eq_refl)). lia.
Qed.
Lemma read_ge cs : forall p, variables p <= variables (readClauses p cs).
Proof.
  induction cs as [|c cs IH]; intros p; [apply le_n|]. change (readClauses p (c :: cs)) with (readClauses (readClause p c) cs). specialize (IH (readClause p c)).
  destruct (readClause_spec p c) as (_ & HV). destruct (fold_max_spec c (variables p)) as (A & _). rewrite <- HV in A. lia.
Qed.
Lemma In_firstn {A} (x : A) k l : In x (firstn k l) -> In x l. Proof. intros H. rewrite <- (firstn_skipn k l). apply in_or_app. auto. Qed.
Lemma In_skipn {A} (x : A) k l : In x (skipn k l) -> In x l. Proof. intros H. rewrite <- (firstn_skipn k l). apply in_or_app. auto. Qed.
Lemma read_le top cs : forall p, variables p <= top -> (forall c l, In c cs -> In l c -> lvar l < top) -> variables (readClauses p cs) <= top.
Proof.
  induction cs as [|c cs IH]; intros p HP H; [exact HP|]. change (readClauses p (c :: cs)) with (readClauses (readClause p c) cs). apply IH; [|intros d l Hd Hl; apply (H d); [right; exact Hd|exact Hl]].
  apply read_clause_le; [exact HP|]. intros l Hl. apply (H c); [left; reflexivity|exact Hl].
Qed.
Lemma lessThan_lits outs : forall k acc c l, In c (lessThan outs k acc) -> In l c -> (exists o, In o outs /\ l = lneg o) \/ (exists d, In d acc /\ In l d).
Proof.
  induction outs as [|o outs IH]; intros k acc c l Hc Hl; cbn [lessThan] in Hc; [right; exists c; auto|].
  destruct (IH _ _ c l Hc Hl) as [(o' & Ho & ->)|(d & Hd & Hld)]; [left; exists o'; split; [right; exact Ho|reflexivity]|]. destruct (Nat.odd k).
  - apply in_map_iff in Hd. destruct Hd as (d' & <- & Hd'). apply in_app_or in Hld. destruct Hld as [H|[<-|[]]]; [right; exists d'; auto|left; exists o; split; [left; reflexivity|reflexivity]].
  - apply in_app_or in Hd. destruct Hd as [H|[<-|[]]]; [right; exists d; auto|]. destruct Hld as [<-|[]]. left. exists o. split; [left; reflexivity|reflexivity].
Qed.
(** ** The variables of the counter *)
Lemma add_bits_bound n a : forall b c p, (forall l, In l a \/ In l b \/ l = c -> lvar l < max n (variables p)) ->
  let '(o, c2, p2) := add_bits a b c p in length o = length a /\ variables p <= variables p2 /\ variables p2 <= max n (variables p) + 2 * length a /\
    forall l, In l o \/ l = c2 -> lvar l < max n (variables p2).
Proof.
  induction a as [|x a IH]; intros b c p H; cbn [add_bits].
  - split; [reflexivity|]. split; [lia|]. split; [cbn; lia|]. intros l [[]|Hl]. apply H. auto.
  - cbn [newVar]. set (p2 := mkCnf (problem (mkCnf (problem p) (S (variables p)))) (S (variables (mkCnf (problem p) (S (variables p)))))).
    set (sum := mkLit (variables p) false). set (nx := mkLit (variables (mkCnf (problem p) (S (variables p)))) false).
    set (q := match b with [] => halfAdder x c sum nx | y :: _ => fullAdder x y c sum nx end).
    assert (V2 : variables p2 = S (S (variables p))) by reflexivity.
    assert (Hq : forall d l, In d q -> In l d -> lvar l < max n (variables p) + 2).
    { assert (X : lvar x < max n (variables p)) by (apply H; left; left; reflexivity). assert (Y : lvar c < max n (variables p)) by (apply H; auto).
      assert (S1 : lvar sum = variables p) by (unfold sum; apply lvar_mk). assert (S2 : lvar nx = S (variables p)) by (unfold nx; rewrite lvar_mk; reflexivity).
      intros d l Hd Hl. unfold q in Hd. destruct b as [|y b].
      - unfold halfAdder in Hd. cbn [In] in Hd. intuition (subst; cbn [In] in *; intuition (subst; rewrite ?lvar_neg in *; lia)).
      - assert (Z : lvar y < max n (variables p)) by (apply H; right; left; left; reflexivity).
        unfold fullAdder in Hd. cbn [In] in Hd. intuition (subst; cbn [In] in *; intuition (subst; rewrite ?lvar_neg in *; lia)). }
    assert (V3 : variables (readClauses p2 q) <= max n (variables p) + 2) by (apply read_le; [rewrite V2; lia|exact Hq]).
    assert (V4 : variables p2 <= variables (readClauses p2 q)) by apply read_ge.
    specialize (IH (tl b) nx (readClauses p2 q)). destruct (add_bits a (tl b) nx (readClauses p2 q)) as ((o & c2) & p4). destruct IH as (I1 & I2 & I3 & I4).
    { intros l [Hl|[Hl|Hl]]; [| |subst l].
      - assert (X : lvar l < max n (variables p)) by (apply H; left; right; exact Hl). lia.
      - assert (X : lvar l < max n (variables p)) by (apply H; right; left; destruct b; [destruct Hl|right; exact Hl]). lia.
      - unfold nx. rewrite lvar_mk. cbn [variables]. lia. }
    split; [cbn; lia|]. split; [lia|]. split; [|intros l [[<-|Hl]|Hl]; [unfold sum; rewrite lvar_mk; lia|apply I4; auto|apply I4; auto]].
    cbn [length]. lia.
Qed.
Lemma log2_half m : 2 <= m -> Nat.log2 m = S (Nat.log2 (m / 2)).
Proof.
  intros H. assert (D := Nat.div_mod m 2 ltac:(lia)). assert (B := Nat.mod_upper_bound m 2 ltac:(lia)). set (h := m / 2) in *. assert (1 <= h) by lia.
  assert (M : m mod 2 = 0 \/ m mod 2 = 1) by lia. destruct M as [M|M]; rewrite M in D.
  - replace m with (2 * h) by lia. apply Nat.log2_double. lia.
  - replace m with (2 * h + 1) by lia. apply Nat.log2_succ_double. lia.
Qed.
Lemma last_in (l : list lit) d : l <> [] -> In (last l d) l.
Proof. intros H. rewrite (app_removelast_last d H) at 2. apply in_or_app. right. left. reflexivity. Qed.
Lemma counter_bound_gen n fuel : forall ins p, length ins <= fuel -> ins <> [] -> (forall l, In l ins -> lvar l < max n (variables p)) ->
  let (o, p2) := genParCounter fuel ins p in length o = S (Nat.log2 (length ins)) /\
    max n (variables p2) + 2 * Nat.log2 (length ins) + 4 <= max n (variables p) + 4 * length ins /\ variables p <= variables p2 /\ forall l, In l o -> lvar l < max n (variables p2).
Proof.
  induction fuel as [|fuel IH]; intros ins p HF HN HV; destruct ins as [|x [|y ins]]; try congruence.
  - cbn in HF. lia.
  - cbn in HF. lia.
  - cbn [genParCounter length]. change (Nat.log2 1) with 0. split; [reflexivity|]. split; [lia|]. split; [lia|exact HV].
  - cbn [genParCounter]. set (l := x :: y :: ins) in *. set (h := length l / 2). assert (L2 : 2 <= length l) by (cbn; lia).
    assert (LG := log2_half (length l) L2). fold h in LG. assert (D := Nat.div_mod (length l) 2 ltac:(lia)). assert (B := Nat.mod_upper_bound (length l) 2 ltac:(lia)). fold h in D. clearbody h.
    assert (F1 : length (firstn h l) = h) by (rewrite firstn_length; lia). assert (S1 : length (skipn h l) = length l - h) by apply skipn_length.
    assert (NF : firstn h l <> []) by (intros X; rewrite X in F1; cbn [length] in F1; lia). assert (NS : skipn h l <> []) by (intros X; rewrite X in S1; cbn [length] in S1; lia).
    assert (G1 := IH (firstn h l) p ltac:(lia) NF ltac:(intros z Hz; apply HV; apply (In_firstn _ _ _ Hz))). destruct (genParCounter fuel (firstn h l) p) as (a & p1). destruct G1 as (A1 & A2 & A3 & A4).
    assert (G2 := IH (skipn h l) p1 ltac:(lia) NS ltac:(intros z Hz; assert (X := HV z (In_skipn _ _ _ Hz)); lia)). destruct (genParCounter fuel (skipn h l) p1) as (b & p2). destruct G2 as (B1 & B2 & B3 & B4).
    assert (G3 := add_bits_bound n a b (last l 0) p2). destruct (add_bits a b (last l 0) p2) as ((o & c) & p3). destruct G3 as (C1 & C2 & C3 & C4).
    { intros z [Hz|[Hz|Hz]]; [specialize (A4 z Hz); lia|apply B4; exact Hz|]. subst z. assert (X := HV _ (last_in l 0 ltac:(discriminate))). lia. }
    rewrite F1 in *. rewrite S1 in *. assert (LM : Nat.log2 h <= Nat.log2 (length l - h)) by (apply Nat.log2_le_mono; lia).
    split; [rewrite app_length; cbn [length]; lia|]. split; [lia|]. split; [lia|]. intros z Hz. apply in_app_or in Hz. destruct Hz as [Hz|[<-|[]]]; apply C4; auto.
Qed.
Lemma counter_bound n : let r := genParCounter n (map (fun v => mkLit v false) (seq 0 n)) cnf_empty in variables (snd r) <= 5 * n /\ forall l, In l (fst r) -> lvar l < 5 * n.
Proof.
  destruct n as [|n]; [cbn; split; [lia|intros l []]|]. set (ins := map (fun v => mkLit v false) (seq 0 (S n))). assert (LI : length ins = S n) by (unfold ins; rewrite map_length, seq_length; reflexivity).
  assert (G := counter_bound_gen (S n) (S n) ins cnf_empty ltac:(lia) ltac:(discriminate)). destruct (genParCounter (S n) ins cnf_empty) as (o & p2). cbn [fst snd].
  destruct G as (_ & G2 & _ & G4).
  { intros l Hl. unfold ins in Hl. apply in_map_iff in Hl. destruct Hl as (v & <- & Hv). apply in_seq in Hv. rewrite lvar_mk. lia. }
  rewrite LI in G2. cbn [variables cnf_empty] in G2. split; [lia|]. intros l Hl. specialize (G4 l Hl). lia.
Qed.
Section Total.
Variables (C : cfg) (O : nat -> oracle) (bl : nat -> N -> bool) (n nl nt : nat).
Hypothesis (HI : c_inproc C = 0%N) (HC : c_pre C = false) (HR : (0 < c_inc C)%N) (HL : 1 <= nl) (HT : 1 <= nt)
  (HO : forall k i, o_term (O k) i = false).
(** [top] bounds the variables of the solver *)
Lemma load_total top F q s p : (N.of_nat top < 65535)%N -> rreach C nl nt F q s -> nvars s <= top -> variables p <= top -> Forall (clause_ok (variables p)) (problem p) ->
  exists s', load p s = Ok s' /\ rreach C nl nt (F ++ problem p) q s' /\ nvars s' <= top /\ variables p <= nvars s' /\ nvars s <= nvars s' /\ assumptions s' = assumptions s.
Proof.
  intros HN R N1 N2 W. assert (S := rreach_sreach _ _ _ _ _ _ R).
  assert (W' : Forall (clause_ok (max (variables p) (nvars s))) (problem p)) by (eapply Forall_impl; [|exact W]; intros c (A & B); split; auto; intros l Hl; specialize (B l Hl); lia).
  assert (EV : ev (sv_e s) = []).
  { assert (S2 := no_elim_reach C problem_op F s HI HC S). exact (ki_ev _ _ (reach_KI (no_elim C) F s (no_elim_quiet C HI) HC S2)). }
  assert (EI : exists s', load p s = Ok s').
  { unfold load, solver_init. destruct (db_init (variables p) (problem p) true (sv_d s)) as [d1|er] eqn:E; cbn [bind].
    - rewrite init_undo_none by auto. cbn [bind]. eexists. reflexivity.
    - exfalso. apply create_all_err in E. destruct E as (_ & c & Hc & HL'). rewrite Forall_forall in W. assert (L := wfc_length (variables p) c (W c Hc)). lia. }
  destruct EI as (s' & EI). destruct (load_reach C F s p s' S W EI) as (_ & V & A). exists s'. split; [exact EI|]. split; [exact (rr_init _ _ _ _ _ _ _ _ _ R W' EI)|].
  split; [lia|]. split; [lia|]. split; [lia|exact A].
Qed.
Lemma rshrink_total m : (N.of_nat n < 65535)%N -> forall K N F q s k, length K <= m -> rreach C nl nt F q s -> nvars s <= n -> (forall v, In v K -> v < n) -> (forall v, In v N -> v < nvars s) ->
  (forall v, v < n -> In v K \/ In v N) -> exists N0 K' k' q' s' F', (forall sf fuel, N0 <= sf -> N0 <= fuel -> rshrink C O bl sf n fuel k (map ngv K) (map ngv N) q s = Ok (map ngv K', k', q', s')) /\
    rreach C nl nt F' q' s' /\ nvars s' <= n /\ unsat (F' ++ units (assumptions s')).
Proof.
  intros HN. induction m as [m IH] using lt_wf_ind. intros K N F q s k HK R NV KV NN HA.
  assert (H0 : Forall (clause_ok (variables cnf_empty)) (problem cnf_empty)) by constructor.
  destruct (read_ok [map ngv K] cnf_empty H0) as (P1 & _ & P3 & P4). set (pc := readClauses cnf_empty [map ngv K]) in *.
  assert (PV : variables pc <= n).
  { apply read_bound. intros c l [<-|[]] Hl. apply in_map_iff in Hl. destruct Hl as (v & <- & Hv). unfold ngv. rewrite lvar_mk. auto. }
  destruct (load_total n F q s pc HN R NV PV P1) as (s1 & E1 & R1 & V1 & V2 & V3 & _).
  assert (R2 : rreach C nl nt (F ++ problem pc) q (solver_assume (map ngv N) s1)).
  { apply rr_assume; [exact R1|]. intros l Hl. apply in_map_iff in Hl. destruct Hl as (v & <- & Hv). unfold ngv. rewrite lvar_mk. specialize (NN v Hv). lia. }
  assert (A2 : assumptions (solver_assume (map ngv N) s1) = map ngv N) by reflexivity.
  assert (V4 : nvars (solver_assume (map ngv N) s1) = nvars s1) by reflexivity.
  destruct (rsolve_decides C nl nt _ q _ HC HI HR HL HT ltac:(rewrite V4; lia) R2) as (N1 & D).
  destruct (D (O k) (bl k) N1 (HO k) (le_n N1)) as (x & q2 & s2 & b & E2 & EB & EU).
  destruct (rsolve_solve _ _ _ _ _ _ _ _ _ E2) as (f & Ef). assert (S2 := rreach_sreach _ _ _ _ _ _ R2).
  assert (V5 : nvars s2 = nvars s1) by (exact (sreach_solve_nv _ _ _ _ _ _ _ _ S2 Ef)).
  assert (A5 := solve_assum _ _ _ _ _ _ _ _ S2 Ef).
  assert (R3 : rreach C nl nt (F ++ problem pc) q2 s2) by (eapply rr_solve; [exact R2|exact E2]).
  destruct b.
  - destruct (history_model C _ _ _ _ _ _ HI HC S2 Ef EB) as (M1 & M2 & M3). rewrite A2 in M2.
    assert (HKK : forall v, In v (Kof n (r_model x)) -> In v K).
    { intros v Hv. apply Kof_in in Hv. destruct Hv as (W1 & W2). destruct (HA v W1) as [H|H]; auto. exfalso.
      specialize (M2 (ngv v) (in_map ngv _ _ H)). unfold model_lit, pos, ngv in *. rewrite lvar_mk, lsign_mk in *. rewrite W2 in M2. discriminate. }
    assert (HV : exists v, In v K /\ ~ In v (Kof n (r_model x))).
    { assert (SA : sat (read (r_model x)) (F ++ problem pc)) by (intros d Hd; destruct (M1 d Hd) as (l & L1 & L2); exists l; split; auto; apply model_lit_read; auto).
      apply sat_app in SA. destruct SA as (_ & SA). apply P4 in SA. destruct SA as (_ & SA). destruct (SA _ (or_introl eq_refl)) as (l & L1 & L2).
      apply in_map_iff in L1. destruct L1 as (v & <- & Hv). exists v. split; [exact Hv|]. intros HK'. apply Kof_in in HK'. destruct HK' as (_ & ML).
      apply holds_ngv in L2. unfold read in L2. unfold model_lit, pos in ML. rewrite lvar_mk, lsign_mk in ML. rewrite ML in L2. discriminate. }
    assert (LT : length (Kof n (r_model x)) < length K).
    { destruct HV as (v & Hv & Hn). apply Nat.le_lt_trans with (length (remove Nat.eq_dec v K)); [|apply remove_length_lt; exact Hv].
      apply NoDup_incl_length; [apply NoDup_filter, seq_NoDup|]. intros u Hu. apply in_in_remove; [intros ->; contradiction|apply HKK; exact Hu]. }
    destruct (IH (length (Kof n (r_model x))) ltac:(lia) (Kof n (r_model x)) (Nof n (r_model x)) _ q2 s2 (S k) (le_n _) R3) as (N2 & K' & k' & q' & s' & F' & HS & HS2).
    + lia.
    + intros v Hv. apply Kof_in in Hv. tauto.
    + intros v Hv. apply Nof_in in Hv. destruct Hv as (W1 & W2). rewrite V5. destruct (HA v W1) as [H|H].
      * assert (Hx := P3 _ (ngv v) (or_introl eq_refl) (in_map ngv _ _ H)). unfold ngv in Hx. rewrite lvar_mk in Hx. lia.
      * specialize (NN v H). lia.
    + intros v Hv. rewrite Nof_in. destruct (in_dec Nat.eq_dec v (Kof n (r_model x))); auto.
    + exists (S (max N1 N2)), K', k', q', s', F'. split; [|exact HS2]. intros sf fuel Hs Hf. destruct fuel as [|fuel]; [lia|]. cbn [rshrink].
      change (readClauses cnf_empty [map ngv K]) with pc. rewrite E1. cbn [bind].
      rewrite (rsolve_mono C (O k) (bl k) HI HC N1 sf _ _ _ ltac:(lia) E2). cbn [bind]. rewrite EB. apply HS; lia.
  - exists (S N1), K, (S k), q2, s2, (F ++ problem pc). split.
    + intros sf fuel Hs Hf. destruct fuel as [|fuel]; [lia|]. cbn [rshrink]. change (readClauses cnf_empty [map ngv K]) with pc. rewrite E1. cbn [bind].
      rewrite (rsolve_mono C (O k) (bl k) HI HC N1 sf _ _ _ ltac:(lia) E2). cbn [bind]. rewrite EB. reflexivity.
    + split; [exact R3|]. split; [lia|]. rewrite A5. intros a Ha. assert (X : satisfiable ((F ++ problem pc) ++ units (assumptions (solver_assume (map ngv N) s1)))) by (exists a; exact Ha).
      apply EU in X. discriminate.
Qed.
(** the assumptions of the last call remain, so the first call of the loop is unsatisfiable *)
Lemma rcount_total top outs lt card F q s k : (N.of_nat top < 65535)%N -> rreach C nl nt F q s -> nvars s <= top -> variables lt <= top -> (forall l, In l outs -> lvar l < top) ->
  unsat (F ++ units (assumptions s)) -> exists N0, forall sf fuel, N0 <= sf -> N0 <= fuel -> rcount_down C O bl sf n fuel k outs lt card q s = Ok card.
Proof.
  intros HN R NV LV OV U.
  set (pc := readClauses (mkCnf [] (variables lt)) (lessThan outs (length card) [])).
  assert (H0 : Forall (clause_ok (variables (mkCnf [] (variables lt)))) (problem (mkCnf [] (variables lt)))) by constructor.
  destruct (read_ok (lessThan outs (length card) []) _ H0) as (P1 & _).
  assert (PV : variables pc <= top) by (apply read_le; [exact LV|]; intros c l Hc Hl; destruct (lessThan_lits outs (length card) [] c l Hc Hl) as [(o & Ho & ->)|(d & [] & _)]; rewrite lvar_neg; auto).
  destruct (load_total top F q s pc HN R NV PV P1) as (s1 & E1 & R1 & V1 & V2 & V3 & A1).
  destruct (rsolve_decides C nl nt _ q s1 HC HI HR HL HT ltac:(lia) R1) as (N1 & D).
  destruct (D (O k) (bl k) N1 (HO k) (le_n N1)) as (x & q2 & s2 & b & E2 & EB & EU).
  exists (S N1). intros sf fuel Hs Hf. destruct fuel as [|fuel]; [lia|]. cbn [rcount_down]. cbv zeta. fold pc. rewrite E1. cbn [bind].
  rewrite (rsolve_mono C (O k) (bl k) HI HC N1 sf _ _ _ ltac:(lia) E2). cbn [bind]. rewrite EB. destruct b; [|reflexivity]. exfalso.
  destruct (proj1 EU eq_refl) as (a & Ha). apply (U a). rewrite A1 in Ha. rewrite !sat_app in *. tauto.
Qed.
Lemma riter_total hs minimal : (N.of_nat n < 65535)%N -> (minimal = true -> (N.of_nat (5 * n) < 65535)%N) -> (forall c l, In c hs -> In l c -> lvar l < n) ->
  exists N0 r, forall sf fuel, N0 <= sf -> N0 <= fuel -> riterativeMinimization C O bl sf n nl nt fuel hs minimal = Ok r.
Proof.
  intros HN HM HV. assert (H0 : Forall (clause_ok (variables cnf_empty)) (problem cnf_empty)) by constructor. destruct (read_ok hs cnf_empty H0) as (P1 & _ & _ & _).
  destruct (load_total n [] (rst_new nl nt) (solver_new C) (readClauses cnf_empty hs) HN (rr_new C nl nt) (Nat.le_0_l n) (read_bound n hs HV) P1) as (s0 & E0 & R0 & V0 & _).
  destruct (rshrink_total n HN (seq 0 n) [] _ _ s0 0 ltac:(rewrite seq_length; lia) R0 V0) as (N0 & K' & k' & q' & s' & F' & H & R1 & V1 & U).
  { intros v Hv. apply in_seq in Hv. lia. }
  { intros v []. }
  { intros v Hv. left. apply in_seq. lia. }
  change (map ngv (seq 0 n)) with (map (fun v => mkLit v true) (seq 0 n)) in H. change (map ngv []) with (@nil lit) in H.
  destruct minimal.
  - assert (B := counter_bound n). assert (CO := counter_ok n (map (fun v => mkLit v false) (seq 0 n)) cnf_empty H0).
    destruct (genParCounter n (map (fun v => mkLit v false) (seq 0 n)) cnf_empty) as (outs & counter) eqn:EG. cbn [fst snd] in *. destruct B as (B1 & B2).
    destruct (load_total (5 * n) F' q' s' counter (HM eq_refl) R1 ltac:(lia) B1 CO) as (s2 & E2 & R2 & V2 & _ & _ & A2).
    destruct (rcount_total (5 * n) outs cnf_empty (map ngv K') _ q' s2 k' (HM eq_refl) R2 V2 ltac:(cbn; lia) B2) as (N1 & H1).
    { rewrite A2. intros a Ha. apply (U a). rewrite !sat_app in *. tauto. }
    exists (max N0 N1), (map lneg (map ngv K')). intros sf fuel Hs Hf. unfold riterativeMinimization. rewrite E0. cbn [bind]. rewrite (H sf fuel ltac:(lia) ltac:(lia)). cbn [bind].
    rewrite EG, E2. cbn [bind]. rewrite (H1 sf fuel ltac:(lia) ltac:(lia)). reflexivity.
  - exists N0, (map lneg (map ngv K')). intros sf fuel Hs Hf. unfold riterativeMinimization. rewrite E0. cbn [bind]. rewrite (H sf fuel Hs Hf). reflexivity.
Qed.
End Total.

Lemma rmin_total C O bl nl nt G p m pruning minimal project : (0 < c_inc C)%N -> 1 <= nl -> 1 <= nt -> (forall k i, o_term (O k) i = false) ->
  wf_problem (variables p) (problem p) -> model_total (variables p) m -> (N.of_nat (variables p) < 65535)%N -> (minimal = true -> (N.of_nat (5 * variables p) < 65535)%N) ->
  exists N0 mm, forall fuel, N0 <= fuel -> rmimimizeModel C O bl nl nt G fuel p m pruning minimal project = Ok mm.
Proof.
  intros HR HL HT HO HW HM HN H5. destruct (C34_partition_nonempty G p HW) as (g & Eg & _).
  assert (HPu : forall f, incl f (problem p) -> purify m f = Ok (map (pure m) f)) by (intros f Hf; apply purify_ok; intros c l Hc Hl; apply (total_len (variables p)); auto; apply (wf_lt _ (problem p) c); auto).
  assert (HF : exists g f, (if pruning || project then analyze G p else Ok (gp_new (variables p))) = Ok g /\ incl f (problem p) /\
    (if pruning then ids <- getPrunedProblem (problem p) g m ;; purify m (map (cl (problem p)) ids) else purify m (problem p)) = Ok (map (pure m) f)).
  { destruct pruning; cbn [orb].
    - destruct (pruned_clauses G p g m HW Eg) as (ids & Ei & _ & I3). assert (IN : incl (map (cl (problem p)) ids) (problem p)) by (intros c Hc; apply in_map_iff in Hc; destruct Hc as (i & <- & Hi); auto).
      exists g, (map (cl (problem p)) ids). split; [exact Eg|]. split; [exact IN|]. rewrite Ei. cbn [bind]. apply HPu. exact IN.
    - exists (if project then g else gp_new (variables p)), (problem p). split; [destruct project; auto|]. split; [apply incl_refl|apply HPu, incl_refl]. }
  destruct HF as (g' & f & E1 & IN & E2).
  destruct (riter_total (min_cfg C) O bl (variables p) nl nt eq_refl eq_refl HR HL HT HO (map (pure m) f) minimal HN H5) as (N0 & r & H).
  { intros c l Hc Hl. apply in_map_iff in Hc. destruct Hc as (d & <- & Hd). unfold pure in Hl. apply in_map_iff in Hl. destruct Hl as (l' & <- & Hl'). apply filter_In in Hl'.
    unfold pos. rewrite lvar_mk. apply (wf_lt _ (problem p) d); [exact HW|apply IN; exact Hd|tauto]. }
  exists N0. eexists. intros fuel Hf. unfold rmimimizeModel. rewrite E1. cbn [bind]. rewrite E2. cbn [bind]. rewrite (H fuel fuel Hf Hf). cbn [bind]. reflexivity.
Qed.
Lemma rmin_returns C O bl nl nt G p m pruning minimal project : (0 < c_inc C)%N -> 1 <= nl -> 1 <= nt -> (forall k i, o_term (O k) i = false) ->
  wf_problem (variables p) (problem p) -> model_sat m (problem p) -> model_total (variables p) m -> (N.of_nat (variables p) < 65535)%N -> (minimal = true -> (N.of_nat (5 * variables p) < 65535)%N) ->
  exists N0 mm, (forall fuel, N0 <= fuel -> rmimimizeModel C O bl nl nt G fuel p m pruning minimal project = Ok mm) /\
    (forall l, In l (getModelLiterals mm) -> model_lit m l) /\ (pruning = false -> project = false -> prime_implicant (getModelLiterals mm) (problem p)).
Proof.
  intros HR HL HT HO HW HS HM HN H5. destruct (rmin_total C O bl nl nt G p m pruning minimal project HR HL HT HO HW HM HN H5) as (N0 & mm & H). exists N0, mm. split; [exact H|].
  destruct (rmin_refine _ _ _ _ _ _ _ _ _ _ _ _ _ (H N0 (le_n N0))) as (f & E). split.
  - exact (min_subset _ _ _ _ _ _ _ _ _ _ HW HS HM E).
  - intros -> ->. assert (HO' : forall k i, o_term ((fun j => with_restart (f j) (O j)) k) i = false) by (intros k i; apply HO).
    exact (proj1 (min_prime _ _ _ _ _ _ _ _ HW HS HM HO' E)).
Qed.
Lemma counter_bound' n : let (outputs, counter) := genParCounter n (map (fun v => mkLit v false) (seq 0 n)) cnf_empty in
  variables counter <= 5 * n /\ forall l, In l outputs -> lvar l < 5 * n.
Proof. assert (B := counter_bound n). destruct (genParCounter n _ cnf_empty) as (o & c). exact B. Qed.
