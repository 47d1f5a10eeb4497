(** Model of the option gate-stats: the statistics of the gate recognition (src/candy/gates/GateProblem.h:58-62, 115-132, GateAnalyzer.cc:146-177)
    and what the program prints of them (src/candy/Main.cc:124-153, 215-218).  The recognition is that of GateModel.v, with the
    statistics beside it. *)
Require Import List Arith ZArith NArith String Bool.
Require Import Verif.Base Verif.Outcome Verif.OptModel Verif.CNFModel Verif.DimacsModel Verif.MainModel Verif.GateModel.
Import ListNotations.
Open Scope list_scope.

(** GateProblem.h:58-62.  The counters have type unsigned int; they do not overflow below 2^32 gates and candidates. *)
Record gstats := mkGS { st_pat : nat; st_sem : nat; st_hol : nat; st_hist : list nat; st_fail : list nat }.
Definition gs_new : gstats := mkGS 0 0 0 [] [].
(** GateProblem.h:119-120, 124-125, 130-131: resize fills with zeros *)
Definition bump (i : nat) (h : list nat) : list nat :=
  let h := if (List.length h <=? i)%nat then h ++ repeat 0 (S i - List.length h) else h in set_nth i (S (nth i h 0)) h.
(** GateProblem.h:115-127 *)
Definition addGateStats (pattern semantic holistic : bool) (conflicts : nat) (s : gstats) : gstats :=
  let s := if pattern then mkGS (S (st_pat s)) (st_sem s) (st_hol s) (st_hist s) (st_fail s) else s in
  let s := if semantic then mkGS (st_pat s) (S (st_sem s)) (st_hol s) (bump conflicts (st_hist s)) (st_fail s) else s in
  if holistic then mkGS (st_pat s) (st_sem s) (S (st_hol s)) (bump conflicts (st_hist s)) (st_fail s) else s.
(** GateProblem.h:129-132 *)
Definition addUnsuccessfulStats (conflicts : nat) (s : gstats) : gstats :=
  mkGS (st_pat s) (st_sem s) (st_hol s) (st_hist s) (bump conflicts (st_fail s)).

Section Run.
(** [conf k]: solver->nConflicts() after the k-th call of the solver (its counter is reset by clear(), ClauseDatabase.h:101) *)
Variable cfg : GateModel.config.
Variable conf : nat -> nat.

(** GateAnalyzer.cc:150-163: pattern, semantic, holistic *)
Definition tests (cs : list clause) (o : lit) (fwd bwd : list nat) (a : analyzer) : bool * bool * bool * analyzer :=
  if usePatterns cfg && patternCheck cs o fwd bwd then (true, false, false, a)
  else
    let '(s, a1) := if useSemantic cfg then semanticCheck cfg cs o fwd bwd false a else (false, a) in
    if s then (false, true, false, a1)
    else let '(h, a2) := if useHolistic cfg then semanticCheck cfg cs o fwd bwd true a1 else (false, a1) in (false, false, h, a2).
(** GateAnalyzer.cc:146-177 *)
Definition sisGate (cs : list clause) (o : lit) (a : analyzer) (s : gstats) : bool * analyzer * gstats :=
  if (List.length (occs (blist a) (lneg o)) =? 0)%nat then (false, a, s)
  else
    let (blocked, b1) := isBlockedSet cs o (blist a) in
    let a1 := mkGA b1 (gprob a) (calls a) in
    if blocked then
      let fwd := occs b1 (lneg o) in
      let bwd := occs b1 o in
      let monotonic := isNestedMonotonic (gprob a1) o in
      let '(pattern, semantic, holistic, a2) := if monotonic then (false, false, false, a1) else tests cs o fwd bwd a1 in
      if monotonic || pattern || semantic || holistic then
        let g := addGate cs o fwd bwd (gprob a2) in
        let gt := getGate g o in
        (true, mkGA (bl_remove cs (g_bwd gt) (bl_remove cs (g_fwd gt) (blist a2))) g (calls a2),
         addGateStats pattern semantic holistic (if semantic || holistic then conf (pred (calls a2)) else 0) s)
      else (false, a2, if useSemantic cfg || useHolistic cfg then addUnsuccessfulStats (conf (pred (calls a2))) s else s)
    else (false, a1, s).
(** GateAnalyzer.cc:126-132 *)
Fixpoint stry (cs : list clause) (cand : list lit) (frontier : list lit) (a : analyzer) (s : gstats) : list lit * analyzer * gstats :=
  match cand with
  | [] => (frontier, a, s)
  | o :: r => let '(b, a1, s1) := sisGate cs o a s in
              stry cs r (if b then frontier ++ g_inp (getGate (gprob a1) o) else frontier) a1 s1
  end.
(** GateAnalyzer.cc:118-135 *)
Fixpoint srecognition (fuel : nat) (cs : list clause) (frontier : list lit) (a : analyzer) (s : gstats) : out (analyzer * gstats) :=
  match frontier with
  | [] => Ok (a, s)
  | _ => match fuel with
         | O => Err Fuel
         | S fuel => let '(f, a1, s1) := stry cs frontier [] a s in srecognition fuel cs f a1 s1
         end
  end.
(** GateAnalyzer.cc:66-106 *)
Fixpoint sloop (fuel : nat) (cs : list clause) (n count : nat) (a : analyzer) (s : gstats) : out (analyzer * gstats) :=
  match fuel with
  | O => Err Fuel
  | S fuel =>
    if ((maxTries cfg =? 0)%nat || (count <? maxTries cfg)%nat) && negb (timeout cfg count) then
      let '(stop, rs, b) :=
        if (count =? 0)%nat then (false, unit_ids cs, bl_remove cs (unit_ids cs) (blist a))
        else let (l, b1) := getMinimallyUnblockedLiteral cs n (blist a) in
             match l with
             | Some o => let (rs, b2) := stripUnblockedClauses cs o b1 in (false, rs, b2)
             | None => (true, [], b1)
             end in
      let a1 := mkGA b (gprob a) (calls a) in
      if stop then Ok (a1, s)
      else match rs with
           | [] => sloop fuel cs n (S count) a1 s
           | _ => let a2 := mkGA b (add_roots cs rs (gprob a)) (calls a) in
                  ' (a3, s3) <- srecognition (S (List.length cs)) cs (flat_map (cl cs) rs) a2 s ;;
                  sloop fuel cs n (S count) a3 s3
           end
    else Ok (a, s)
  end.
(** GateAnalyzer.cc:63-116: the result of analyze(), its statistics, and the number of calls of the solver *)
Definition sanalyze (p : cnf) : out (gproblem * gstats * nat) :=
  let cs := problem p in let n := variables p in
  ' (a, s) <- sloop (S (S (List.length cs))) cs n 0 (mkGA (bl_new n cs) (gp_new n) 0) gs_new ;;
  let g := gprob a in
  Ok (mkGP (roots g) (inputs g) (gates g) (remainder g ++ remaining cs (blist a)) (gate_count g) (monoton_gate_count g), s, calls a).
End Run.

(** ** The output *)
Definition num (n : nat) : list nat := dec (N.of_nat n).
(** Main.cc:144-146, 149-151: the entries from the index [i] on *)
Fixpoint histogram (i : nat) (h : list nat) : list nat :=
  match h with [] => [] | c :: r => 32 :: num i ++ 58 :: num c ++ histogram (S i) r end.
(** Main.cc:119-122, 134-153; [rt]: the text of the running time *)
Definition stats_lines (p : cnf) (g : gproblem) (s : gstats) (rt : list nat) : list (list nat) :=
  [ bytes "c Variables: " ++ num (variables p); bytes "c Clauses: " ++ num (List.length (problem p));
    bytes "c RemainingClauses: " ++ num (List.length (remainder g)); bytes "c Gates: " ++ num (gate_count g);
    bytes "c Monoton: " ++ num (monoton_gate_count g); bytes "c Roots: " ++ num (List.length (roots g));
    bytes "c StatsPatterns: " ++ num (st_pat s); bytes "c StatsSemantic: " ++ num (st_sem s); bytes "c StatsHolistic: " ++ num (st_hol s);
    bytes "c HistoConflicts: " ++ histogram 0 (st_hist s); bytes "c HistoConflictsUnsuccessful: " ++ histogram 0 (st_fail s);
    bytes "c Runtime: " ++ rt ].

(** What the analysis meets: the clock, the answers and conflicts of its solver, the text of the running time *)
Record gworld := mkGW { gw_timeout : nat -> bool; gw_solver : nat -> cnf -> bool; gw_conf : nat -> nat; gw_time : list nat }.
(** GateAnalyzer.h:50-59, GateAnalyzer.cc:34-46; maxTries is unsigned and the option is not negative *)
Definition gate_cfg (os : list opt) (gw : gworld) : GateModel.config :=
  let m := get_int os "gate-recognition-method" in
  GateModel.mkCfg (Z.to_nat (get_int os "gate-tries")) (negb ((m =? 1) || (m =? 2)))%Z ((m =? 1) || (m =? 10) || (m =? 11))%Z ((m =? 2) || (m =? 11))%Z
    (gw_timeout gw) (gw_solver gw).
(** Main.cc:206-222 with the branch for gate-stats, which MainModel.v leaves open *)
Definition gs_with_problem (B : nat) (w : world) (gw : gworld) (os : list opt) (p : cnf) : ending :=
  let limit := get_int os "test-limit" in
  match get_text os "certified-output", get_bool os "test-proof" with
  | Err _, true => Crashes
  | _, _ =>
    if (0 <? limit)%Z && (limit <? Z.of_nat (variables p))%Z then Exits 0 []
    else if get_bool os "gate-stats" then
      match sanalyze (gate_cfg os gw) (gw_conf gw) p with
      | Ok (g, s, _) => Exits 0 (stats_lines p g s (gw_time gw))
      | Err UB => Crashes
      | Err _ => Silent
      end
    else with_problem B w os p
  end.
(** Main.cc:187-204 *)
Definition gs_program (B : nat) (w : world) (gw : gworld) (args : list string) : ending :=
  match parse_options true cli_options args with
  | Help => Exits 0 []
  | Unknown _ => Exits 1 []
  | Range => Exits 1 []
  | Done os kept =>
    match (match main_input (w_garbage w) args kept with
           | Stdin => Ok (Some (w_stdin w)) | File f => Ok (w_files w f) | NullName => Err UB end) with
    | Err _ => Crashes
    | Ok None => Exits 1 [w_what w]
    | Ok (Some text) =>
      match readDimacs B (w_junk w 0) text cnf_empty with
      | PThrow => Exits 1 [w_what w]
      | PUB => Crashes
      | PFuel => Silent
      | POk p => gs_with_problem B w gw os p
      end
    end
  end.
