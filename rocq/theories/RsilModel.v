(** Model of the variants of the branching heuristic with implicit learning (systems/branching/rsil/BranchingHeuristics.h and .cc), of how they
    get their conjectures (also randomsimulation/Conjectures.cc, frontend/RandomSimulationFrontend.h) and of the choice between them
    (frontend/CandyBuilder.h and .cc).  The common part (getAdvice, getSignAdvice, pickBranchLit) is in BranchModel. *)
Require Import String List Arith Bool NArith ZArith.
Require Import Verif.Base Verif.Outcome Verif.CNFModel Verif.TrailModel Verif.GateModel Verif.HeurModel Verif.MiterModel Verif.SimModel Verif.BranchModel.
Import ListNotations.
Open Scope list_scope.
Open Scope nat_scope.

(** ** Vanishing *)
(** BranchingHeuristics.h:381-392 and the generator m_rng, the state of FastRand.h:29-64 *)
Record vanish := mkVan { v_rng : N; v_calls : N; v_half : N; v_mask : N }.
(** :361-365 and :171: the constructor; [half] is the option rsil-van-halflife *)
Definition van_new (half : N) : vanish := mkVan 65535 half half 0.
(** :352-355: init with conjectures and a half-life, which only sets m_probHalfLife *)
Definition van_init (half : N) (v : vanish) : vanish := mkVan (v_rng v) (v_calls v) half (v_mask v).
(** :530-541; the counter is a uint64_t, it wraps below 0 *)
Definition makeRSILDecision (v : vanish) : bool * vanish :=
  let r := rnd (v_rng v) in
  let c := wtrunc (v_calls v + (W64 - 1))%N in
  (N.eqb (N.land r (v_mask v)) 0,
   if N.eqb c 0 then mkVan r (v_half v) (v_half v) (N.lor (wtrunc (N.shiftl (v_mask v) 1)) 1) else mkVan r c (v_half v) (v_mask v)).

Section Numbers.
Variable A : arith.

(** BranchingHeuristics.cc:54-79, 121-146 *)
Definition van_pick (t : trail_t) (b : rsil A) (s : vanish) : out (option lit * rsil A * vanish) :=
  if rs_ready A b then
    let '(g1, s1) := makeRSILDecision s in
    '(x, m) <- (if g1 then getAdvice t (rs_adv A b) else Ok (None, rs_adv A b)) ;;
    match x with
    | Some p => Ok (Some p, mkRSIL A (rs_vsids A b) m true (rs_bb A b), s1)
    | None =>
      '(y, v) <- vs_pick A t (rs_vsids A b) ;;
      match y with
      | None => Ok (None, mkRSIL A v m true (rs_bb A b), s1)
      | Some p =>
        let '(g2, s2) := makeRSILDecision s1 in
        let '(q, m1) := if g2 then getSignAdvice (rs_bb A b) p m else (p, m) in
        Ok (Some q, mkRSIL A v m1 true (rs_bb A b), s2)
      end
    end
  else '(y, v) <- vs_pick A t (rs_vsids A b) ;; Ok (y, mkRSIL A v (rs_adv A b) false (rs_bb A b), s).

(** ** Budgets *)
(** ImplicitLearningAdvice.h:246-249: the unsigned budget is stored in an int *)
Definition to_int (b : N) : Z := if (b <? 2147483648)%N then Z.of_N b else (Z.of_N b - 4294967296)%Z.
Fixpoint set_first (k : nat) (b : Z) (l : list Z) : list Z :=
  match k, l with S k, _ :: r => b :: set_first k b r | _, _ => l end.
(** BranchingHeuristics.h:278-296: the loops of init over the entries and their literals *)
Definition set_budgets (b : N) (m : list advice) : list advice :=
  map (fun a => mkAdv (a_lits a) (a_bb a) (option_map (set_first (length (a_lits a)) (to_int b)) (a_bud a))) m.
End Numbers.

(** ** Conjectures: (classes, backbones) *)
Definition conjectures := (list (list lit) * list lit)%type.
(** Conjectures.cc:83-95 *)
Definition getMaxVar (c : conjectures) : var :=
  fold_left (fun r cls => fold_left (fun r l => Nat.max r (lvar l)) cls r) (fst c) (fold_left (fun r l => Nat.max r (lvar l)) (snd c) 0).
(** Conjectures.cc:99-104, without the wrap at 2^64 *)
Definition countLiteralEquivalences (c : conjectures) : nat :=
  fold_left (fun r cls => r + (length cls * length cls - length cls) / 2) (fst c) 0.
(** Conjectures.cc:138-151 *)
Definition size_filter (max : nat) (c : conjectures) : conjectures := (filter (fun cls => length cls <=? max) (fst c), snd c).
(** Conjectures.cc:172-180 *)
Definition backbone_filter (c : conjectures) : conjectures := (fst c, []).
(** RandomSimulationFrontend.h:55-67 *)
Definition filtered (maxSize : nat) (removeBackbones : bool) (c : conjectures) : conjectures :=
  let c1 := if 0 <? maxSize then size_filter maxSize c else c in
  if removeBackbones then backbone_filter c1 else c1.

(** the options that generateConjectures and the simulation read: -rsil-min-gate-frac as a fraction (the code multiplies doubles),
    -rsil-only-miters, -rs-max-conj-size, -rs-remove-backbone-conj; the two timeouts as they happen to be *)
Record rsil_opts := mkRO { ro_num : nat; ro_den : nat; ro_miters : bool; ro_max : nat; ro_nobb : bool; ro_gate_timeout : bool; ro_sim_timeout : bool }.
(** BranchingHeuristics.h:128-155 and RandomSimulationFrontend.h:52-70.  [order] is the iteration order in the test for miters, [fills] the
    drawn inputs, one for each executed step (RandomSimulator.cc:101-132), [init] the memory of the vectors. *)
Definition generateConjectures (o : rsil_opts) (cfg : config) (ord_f : list var -> list var) (K : nat) (sched : nat -> bool)
    (fills : list (var -> vec)) (init : vectors) (p : cnf) : out (option conjectures) :=
  g <- analyze cfg p ;;
  if ro_gate_timeout o then Ok None
  else if gate_count g * ro_den o <=? ro_num o * variables p then Ok None
  else
    ok <- (if ro_miters o then hasPossiblyMiterStructure ord_f (problem p) (gates g) (flat_map (cl (problem p)) (roots g)) else Ok true) ;;
    if negb ok then Ok None
    else
      ord <- readGates None (problem p) (gates g) (flat_map (cl (problem p)) (roots g)) ;;
      if ro_sim_timeout o then Ok None
      else
        '(_, c) <- SimModel.run K sched ord fills init ;;
        let c1 := filtered (ro_max o) (ro_nobb o) c in
        Ok (match c1 with ([], []) => None | _ => Some c1 end).

(** ** The object *)
Inductive kind := Unrestricted | Vanishing | Budgeted.
(** BranchingHeuristics.h:74-82, 381-392.  The backbone flag is not set by the constructor; it is only read when the table is ready. *)
Record heur (A : arith) := mkHeur { h_core : rsil A; h_blocked : bool; h_van : vanish }.
Arguments mkHeur {A}. Arguments h_core {A}. Arguments h_blocked {A}. Arguments h_van {A}.

Section Object.
Variable A : arith.
(** the constructors: BranchingHeuristics.h:168-172, 361-365; [v] the new VSIDS object, [bb] the flag that is not set *)
Definition h_new (v : vsids A) (bb : bool) (half : N) : heur A := mkHeur (mkRSIL A v [] false bb) false (van_new half).
(** init(problem): BranchingHeuristics.h:98-108, 278-286, 348-350, of an object that was not given conjectures by the other init.  [v] is the state of VSIDS after its init, [gen] the result of
    generateConjectures, [n] the number of variables of the problem, [maxSize] the template parameter. *)
Definition h_init (k : kind) (maxSize : nat) (budget : N) (gen : out (option conjectures)) (n : nat) (v : vsids A) (h : heur A) : out (heur A) :=
  h1 <- (if h_blocked h then Ok (mkHeur (mkRSIL A v (rs_adv A (h_core h)) (rs_ready A (h_core h)) (rs_bb A (h_core h))) true (h_van h))
         else c <- gen ;;
              match c with
              | None => Ok (mkHeur (mkRSIL A v (rs_adv A (h_core h)) (rs_ready A (h_core h)) (rs_bb A (h_core h))) true (h_van h))
              | Some (cls, bbs) =>
                m <- adv_init maxSize (match k with Budgeted => true | _ => false end) cls bbs n ;;
                Ok (mkHeur (mkRSIL A v m true (negb (length bbs =? 0))) true (h_van h))
              end) ;;
  match k with
  | Budgeted => Ok (mkHeur (mkRSIL A (rs_vsids A (h_core h1)) (set_budgets budget (rs_adv A (h_core h1))) (rs_ready A (h_core h1)) (rs_bb A (h_core h1))) (h_blocked h1) (h_van h1))
  | _ => Ok h1
  end.
(** pickBranchLit of the three classes; [t] and [v] are the trail and VSIDS as the search has left them *)
Definition h_pick (k : kind) (t : trail_t) (v : vsids A) (h : heur A) : out (option lit * heur A) :=
  let b := mkRSIL A v (rs_adv A (h_core h)) (rs_ready A (h_core h)) (rs_bb A (h_core h)) in
  match k with
  | Vanishing => '(r, b1, s) <- van_pick A t b (h_van h) ;; Ok (r, mkHeur b1 (h_blocked h) s)
  | _ => '(r, b1) <- rs_pick A true true t b ;; Ok (r, mkHeur b1 (h_blocked h) (h_van h))
  end.
(** a sequence of calls *)
Fixpoint h_picks (k : kind) (calls : list (trail_t * vsids A)) (h : heur A) : out (list (option lit) * heur A) :=
  match calls with
  | [] => Ok ([], h)
  | (t, v) :: calls' => '(r, h1) <- h_pick k t v h ;; '(rs, h2) <- h_picks k calls' h1 ;; Ok (r :: rs, h2)
  end.
End Object.

(** ** CandyBuilder.h:33-80, CandyBuilder.cc:29-142 *)
Inductive branching := VSIDS | VSIDSC | LRB | RSIL (k : kind) (adviceSize : nat).
(** the type built: Solver<StaticPropagate or Propagate, ConflictAnalysis, ...> *)
Record solver_type := mkST { st_static : bool; st_branching : branching }.
Definition branchWithRSILUnrestricted (size : nat) (s : solver_type) := mkST (st_static s) (RSIL Unrestricted size).
(** :56-58, 68-70 *)
Definition branchWithRSILBudgeted (size : nat) (s : solver_type) := mkST (st_static s) (RSIL Vanishing size).
(** :60-62, 72-74 *)
Definition branchWithRSILVanishing (size : nat) (s : solver_type) := mkST (st_static s) (RSIL Budgeted size).
Definition propagateStaticClauses (s : solver_type) := mkST true (st_branching s).
(** CandyBuilder.cc:37-50; None: std::invalid_argument is thrown *)
Definition getRSILMode (mode : string) : option kind :=
  if String.eqb mode "unrestricted" then Some Unrestricted
  else if String.eqb mode "vanishing" then Some Vanishing
  else if String.eqb mode "implicationbudgeted" then Some Budgeted else None.
(** CandyBuilder.cc:58-142; None: an exception *)
Definition createSolver (static lrb vsidsc rsil : bool) (adv_size : nat) (mode : string) : option solver_type :=
  let builder := mkST false VSIDS in
  let stat s := if static then propagateStaticClauses s else s in
  if lrb then Some (stat (mkST false LRB))
  else if rsil then
    match getRSILMode mode with
    | None => None
    | Some m =>
      if (adv_size =? 3) || (adv_size =? 2) then
        Some (match m with
              | Unrestricted => branchWithRSILUnrestricted adv_size (stat builder)
              | Vanishing => branchWithRSILVanishing adv_size (stat builder)
              | Budgeted => branchWithRSILBudgeted adv_size (stat builder)
              end)
      else Some builder
    end
  else if vsidsc then Some (stat (mkST false VSIDSC))
  else Some (stat builder).
