(** C58: the variants of implicit learning. *)
Require Import String List Arith Bool NArith ZArith QArith Permutation.
Require Import Verif.Base Verif.Outcome Verif.CNFModel Verif.TrailModel Verif.TrailSpec.
Require Import Verif.GateModel Verif.GateSpec Verif.GateMore Verif.MiterModel Verif.MiterSpec Verif.BranchModel Verif.BranchSpec Verif.BranchAdvice Verif.BranchCases.
Require Import Verif.SimModel Verif.SimSpec Verif.SimProp Verif.SimCases Verif.RsilModel Verif.RsilSpec Verif.RsilVan Verif.RsilGen Verif.RsilMain Verif.RsilCases.
Import ListNotations.
Open Scope list_scope.
Open Scope nat_scope.

(** Whatever the variant, once initialised with conjectures about known variables: every call delivers an unassigned decision variable if
    VSIDS would find one, and never anything else than an unassigned decision variable. *)
Theorem C58_picks : forall A k maxSize B cls bbs n v v0 bb half calls, 2 <= maxSize -> good_conjectures n cls bbs -> searching A n calls ->
  exists h rs h', h_init A k maxSize B (Ok (Some (cls, bbs))) n v (h_new A v0 bb half) = Ok h /\ h_picks A k calls h = Ok (rs, h') /\
  Forall2 (fun c r => good_pick (fst c) r /\ (option_map lvar r = option_map lvar (vsids_pick A c) \/ r <> None)) calls rs.
Proof. exact picks_ok. Qed.
Print Assumptions C58_picks.

(** Without conjectures the decisions are those of VSIDS. *)
Theorem C58_no_conjectures : forall A k maxSize B n v v0 bb half calls, searching A n calls ->
  exists h h', h_init A k maxSize B (Ok None) n v (h_new A v0 bb half) = Ok h /\ h_picks A k calls h = Ok (map (vsids_pick A) calls, h').
Proof. exact picks_not_ready. Qed.
Print Assumptions C58_no_conjectures.

(** ** Vanishing *)
(** The generator never reaches the state 0, in which it would stay. *)
Theorem C58_random_nonzero : forall i s, (0 < s < 2 ^ 64)%N -> (0 < random s i < 2 ^ 64)%N.
Proof. exact random_nonzero. Qed.
Print Assumptions C58_random_nonzero.

(** Call [i] of makeRSILDecision asks for [h] zero bits of the [i]-th random number, where [h] grows by one (up to 64) after the first
    half-life and after each further one.  [first] and [half] are the option; with init(conjectures, ..., halflife), [half] is that number
    and [first] still the option. *)
Theorem C58_schedule : forall first half k i, (1 <= first < 2 ^ 64)%N -> (1 <= half < 2 ^ 64)%N -> i < k ->
  nth i (decisions k (van_init half (van_new first))) false = N.eqb (random 65535 i mod 2 ^ halvings first half (N.of_nat i)) 0.
Proof. intros first half k i H1 H2 H3. exact (schedule 65535 first half k i H1 H2 H3). Qed.
Print Assumptions C58_schedule.

(** After 64 half-lives implicit learning is not used any more: the decisions are those of VSIDS. *)
Theorem C58_vanished : forall A maxSize cls bbs n v v0 bb half, 2 <= maxSize -> good_conjectures n cls bbs -> (1 <= half < 2 ^ 64)%N ->
  forall B h calls rs h' i c, h_init A Vanishing maxSize B (Ok (Some (cls, bbs))) n v (h_new A v0 bb half) = Ok h -> h_picks A Vanishing calls h = Ok (rs, h') ->
  (64 * half <= N.of_nat i)%N -> nth_error calls i = Some c -> nth_error rs i = Some (vsids_pick A c).
Proof. exact vanished_picks. Qed.
Print Assumptions C58_vanished.

(** In the first half-life the decisions are those of the unrestricted variant.  Partial: a decision takes one or two of the calls that
    are counted, so this is only shown for half as many decisions as the option says; for all of them it is false. *)
Theorem C58_vanishing_full_partial : forall A maxSize cls bbs n v v0 bb half, 2 <= maxSize -> good_conjectures n cls bbs -> (1 <= half < 2 ^ 64)%N ->
  forall B B' h g calls rs h', h_init A Vanishing maxSize B (Ok (Some (cls, bbs))) n v (h_new A v0 bb half) = Ok h ->
  h_init A Unrestricted maxSize B' (Ok (Some (cls, bbs))) n v (h_new A v0 bb half) = Ok g -> h_picks A Vanishing calls h = Ok (rs, h') ->
  (2 * N.of_nat (length calls) <= half)%N -> exists g', h_picks A Unrestricted calls g = Ok (rs, g').
Proof. exact full_picks. Qed.
Print Assumptions C58_vanishing_full_partial.

Theorem C58_halflife_refuted : exists n cls bbs calls h g rs1 rs2 h' g', good_conjectures n cls bbs /\ searching Qarith n calls /\
  h_init Qarith Vanishing 3 0 (Ok (Some (cls, bbs))) n v_start (h_new Qarith v_start false 3) = Ok h /\
  h_init Qarith Unrestricted 3 0 (Ok (Some (cls, bbs))) n v_start (h_new Qarith v_start false 3) = Ok g /\
  h_picks Qarith Vanishing calls h = Ok (rs1, h') /\ h_picks Qarith Unrestricted calls g = Ok (rs2, g') /\ length calls = 3 /\ rs1 <> rs2.
Proof. exact halflife_short. Qed.
Print Assumptions C58_halflife_refuted.

(** ** Budgets *)
(** Between two inits, with the budget [B], the decisions on a variable that differ from those of VSIDS are at most [B] for each other member
    of its class (none if the class is larger than the table allows), at most [B] for a backbone variable, and none for any other. *)
Theorem C58_budget : forall A maxSize cls bbs n v v0 bb half, 2 <= maxSize -> good_conjectures n cls bbs ->
  forall B h calls rs h' y, h_init A Budgeted maxSize B (Ok (Some (cls, bbs))) n v (h_new A v0 bb half) = Ok h -> h_picks A Budgeted calls h = Ok (rs, h') -> (B < 2 ^ 31)%N ->
  (forall c l, In c cls -> In l c -> lvar l = y -> (N.of_nat (length (overrides A y calls rs)) <= if (length c <=? maxSize)%nat then B * N.of_nat (length c - 1) else 0)%N) /\
  (forall l, In l bbs -> lvar l = y -> (N.of_nat (length (overrides A y calls rs)) <= B)%N) /\
  (~ In y (map lvar (concat cls ++ bbs)) -> overrides A y calls rs = []).
Proof. exact budget_picks. Qed.
Print Assumptions C58_budget.

(** As long as there were at most [B] decisions, they are those of the unrestricted variant. *)
Theorem C58_budget_full : forall A maxSize cls bbs n v v0 bb half, 2 <= maxSize -> good_conjectures n cls bbs ->
  forall B B' h g calls rs h', h_init A Budgeted maxSize B (Ok (Some (cls, bbs))) n v (h_new A v0 bb half) = Ok h ->
  h_init A Unrestricted maxSize B' (Ok (Some (cls, bbs))) n v (h_new A v0 bb half) = Ok g -> h_picks A Budgeted calls h = Ok (rs, h') -> (B < 2 ^ 31)%N ->
  (N.of_nat (length calls) <= B)%N -> exists g', h_picks A Unrestricted calls g = Ok (rs, g').
Proof. exact budget_full_picks. Qed.
Print Assumptions C58_budget_full.

(** The conjectures are generated at the first init only: at a later one the result of the generation has no influence, the advice and the
    state of the vanishing variant stay ... *)
Theorem C58_init_again : forall A k maxSize B gen n v h, h_blocked h = true ->
  exists h2, h_init A k maxSize B gen n v h = Ok h2 /\ h_blocked h2 = true /\ h_van h2 = h_van h /\ rs_vsids A (h_core h2) = v /\
    rs_ready A (h_core h2) = rs_ready A (h_core h) /\ rs_bb A (h_core h2) = rs_bb A (h_core h) /\
    same_adv (rs_adv A (h_core h)) (rs_adv A (h_core h2)) /\ (k <> Budgeted -> rs_adv A (h_core h2) = rs_adv A (h_core h)).
Proof. exact init_again. Qed.
Print Assumptions C58_init_again.
(** ... but the budgets are filled again: with a budget of 1 and one other member in its class, a variable gets two such decisions. *)
Theorem C58_refill_refuted : exists n cls c y calls h rs1 h1 h2 rs2 h3, good_conjectures n cls [] /\ cls = [c] /\ In y (map lvar c) /\ length c = 2 /\ searching Qarith n calls /\
  h_init Qarith Budgeted 2 1 (Ok (Some (cls, []))) n v_start (h_new Qarith v_start false 1) = Ok h /\ h_picks Qarith Budgeted calls h = Ok (rs1, h1) /\
  h_init Qarith Budgeted 2 1 (Ok None) n v_start h1 = Ok h2 /\ h_picks Qarith Budgeted calls h2 = Ok (rs2, h3) /\
  length (overrides Qarith y calls rs1) = 1 /\ length (overrides Qarith y calls rs2) = 1.
Proof. exact refill. Qed.
Print Assumptions C58_refill_refuted.

(** ** Generation of the conjectures *)
(** Conjectures are used exactly if no time limit was hit, there are enough gates, the structure is that of a miter if this is asked for, and
    something is left after the filters.  Before the filters ([cls], [bbs]) they are exact: the backbones are the outputs with a constant
    value in all rounds, two other outputs are in a class if and only if they agreed in all rounds.  Those used are about variables of the
    problem, none in two classes, and are the ones that pass the filters. *)
Theorem C58_generate : forall o cfg ord_f K sched fills init p g, wf_problem (variables p) (problem p) -> analyze cfg p = Ok g -> (forall l, Permutation (ord_f l) l) ->
  simulable K fills init p g ->
  exists r ord hist cls bbs, generateConjectures o cfg ord_f K sched fills init p = Ok r /\
  readGates None (problem p) (gates g) (root_lits p g) = Ok ord /\ sim_steps K ord fills init = Ok hist /\
  (forall l, In l bbs <-> In (lvar l) (outputs ord) /\ always K hist l) /\
  (forall l m, In (lvar l) (outputs ord) -> In (lvar m) (outputs ord) -> lvar l <> lvar m ->
     (alike K hist l m <-> (exists c, In c cls /\ ((In l c /\ In m c) \/ (In (lneg l) c /\ In (lneg m) c))) \/
                           (In l bbs /\ In m bbs) \/ (In (lneg l) bbs /\ In (lneg m) bbs))) /\
  (forall c, In c cls -> 2 <= length c /\ forall l, In l c -> In (lvar l) (outputs ord)) /\
  match r with
  | Some (cls', bbs') => simulation_wanted o p g (miter_like (problem p) (gates g) (root_lits p g)) /\
      (forall c, In c cls' <-> In c cls /\ (0 < ro_max o -> length c <= ro_max o)) /\ (forall l, In l bbs' <-> In l bbs /\ ro_nobb o = false) /\
      (cls' <> [] \/ bbs' <> []) /\ good_conjectures (variables p) cls' bbs'
  | None => ~ simulation_wanted o p g (miter_like (problem p) (gates g) (root_lits p g)) \/
      ((forall c, In c cls -> 0 < ro_max o < length c) /\ (bbs = [] \/ ro_nobb o = true))
  end.
Proof. exact generate_ok. Qed.
Print Assumptions C58_generate.

(** the size of the table in init(conjectures, ...): one more than the largest variable *)
Theorem C58_max_var : forall cls bbs, (forall l, In l (concat cls ++ bbs) -> lvar l <= getMaxVar (cls, bbs)) /\
  (getMaxVar (cls, bbs) = 0 \/ exists l, In l (concat cls ++ bbs) /\ lvar l = getMaxVar (cls, bbs)).
Proof. exact max_var. Qed.
Print Assumptions C58_max_var.
Theorem C58_count_equivalences : forall cls bbs, countLiteralEquivalences (cls, bbs) = length (flat_map pairs_of cls).
Proof. exact count_equivalences. Qed.
Print Assumptions C58_count_equivalences.

(** ** The choice of the variant *)
(** Partial: for the modes vanishing and implicationbudgeted this is false. *)
Theorem C58_builder_partial : forall static lrb vsidsc rsil size mode,
  (lrb = true \/ rsil = false -> createSolver static lrb vsidsc rsil size mode = Some (requested static lrb vsidsc rsil size Unrestricted)) /\
  (lrb = false -> rsil = true -> ~ In mode ["unrestricted"; "vanishing"; "implicationbudgeted"]%string -> createSolver static lrb vsidsc rsil size mode = None) /\
  (lrb = false -> rsil = true -> mode = "unrestricted"%string -> 2 <= size <= 3 -> createSolver static lrb vsidsc rsil size mode = Some (requested static lrb vsidsc rsil size Unrestricted)).
Proof. exact builder_ok. Qed.
Print Assumptions C58_builder_partial.
(** Each of them gives the other. *)
Theorem C58_builder_refuted : forall static vsidsc size, 2 <= size <= 3 ->
  createSolver static false vsidsc true size "vanishing" = Some (requested static false vsidsc true size Budgeted) /\
  createSolver static false vsidsc true size "implicationbudgeted" = Some (requested static false vsidsc true size Vanishing).
Proof. exact builder_swapped. Qed.
Print Assumptions C58_builder_refuted.

(** The hypotheses hold in non-trivial cases; the decisions really differ. *)
Example C58_case : searching Qarith 4 (map after ess0) /\ good_conjectures 4 the_classes the_backbones /\
  map (vsids_pick Qarith) (map after ess0) = [Some (mkLit 0 true); Some (mkLit 3 true); Some (mkLit 2 true)] /\
  outs Unrestricted (startq Unrestricted 3 0 1 the_classes the_backbones 4) ess0 = Some [Some (mkLit 0 true); Some (mkLit 3 true); Some (mkLit 1 true)] /\
  outs Vanishing (startq Vanishing 3 0 6 the_classes the_backbones 4) ess0 = Some [Some (mkLit 0 true); Some (mkLit 3 true); Some (mkLit 1 true)] /\
  outs Budgeted (startq Budgeted 3 1 1 the_classes the_backbones 4) (ess0 ++ ess0) = Some [Some (mkLit 0 true); Some (mkLit 3 true); Some (mkLit 1 true); Some (mkLit 0 true); Some (mkLit 1 false); Some (mkLit 2 false)].
Proof. exact kinds_case. Qed.
Example C58_generate_case : simulable 2 sfills (repeat [0; 0]%N 5) (mkCnf scase 5) scase_g /\
  generateConjectures (mkRO 0 1 false 0 false false false) plain_cfg (fun l => l) 2 log_sched sfills (repeat [0; 0]%N 5) (mkCnf scase 5) = Ok (Some ([[5; 3; 1]], [])) /\
  generateConjectures (mkRO 2 5 false 3 true false false) plain_cfg (fun l => l) 2 log_sched sfills (repeat [0; 0]%N 5) (mkCnf scase 5) = Ok (Some ([[5; 3; 1]], [])) /\
  generateConjectures (mkRO 0 1 true 0 false false false) plain_cfg (fun l => l) 2 log_sched sfills (repeat [0; 0]%N 5) (mkCnf scase 5) = Ok None /\
  generateConjectures (mkRO 0 1 false 2 false false false) plain_cfg (fun l => l) 2 log_sched sfills (repeat [0; 0]%N 5) (mkCnf scase 5) = Ok None /\
  generateConjectures (mkRO 3 5 false 0 false false false) plain_cfg (fun l => l) 2 log_sched sfills (repeat [0; 0]%N 5) (mkCnf scase 5) = Ok None.
Proof. exact generate_case. Qed.
