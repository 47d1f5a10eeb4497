(** The graph library [teexgraph/] as far as the branching heuristic VSIDSC uses it: building a graph,
    making it undirected, weakly connected components, betweenness centrality; and the centrality part of
    [systems/branching/VSIDSC.h].

    The vectors [E], [rE], [hasSelfLoop] have the fixed length [maxn]; they are functions here, and every
    place where the code could leave them is checked in the model: [addEdge] has the test itself
    (Graph.cpp:62-64), the other functions only use indices below [n] or taken from the lists.  The checks
    that are not in the code end in the outcome [UB].  [map<nodeidtype,int>] with ids in order of
    insertion is the list of its keys. *)
From Coq Require Import List Arith Bool QArith.
Import ListNotations.
From Verif Require Import Base Outcome.
Open Scope nat_scope.

(** Graph.cpp:248-310: the results of [computeWCC]; [doneWCC] is [g_wcc <> None]. *)
Record wcc := mkWcc { w_id : nat -> nat; w_nodes : nat -> nat; w_edges : nat -> nat; w_largest : nat; w_count : nat }.

(** Graph.h:131-160; the data of strongly connected components and of BoundingDiameters is left out,
    VSIDSC does not use it. *)
Record graph := mkGraph {
  g_max : nat;
  g_keys : list nat;
  g_E : nat -> list nat;
  g_rE : nat -> list nat;
  g_loop : nat -> bool;
  g_n : nat;
  g_m : nat;
  g_selfm : nat;
  g_sorted : bool;
  g_undir : bool;
  g_wcc : option wcc
}.

(** [v[i] = x] for a vector. *)
Definition upd {A} (f : nat -> A) (i : nat) (x : A) : nat -> A := fun j => if j =? i then x else f j.

(** Graph.cpp:16-38: constructor and [clear]; the assertion [nmax > 0] is met by the only caller
    (VSIDSC.h:450). *)
Definition emptyGraph (nmax : nat) : graph :=
  mkGraph nmax [] (fun _ => []) (fun _ => []) (fun _ => false) 0 0 0 false false None.

(** Position of a key, the value [nodeMapping[i]] of Graph.cpp:42-49. *)
Fixpoint keyPos (l : list nat) (x : nat) : option nat :=
  match l with
  | [] => None
  | k :: r => if k =? x then Some 0 else match keyPos r x with Some p => Some (S p) | None => None end
  end.

(** Graph.cpp:42-49.  [nexti] is the number of keys. *)
Definition mapNode (g : graph) (x : nat) : graph * nat :=
  match keyPos (g_keys g) x with
  | Some p => (g, p)
  | None => (mkGraph (g_max g) (g_keys g ++ [x]) (g_E g) (g_rE g) (g_loop g) (g_n g) (g_m g) (g_selfm g)
                     (g_sorted g) (g_undir g) (g_wcc g), length (g_keys g))
  end.

(** Graph.cpp:53-55. *)
Definition revMapNode (g : graph) (i : nat) : nat := nth i (g_keys g) 0.

(** [size() == 0] for a list. *)
Definition emptyList {A} (l : list A) : bool := match l with [] => true | _ => false end.

(** Graph.cpp:59-91.  Indices are not negative here. *)
Definition addEdge (g : graph) (u v : nat) : graph :=
  if (g_max g <=? u) || (g_max g <=? v) then g
  else
    let n1 := if emptyList (g_rE g v) && emptyList (g_E g v) then S (g_n g) else g_n g in
    let n2 := if negb (v =? u) && emptyList (g_rE g u) && emptyList (g_E g u) then S n1 else n1 in
    mkGraph (g_max g) (g_keys g)
            (upd (g_E g) u (g_E g u ++ [v])) (upd (g_rE g) v (g_rE g v ++ [u]))
            (if u =? v then upd (g_loop g) u true else g_loop g)
            n2 (S (g_m g)) (if u =? v then S (g_selfm g) else g_selfm g) false false None.

(** [sort] of a vector of integers (Graph.cpp:128,131): the sorted permutation is unique. *)
Fixpoint insertSorted (x : nat) (l : list nat) : list nat :=
  match l with
  | [] => [x]
  | y :: r => if x <=? y then x :: l else y :: insertSorted x r
  end.
Definition sortList (l : list nat) : list nat := fold_right insertSorted [] l.

(** [unique] with [erase] (Graph.cpp:130,132): drops elements equal to their predecessor. *)
Fixpoint unique (l : list nat) : list nat :=
  match l with
  | [] => []
  | x :: r => match r with
              | [] => [x]
              | y :: _ => if x =? y then unique r else x :: unique r
              end
  end.

Definition sortUnique (l : list nat) : list nat := unique (sortList l).

(** Graph.cpp:122-142.  Only the lists of the nodes below [n] are touched. *)
Definition sortEdgeList (g : graph) : graph :=
  if g_sorted g then g
  else
    let E' := fun i => if i <? g_n g then sortUnique (g_E g i) else g_E g i in
    let rE' := fun i => if i <? g_n g then sortUnique (g_rE g i) else g_rE g i in
    mkGraph (g_max g) (g_keys g) E' rE' (g_loop g) (g_n g)
            (fold_left (fun m i => m + length (E' i)) (seq 0 (g_n g)) 0) (g_selfm g) true (g_undir g) (g_wcc g).

(** Graph.cpp:228-234: the loop that adds the reversed edges, over the nodes [is]; [z] is read before
    the inner loop, so the inner loop runs over the list as it is then. *)
Definition addReversed (E : nat -> list nat) (is : list nat) : nat -> list nat :=
  fold_left (fun E i => fold_left (fun E w => upd E w (E w ++ [i])) (E i) E) is E.

(** Graph.cpp:215-244. *)
Definition makeUndirected (g : graph) : graph :=
  if g_undir g then g
  else
    let g1 := mkGraph (g_max g) (g_keys g) (addReversed (g_E g) (seq 0 (g_n g)))
                      (fun i => if i <? g_n g then [] else g_rE g i)
                      (g_loop g) (g_n g) (g_m g) (g_selfm g) false (g_undir g) (g_wcc g) in
    let g2 := sortEdgeList g1 in
    mkGraph (g_max g2) (g_keys g2) (g_E g2) (g_rE g2) (g_loop g2) (g_n g2) (g_m g2) (g_selfm g2)
            (g_sorted g2) true None.

(** ** Weakly connected components *)

(** The vectors while [computeWCC] runs. *)
Record wst := mkWst { x_id : nat -> nat; x_nodes : nat -> nat; x_edges : nat -> nat }.

(** Graph.cpp:267-269, 277-279 and 287-289: a node gets the number [c] of its component.  [wccNodes] and
    [wccEdges] have length [n] (Graph.cpp:254-255), so the number [c] has to be below [n]. *)
Definition wccMark (g : graph) (c : nat) (s : wst) (v : nat) : out wst :=
  if (v <? g_n g) && (c <? g_n g) then
    Ok (mkWst (upd (x_id s) v c) (upd (x_nodes s) c (S (x_nodes s c)))
              (upd (x_edges s) c (x_edges s c + length (g_E g v) + length (g_rE g v))))
  else Err UB.

(** Graph.cpp:275-282 and 285-292: the loop over the neighbours. *)
Fixpoint wccVisit (g : graph) (c : nat) (s : wst) (q : list nat) (ns : list nat) : out (wst * list nat) :=
  match ns with
  | [] => Ok (s, q)
  | w :: r =>
      if w <? g_n g then
        if x_id s w =? 0 then s' <- wccMark g c s w ;; wccVisit g c s' (q ++ [w]) r
        else wccVisit g c s q r
      else Err UB
  end.

(** The neighbours visited from a node: [E], then [rE] unless the graph is undirected
    (Graph.cpp:274-293). *)
Definition wccNbrs (g : graph) (v : nat) : list nat := g_E g v ++ (if g_undir g then [] else g_rE g v).

(** Graph.cpp:271-294. *)
Fixpoint wccLoop (fuel : nat) (g : graph) (c : nat) (s : wst) (q : list nat) : out wst :=
  match fuel with
  | 0 => Err Fuel
  | S f =>
      match q with
      | [] => Ok s
      | v :: q' => ' (s', q2) <- wccVisit g c s q' (wccNbrs g v) ;; wccLoop f g c s' q2
      end
  end.

(** Graph.cpp:262-299: the loop over the nodes; the state, [c] and [largestWCC].  Fuel: every node enters
    the queue at most once. *)
Fixpoint wccNodesLoop (g : graph) (is : list nat) (s : wst) (c largest : nat) : out (wst * nat * nat) :=
  match is with
  | [] => Ok (s, c, largest)
  | i :: r =>
      if 0 <? x_id s i then wccNodesLoop g r s c largest
      else
        s1 <- wccMark g c s i ;;
        s2 <- wccLoop (S (S (g_n g))) g c s1 [i] ;;
        wccNodesLoop g r s2 (S c) (if x_nodes s2 largest <? x_nodes s2 c then c else largest)
  end.

(** Graph.cpp:248-310. *)
Definition computeWCC (g : graph) : out graph :=
  if g_m g <? 1 then Ok g
  else
    ' (s, c, largest) <- wccNodesLoop g (seq 0 (g_n g)) (mkWst (fun _ => 0) (fun _ => 0) (fun _ => 0)) 1 0 ;;
    let edges' := if g_undir g then x_edges s
                  else fun i => if i <? g_n g then Nat.div2 (x_edges s i) else x_edges s i in
    Ok (mkGraph (g_max g) (g_keys g) (g_E g) (g_rE g) (g_loop g) (g_n g) (g_m g) (g_selfm g) (g_sorted g)
                (g_undir g) (Some (mkWcc (x_id s) (x_nodes s) edges' largest (pred c)))).

(** Graph.h:32-34; [LSCC] is never used by VSIDSC. *)
Inductive scope := FULL | LWCC.

(** Graph.cpp:146-151. *)
Definition inScope (g : graph) (u : nat) (sc : scope) : bool :=
  match sc with
  | FULL => true
  | LWCC => match g_wcc g with Some w => w_id w u =? w_largest w | None => false end
  end.

(** Graph.cpp:155-164; [None] is the result -1. *)
Definition nodes (g : graph) (sc : scope) : option nat :=
  match sc with
  | FULL => Some (g_n g)
  | LWCC => match g_wcc g with Some w => Some (w_nodes w (w_largest w)) | None => None end
  end.

(** Graph.cpp:181-190; [None] is the result -1. *)
Definition edges (g : graph) (sc : scope) : option nat :=
  match sc with
  | FULL => Some (g_m g)
  | LWCC => match g_wcc g with Some w => Some (w_edges w (w_largest w)) | None => None end
  end.

(** Graph.cpp:194-211; [None] is the result -1. *)
Definition selfEdges (g : graph) (sc : scope) : option nat :=
  match sc with
  | FULL => Some (g_selfm g)
  | LWCC => match g_wcc g with
            | Some _ => Some (length (filter (fun i => inScope g i LWCC && g_loop g i) (seq 0 (g_n g))))
            | None => None
            end
  end.

(** ** Betweenness centrality (CenGraph.cpp:166-260) *)

(** The variables of one source: [sp], [d], [P], the queue and the stack.  [sp] counts shortest paths; it
    is a [double] in the code and a number here, so rounding above 2^53 is left out. *)
Record bfs := mkBfs { b_sp : nat -> nat; b_d : nat -> nat; b_P : nat -> list nat; b_Q : list nat; b_S : list nat }.

(** CenGraph.cpp:215-226: the loop over the neighbours [ns] of [v]; [inf] is [nodes(FULL) + 1].  All
    vectors have length [nodes(FULL)], which is the number [n] here. *)
Fixpoint bfsVisit (n : nat) (v : nat) (b : bfs) (ns : list nat) : out bfs :=
  match ns with
  | [] => Ok b
  | w :: r =>
      if w <? n then
        let b1 := if b_d b w =? S n
                  then mkBfs (b_sp b) (upd (b_d b) w (S (b_d b v))) (b_P b) (b_Q b ++ [w]) (b_S b) else b in
        let b2 := if b_d b1 w =? S (b_d b1 v)
                  then mkBfs (upd (b_sp b1) w (b_sp b1 w + b_sp b1 v)) (b_d b1)
                             (upd (b_P b1) w (b_P b1 w ++ [v])) (b_Q b1) (b_S b1) else b1 in
        bfsVisit n v b2 r
      else Err UB
  end.

(** CenGraph.cpp:210-227. *)
Fixpoint bfsLoop (fuel n : nat) (adj : nat -> list nat) (b : bfs) : out bfs :=
  match fuel with
  | 0 => Err Fuel
  | S f =>
      match b_Q b with
      | [] => Ok b
      | v :: q =>
          b' <- bfsVisit n v (mkBfs (b_sp b) (b_d b) (b_P b) q (v :: b_S b)) (adj v) ;;
          bfsLoop f n adj b'
      end
  end.

(** CenGraph.cpp:201-227: initialisation and search from [s].  Fuel: every node enters the queue at most
    once. *)
Definition bfsFrom (n : nat) (adj : nat -> list nat) (s : nat) : out bfs :=
  if s <? n then
    bfsLoop (S (S n)) n adj
            (mkBfs (upd (fun _ => 0) s 1) (upd (fun _ => S n) s 0) (fun _ => []) [s] [])
  else Err UB.

(** The number [n] as a rational. *)
Definition qnat (n : nat) : Q := inject_Z (Z.of_nat n).

(** CenGraph.cpp:232-235: the loop over the predecessors of [w].  [delta] is exact here ([double] in the
    code). *)
Definition accPreds (b : bfs) (w : nat) (delta : nat -> Q) : nat -> Q :=
  fold_left (fun dl v => upd dl v (dl v + (qnat (b_sp b v) / qnat (b_sp b w)) * (1 + dl w))%Q) (b_P b w) delta.

(** CenGraph.cpp:229-238: the stack is emptied; [arr] is [doublelongarray]. *)
Fixpoint accStack (b : bfs) (s : nat) (st : list nat) (delta arr : nat -> Q) : nat -> Q :=
  match st with
  | [] => arr
  | w :: r =>
      let delta' := accPreds b w delta in
      accStack b s r delta' (if w =? s then arr else upd arr w (arr w + delta' w)%Q)
  end.

(** CenGraph.cpp:182-244: the loop over the sources; [srcs] are the values of [s] for which the body
    runs. *)
Fixpoint accSources (n : nat) (adj : nat -> list nat) (srcs : list nat) (arr : nat -> Q) : out (nat -> Q) :=
  match srcs with
  | [] => Ok arr
  | s :: r =>
      b <- bfsFrom n adj s ;;
      accSources n adj r (accStack b s (b_S b) (fun _ => 0%Q) arr)
  end.

(** [max] of the standard library. *)
Definition qmax (a b : Q) : Q := if Qle_bool b a then a else b.

(** CenGraph.cpp:247-257: the division by the largest value; [None] is the result of 0/0, not a
    number. *)
Definition normalise (n : nat) (arr : nat -> Q) : list (option Q) :=
  let maxval := fold_left (fun m i => qmax m (arr i)) (seq 0 n) 0%Q in
  map (fun i => if Qeq_bool maxval 0 then None else Some (arr i / maxval)%Q) (seq 0 n).

(** CenGraph.cpp:194-199: one draw of a source: [rand() % nodes(FULL)] until the node is in scope; the
    numbers drawn come from the list [rs]. *)
Fixpoint drawSource (g : graph) (sc : scope) (rs : list nat) : out (nat * list nat) :=
  match rs with
  | [] => Err Fuel
  | r :: rs' => if inScope g (r mod g_n g) sc then Ok (r mod g_n g, rs') else drawSource g sc rs'
  end.

(** The draws of the loop of CenGraph.cpp:182-244 with [samplesize < 1.0]: [s] is restored at the end of
    every round, so there are [k] rounds. *)
Fixpoint drawSources (g : graph) (sc : scope) (k : nat) (rs : list nat) : out (list nat) :=
  match k with
  | 0 => Ok []
  | S k' => ' (s, rs') <- drawSource g sc rs ;; l <- drawSources g sc k' rs' ;; Ok (s :: l)
  end.

(** CenGraph.cpp:174-176 and 194-199: the sources.  The sample size is a fraction here. *)
Definition sources (g : graph) (sc : scope) (sample : Q) (rs : list nat) : out (list nat) :=
  if Qle_bool 1 sample
  then Ok (seq 0 (match nodes g sc with Some k => k | None => 0 end))
  else drawSources g sc (Z.to_nat (Qnum (qnat (g_n g) * sample) / Zpos (Qden (qnat (g_n g) * sample)))) rs.

(** CenGraph.cpp:166-260.  The guard of lines 168-171 returns -1 for every node. *)
Definition betweennessCentrality (g : graph) (sc : scope) (sample : Q) (rs : list nat) : out (list (option Q)) :=
  if negb (g_undir g) || match nodes g sc with Some k => k <? 2 | None => true end
  then Ok (repeat (Some (-1 # 1)) (g_n g))
  else
    srcs <- sources g sc sample rs ;;
    arr <- accSources (g_n g) (g_E g) srcs (fun _ => 0%Q) ;;
    Ok (normalise (g_n g) arr).

(** ** VSIDSC *)

(** VSIDSC.h:414: the number of edges reported for the statistics; [None] is the result -1. *)
Definition edgeCount (g : graph) (sc : scope) : option nat :=
  match selfEdges g sc, edges g sc with
  | Some a, Some m => Some (a + Nat.div2 (m - a))
  | _, _ => None
  end.

(** VSIDSC.h:465: [addEdge(mapNode(a), mapNode(b))].  C++ leaves the order of the two calls of [mapNode]
    open: [rtl] says whether the right one comes first. *)
Definition addPair (rtl : bool) (g : graph) (a b : nat) : graph :=
  if rtl then
    let '(g1, y) := mapNode g b in let '(g2, x) := mapNode g1 a in addEdge g2 x y
  else
    let '(g1, x) := mapNode g a in let '(g2, y) := mapNode g1 b in addEdge g2 x y.

(** VSIDSC.h:461-467: the pairs of positions [i < j]. *)
Fixpoint addPairs (rtl : bool) (g : graph) (vs : list nat) : graph :=
  match vs with
  | [] => g
  | v :: r => addPairs rtl (fold_left (fun g w => addPair rtl g v w) r g) r
  end.

(** VSIDSC.h:453-467: one clause, with its deletion mark.  For a clause without literals the bound
    [literals.size() - 1] wraps around and the loop does not end. *)
Definition addClauseEdges (rtl : bool) (g : graph) (cl : bool * clause) : out graph :=
  let '(deleted, c) := cl in
  if deleted then Ok g
  else match c with
       | [] => Err Fuel
       | _ => Ok (addPairs rtl g (map lvar c))
       end.

(** VSIDSC.h:451-468. *)
Fixpoint addClauses (rtl : bool) (g : graph) (cls : list (bool * clause)) : out graph :=
  match cls with
  | [] => Ok g
  | c :: r => g' <- addClauseEdges rtl g c ;; addClauses rtl g' r
  end.

(** VSIDSC.h:448-475. *)
Definition init_graph (rtl lwcc : bool) (nvars : nat) (cls : list (bool * clause)) : out graph :=
  g <- addClauses rtl (emptyGraph (Nat.max 1 nvars)) cls ;;
  let g1 := makeUndirected g in
  if lwcc then computeWCC g1 else Ok g1.

(** The fields of VSIDSC that the centrality uses (VSIDSC.h:82-111): the activities as exact numbers, not
    a number as [None]. *)
Record vc := mkVc {
  c_graph : graph;
  c_cent : list (option Q);
  c_act : list (option Q);
  c_init : bool;
  c_last : nat;
  c_sample : Q
}.

(** The options (VSIDSC.h:117-126). *)
Record vopt := mkVopt { o_lwcc : bool; o_factor : nat; o_bump : bool; o_decay : Q; o_recalc : Q }.

(** VSIDSC.h:142-143: the scope of the options. *)
Definition scopeOf (o : vopt) : scope := if o_lwcc o then LWCC else FULL.

(** [graph.nodes(scope) > 0 && graph.edges(scope) > 0] (VSIDSC.h:481,492). *)
Definition hasEdges (g : graph) (sc : scope) : bool :=
  match nodes g sc, edges g sc with
  | Some k, Some m => (0 <? k) && (0 <? m)
  | _, _ => false
  end.

(** Arithmetic with results that are not a number. *)
Definition nmul (a : option Q) (b : Q) : option Q := match a with Some x => Some (x * b)%Q | None => None end.
Definition nadd (a b : option Q) : option Q :=
  match a, b with Some x, Some y => Some (x + y)%Q | _, _ => None end.

(** [v[i] = x] for a list that has a position [i]. *)
Definition setN {A} (i : nat) (x : A) (l : list A) : list A := firstn i l ++ x :: skipn (S i) l.

(** VSIDSC.h:495-502: the activities of the variables [vs] are replaced by their centralities. *)
Fixpoint updActs (factor : nat) (g : graph) (cent act : list (option Q)) (vs : list nat) : graph * list (option Q) :=
  match vs with
  | [] => (g, act)
  | v :: r =>
      let '(g1, p) := mapNode g v in
      updActs factor g1 cent
              (if p <? length cent then setN v (nmul (nth p cent None) (qnat factor)) act
               else act) r
  end.

(** VSIDSC.h:402-445: one calculation; [nvars] is [trail.nVars()] and [clause_db.nVars()]; the statistics
    are left out. *)
Definition do_centrality (o : vopt) (rtl : bool) (rs : list nat) (nvars : nat) (cls : list (bool * clause))
           (v : vc) : out vc :=
  g <- init_graph rtl (o_lwcc o) nvars cls ;;
  cent <- (if hasEdges g (scopeOf o) then betweennessCentrality g (scopeOf o) (c_sample v) rs else Ok (c_cent v)) ;;
  let '(g', act) := if hasEdges g (scopeOf o) then updActs (o_factor o) g cent (c_act v) (seq 0 nvars)
                    else (g, c_act v) in
  Ok (mkVc g' cent act true (c_last v) (c_sample v * o_decay o)%Q).

(** VSIDSC.h:287-295. *)
Definition process_reduce (o : vopt) (rtl : bool) (rs : list nat) (nvars : nat) (cls : list (bool * clause))
           (v : vc) : out vc :=
  if negb (c_init v)
     || (Qle_bool 1 (o_recalc o) && negb (Qle_bool (qnat (length cls)) (qnat (c_last v) * o_recalc o)))
  then
    v' <- do_centrality o rtl rs nvars cls v ;;
    Ok (mkVc (c_graph v') (c_cent v') (c_act v') (c_init v') (length cls) (c_sample v'))
  else Ok v.

(** VSIDSC.h:152-160: [init] enlarges the vector of activities. *)
Definition vc_init (nvars : nat) (v : vc) : vc :=
  mkVc (c_graph v) (c_cent v) (c_act v ++ repeat (Some 0%Q) (nvars - length (c_act v))) (c_init v) (c_last v) (c_sample v).

(** VSIDSC.h:210-223: [varBumpActivity(v)]; [inc] is [var_inc].  [mapNode] may add the variable to the
    mapping.  Rescaling and the heap are left out. *)
Definition varBump (o : vopt) (inc : Q) (x : nat) (v : vc) : out vc :=
  if o_bump o then
    let '(g, p) := mapNode (c_graph v) x in
    match nth_error (c_cent v) p, nth_error (c_act v) x with
    | Some ce, Some a =>
        Ok (mkVc g (c_cent v)
                 (setN x (nadd a (nmul (nadd (Some 1%Q) (nmul ce (qnat (o_factor o)))) inc)) (c_act v))
                 (c_init v) (c_last v) (c_sample v))
    | _, _ => Err UB
    end
  else match nth_error (c_act v) x with
       | Some a => Ok (mkVc (c_graph v) (c_cent v) (setN x (nadd a (Some inc)) (c_act v))
                            (c_init v) (c_last v) (c_sample v))
       | None => Err UB
       end.

(** VSIDSC.h:248-261: a sequence of bumps, each with the value of [var_inc] at that time. *)
Fixpoint bumps (o : vopt) (xs : list (nat * Q)) (v : vc) : out vc :=
  match xs with
  | [] => Ok v
  | (x, inc) :: r => v' <- varBump o inc x v ;; bumps o r v'
  end.
