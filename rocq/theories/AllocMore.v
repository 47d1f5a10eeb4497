(** Moving clauses between memories; the clause database on top of the memory. *)
Require Import List Arith Bool NArith Lia.
From Coq Require Import ZifyBool ZifyNat ZifyN.
Require Import Verif.Base Verif.Outcome Verif.CNFModel Verif.CNFProofs Verif.TrailModel Verif.TrailProofs Verif.DbModel Verif.DbProofs Verif.AllocModel Verif.AllocLemmas Verif.AllocSpec Verif.AllocProofs.
Import ListNotations.

(** ** import and absorb *)
Notation mark := after_import.
Lemma selected_cond limit c : import_cond limit c = selected limit c.
Proof. unfold import_cond, selected, is_del, W_DELETED. destruct (N.eqb_spec (wt c) 0); auto. cbn [orb]. destruct (wt c =? 65535)%N; auto; cbn [negb andb]. destruct limit; cbn [Nat.eqb orb]; auto. Qed.
Definition lift (p : page) (x : nat * cobj) : ptr * cobj := ((pid p, fst x), snd x).
Lemma import_clauses_ok Q Q' limit p cs : PG p cs -> forall l m pm o po L1 L3, incl l (poss 0 cs) -> MI Q m pm -> (262144 <= dsz m)%N -> MI Q' o po ->
  vis po = L1 ++ map (lift p) l ++ L3 ->
  exists m' pm' o' po', import_clauses limit p l m o = Ok (m', o') /\ MI Q m' pm' /\ same m m' /\ MI Q' o' po' /\ same o o' /\
    vis po' = L1 ++ map (mark limit) (map (lift p) l) ++ L3 /\ map snd (vis pm') = map snd (vis pm) ++ filter (selected limit) (map snd l).
Proof.
  intros HG. induction l as [|(pos, c) l IH]; intros m pm o po L1 L3 HI HM HB HO HV; cbn [import_clauses map filter app] in *.
  - exists m, pm, o, po. rewrite app_nil_r. split; auto. split; auto. split; [apply same_refl|]. split; auto. split; [apply same_refl|]. auto.
  - assert (HI' : incl l (poss 0 cs)) by (intros y Hy; apply HI; cbn; auto). cbn [lift fst snd] in *. rewrite selected_cond. destruct (selected limit c) eqn:EC.
    + destruct (copy_clause_ok Q p cs pos c m pm HG (HI _ (or_introl eq_refl)) HM HB) as (x & m1 & pm1 & E1 & A1 & A2 & A3). rewrite E1. cbn [bind].
      destruct (set_weight_ok Q' o po L1 (pid p, pos) c (map (lift p) l ++ L3) W_DELETED HO HV) as (o1 & po1 & E2 & B1 & B2 & B3); [reflexivity|]. rewrite E2. cbn [bind].
      destruct (IH m1 pm1 o1 po1 (L1 ++ [((pid p, pos), mkC (lits c) W_DELETED)]) L3 HI' A1) as (m' & pm' & o' & po' & E & C1 & C2 & C3 & C4 & C5 & C6); auto.
      { destruct A2 as (-> & _). auto. }
      { rewrite B3, <- app_assoc. reflexivity. }
      exists m', pm', o', po'. split; auto. split; auto. split; [eapply same_trans; eauto|]. split; auto. split; [eapply same_trans; eauto|]. split.
      * rewrite C5, <- app_assoc. unfold after_import at 2. cbn [fst snd lift]. rewrite EC. reflexivity.
      * rewrite C6, A3, map_app, <- app_assoc. reflexivity.
    + destruct (IH m pm o po (L1 ++ [((pid p, pos), c)]) L3 HI' HM HB HO) as (m' & pm' & o' & po' & E & C1 & C2 & C3 & C4 & C5 & C6); [rewrite HV, <- app_assoc; reflexivity|].
      exists m', pm', o', po'. split; auto. split; auto. split; auto. split; auto. split; auto. split; auto.
      rewrite C5, <- app_assoc. unfold after_import at 2. cbn [fst snd lift]. rewrite EC. reflexivity.
Qed.
Lemma import_pages_ok Q Q' limit src : forall m pm o po L1, Forall (fun pc => PG (fst pc) (snd pc)) src -> MI Q m pm -> (262144 <= dsz m)%N -> MI Q' o po -> vis po = L1 ++ vis src ->
  exists m' pm' o' po', import_pages limit (map fst src) m o = Ok (m', o') /\ MI Q m' pm' /\ same m m' /\ MI Q' o' po' /\ same o o' /\
    vis po' = L1 ++ map (mark limit) (vis src) /\ map snd (vis pm') = map snd (vis pm) ++ filter (selected limit) (map snd (vis src)).
Proof.
  induction src as [|(p, cs) src IH]; intros m pm o po L1 HF HM HB HO HV; cbn [map fst import_pages].
  - exists m, pm, o, po. cbn [vis flat_map map filter]. rewrite !app_nil_r in *. split; auto. split; auto. split; [apply same_refl|]. split; auto. split; [apply same_refl|]. auto.
  - inversion HF; subst. cbn [fst snd] in *. rewrite (page_clauses_ok p cs) by auto. cbn [bind].
    change (vis ((p, cs) :: src)) with (map (lift p) (poss 0 cs) ++ vis src) in *.
    destruct (import_clauses_ok Q Q' limit p cs H1 (poss 0 cs) m pm o po L1 (vis src)) as (m1 & pm1 & o1 & po1 & E & C1 & C2 & C3 & C4 & C5 & C6); auto; [intros y; auto|]. rewrite E. cbn [bind].
    destruct (IH m1 pm1 o1 po1 (L1 ++ map (mark limit) (map (lift p) (poss 0 cs))) H2 C1) as (m' & pm' & o' & po' & E' & D1 & D2 & D3 & D4 & D5 & D6); auto.
    { destruct C2 as (-> & _). auto. }
    { rewrite C5, <- app_assoc. reflexivity. }
    exists m', pm', o', po'. split; auto. split; auto. split; [eapply same_trans; eauto|]. split; auto. split; [eapply same_trans; eauto|]. split.
    + rewrite D5, <- app_assoc, map_app. reflexivity.
    + rewrite D6, C6, <- app_assoc, map_app, filter_app. rewrite (map_map (lift p) snd). reflexivity.
Qed.
Lemma import_ok Q Q' limit m pm o po : MI Q m pm -> (262144 <= dsz m)%N -> MI Q' o po ->
  exists m' pm' o' po', mem_import limit m o = Ok (m', o') /\ MI Q m' pm' /\ same m m' /\ MI Q' o' po' /\ same o o' /\
    vis po' = map (mark limit) (vis po) /\ map snd (vis pm') = map snd (vis pm) ++ filter (selected limit) (map snd (vis po)).
Proof.
  intros HM HB HO. unfold mem_import. rewrite (m_p _ _ _ HO). apply (import_pages_ok Q Q' limit po m pm o po []); auto. apply (m_g _ _ _ HO).
Qed.
Lemma absorb_ok (Q Q' : nat -> Prop) m pm o po : MI Q m pm -> MI Q' o po -> (forall k, Q k -> ~ Q' k) ->
  MI (fun k => Q k \/ Q' k) (fst (mem_absorb m o)) (pm ++ po) /\ MI Q' (snd (mem_absorb m o)) [] /\ vis (pm ++ po) = vis pm ++ vis po.
Proof.
  intros [M1 M2 M3 M4 M5 M6] [O1 O2 O3 O4 O5 O6] HD. split; [|split; [|apply vis_app]].
  - constructor; cbn [mem_absorb fst with_pages pages own cnt].
    + rewrite M1, O1, map_app. auto.
    + apply Forall_app. auto.
    + unfold pids. rewrite map_app. revert M3 O3 M6 O6 HD. clear. unfold pids. generalize (map (fun pc : page * list cobj => pid (fst pc)) pm) (map (fun pc : page * list cobj => pid (fst pc)) po).
      induction l as [|x l IH]; intros l2 N1 N2 Q1 Q2 HD; cbn [app]; auto. inversion N1; subst. constructor; [|apply IH; auto; intros; apply Q1; cbn; auto].
      intros Hi. apply in_app_or in Hi. destruct Hi as [Hi|Hi]; auto. apply (HD (fst x)); [apply Q1; cbn; auto|apply Q2; auto].
    + intros k Hk. unfold pids. rewrite map_app, in_app_iff. intros [H|H]; [apply (M4 k Hk H)|]. specialize (O6 _ H). cbn in O6. apply (HD _ M5 O6).
    + auto.
    + intros i. unfold pids. rewrite map_app, in_app_iff. intros [H|H]; auto.
  - constructor; cbn [mem_absorb snd with_pages pages own cnt]; auto; try constructor; intros i [].
Qed.

(** ** The clause database on top of two memories *)
Definition view (s : dstate) (cs : list cid) : list (ptr * cobj) := map (fun c => (ds_addr s c, cobj_at (ds_d s) c)) cs.
Record DI (s : dstate) : Prop := {
  d_ex : exists pm pf, MI (eq 0) (a_mem (ds_a s)) pm /\ MI (eq 1) (a_facts (ds_a s)) pf /\ vis pm = view s (mem (ds_d s)) /\ vis pf = view s (facts (ds_d s));
  d_po : phase_out (a_mem (ds_a s)) = [] /\ phase_out (a_facts (ds_a s)) = [];
  d_sz : dsz (a_mem (ds_a s)) = (32 * 1024 * 1024)%N /\ dsz (a_facts (ds_a s)) = (1 * 1024 * 1024)%N;
  d_nd : NoDup (mem (ds_d s) ++ facts (ds_d s));
  d_id : forall c, In c (mem (ds_d s) ++ facts (ds_d s)) -> c < length (arena (ds_d s)) }.

Lemma page_of_mem {x c pcs} m : MI (eq 0) m pcs -> In (x, c) (vis pcs) -> exists p, page_of (fst x) (pages m) = Some p.
Proof.
  intros HM Hi. destruct (vis_in _ _ _ Hi) as (p & cs & H1 & H2 & H3). rewrite (m_p _ _ _ HM). clear - H1 H2. induction pcs as [|(q, cs') pcs IH]; [destruct H1|]. cbn [map fst page_of].
  destruct (pid_eqb (pid q) (fst x)) eqn:E; eauto. destruct H1 as [H1|H1]; eauto. injection H1 as -> ->. rewrite <- H2 in E. rewrite (proj2 (pid_eqb_eq _ _) eq_refl) in E. discriminate.
Qed.
Lemma page_of_facts {x c pcs pm} m : MI (eq 0) m pm -> In (x, c) (vis pcs) -> (forall i, In i (pids pcs) -> 1 = fst i) -> page_of (fst x) (pages m) = None.
Proof.
  intros HM Hi HQ. destruct (vis_in _ _ _ Hi) as (p & cs & H1 & H2 & H3). assert (H4 : 1 = fst (pid p)) by (apply HQ; unfold pids; apply in_map_iff; exists (p, cs); auto).
  assert (HN : ~ In (fst x) (map pid (pages m))).
  { rewrite (m_p _ _ _ HM), pids_fst. intros H. apply (m_q _ _ _ HM) in H. rewrite H2 in H. lia. }
  clear - HN. induction (pages m) as [|q ps IH]; cbn [page_of map] in *; auto. destruct (pid_eqb (pid q) (fst x)) eqn:E; [apply pid_eqb_eq in E; exfalso; apply HN; cbn; auto|]. apply IH. intros H. apply HN. cbn; auto.
Qed.
Lemma cobj_set a c o k : c < length a -> nth k (set_nth c o a) cnull = if k =? c then o else nth k a cnull.
Proof. intros H. rewrite nth_set_nth. destruct (Nat.eqb_spec k c); cbn [andb]; auto. destruct (Nat.ltb_spec c (length a)); auto. lia. Qed.

(** an operation on the clause [c] that changes only its object *)
Lemma DI_update s c g (f : ptr -> alloc_t -> out alloc_t) (fm : ptr -> cmem -> out cmem) d1 : DI s -> In c (mem (ds_d s) ++ facts (ds_d s)) ->
  (forall x a, f x a = match page_of (fst x) (pages (a_mem a)) with Some _ => m <- fm x (a_mem a) ;; Ok (mkAlloc m (a_facts a)) | None => m <- fm x (a_facts a) ;; Ok (mkAlloc (a_mem a) m) end) ->
  (forall Q m pcs L1 x L2, MI Q m pcs -> vis pcs = L1 ++ (x, cobj_at (ds_d s) c) :: L2 -> exists m' pcs', fm x m = Ok m' /\ MI Q m' pcs' /\ same m m' /\ vis pcs' = L1 ++ (x, g) :: L2) ->
  mem d1 = mem (ds_d s) -> facts d1 = facts (ds_d s) -> arena d1 = set_nth c g (arena (ds_d s)) ->
  exists a1, f (ds_addr s c) (ds_a s) = Ok a1 /\ DI (mkDS d1 a1 (ds_addr s)).
Proof.
  intros [(pm & pf & HM & HF & VM & VF) (P1 & P2) (Z1 & Z2) HN HI] Hc Hf Hfm E1 E2 E3. rewrite Hf.
  assert (HC : c < length (arena (ds_d s))) by (apply HI; auto).
  assert (HV : forall cs, ~ In c cs -> view (mkDS d1 (ds_a s) (ds_addr s)) cs = view s cs).
  { intros cs Hn. unfold view. apply map_ext_in. intros k Hk. cbn [ds_addr ds_d]. f_equal. unfold cobj_at. rewrite E3, cobj_set by auto. destruct (Nat.eqb_spec k c); auto. subst. contradiction. }
  assert (HVc : forall l1 l2, ~ In c l1 -> ~ In c l2 -> view (mkDS d1 (ds_a s) (ds_addr s)) (l1 ++ c :: l2) = view s l1 ++ (ds_addr s c, g) :: view s l2).
  { intros l1 l2 N1 N2. rewrite <- (HV l1), <- (HV l2) by auto. unfold view. rewrite map_app. cbn [map ds_addr ds_d]. f_equal. f_equal. f_equal. unfold cobj_at. rewrite E3, cobj_set, Nat.eqb_refl by auto. auto. }
  apply in_app_or in Hc. destruct Hc as [Hc|Hc]; apply in_split in Hc; destruct Hc as (l1 & l2 & EL).
  - assert (EV : vis pm = view s l1 ++ (ds_addr s c, cobj_at (ds_d s) c) :: view s l2) by (rewrite VM, EL; unfold view; rewrite map_app; reflexivity).
    destruct (page_of_mem (a_mem (ds_a s)) HM (x := ds_addr s c) (c := cobj_at (ds_d s) c)) as (p & EP); [rewrite EV; apply in_or_app; cbn; auto|]. rewrite EP.
    destruct (Hfm _ _ _ _ _ _ HM EV) as (m' & pcs' & A1 & A2 & A3 & A4). rewrite A1. cbn [bind]. eexists. split; [reflexivity|].
    rewrite EL in HN. assert (NN : ~ In c l1 /\ ~ In c l2 /\ ~ In c (facts (ds_d s))).
    { rewrite <- app_assoc in HN. cbn [app] in HN. apply NoDup_remove_2 in HN. rewrite !in_app_iff in HN. tauto. }
    destruct NN as (N1 & N2 & N3). destruct A3 as (S1 & S2 & S3 & S4 & S5).
    constructor; cbn [ds_d ds_a ds_addr a_mem a_facts]; rewrite ?E1, ?E2; auto.
    + exists pcs', pf. split; auto. split; auto. split; [rewrite A4, EL; symmetry; apply (HVc l1 l2); auto|]. rewrite VF. symmetry. apply (HV (facts (ds_d s))). auto.
    + split; congruence.
    + split; congruence.
    + rewrite EL. auto.
    + intros k Hk. rewrite E3, set_nth_length. auto.
  - assert (EV : vis pf = view s l1 ++ (ds_addr s c, cobj_at (ds_d s) c) :: view s l2) by (rewrite VF, EL; unfold view; rewrite map_app; reflexivity).
    rewrite (page_of_facts (x := ds_addr s c) (c := cobj_at (ds_d s) c) (pcs := pf) (a_mem (ds_a s)) HM); [|rewrite EV; apply in_or_app; cbn; auto|apply (m_q _ _ _ HF)].
    destruct (Hfm _ _ _ _ _ _ HF EV) as (m' & pcs' & A1 & A2 & A3 & A4). rewrite A1. cbn [bind]. eexists. split; [reflexivity|].
    rewrite EL in HN. assert (NN : ~ In c l1 /\ ~ In c l2 /\ ~ In c (mem (ds_d s))).
    { rewrite app_assoc in HN. apply NoDup_remove_2 in HN. rewrite !in_app_iff in HN. tauto. }
    destruct NN as (N1 & N2 & N3). destruct A3 as (S1 & S2 & S3 & S4 & S5).
    constructor; cbn [ds_d ds_a ds_addr a_mem a_facts]; rewrite ?E1, ?E2; auto.
    + exists pm, pcs'. split; auto. split; auto. split; [rewrite VM; symmetry; apply (HV (mem (ds_d s))); auto|]. rewrite A4, EL; symmetry; apply (HVc l1 l2); auto.
    + split; congruence.
    + split; congruence.
    + rewrite EL. auto.
    + intros k Hk. rewrite E3, set_nth_length. auto.
Qed.
Lemma readdress_out cs : forall xs f k, ~ In k cs -> readdress cs xs f k = f k.
Proof. induction cs as [|c cs IH]; intros [|(x, o) xs] f k Hn; cbn [readdress]; auto. rewrite IH by (intros H; apply Hn; cbn; auto). destruct (Nat.eqb_spec k c); auto. subst. exfalso. apply Hn. cbn. auto. Qed.
Lemma readdress_in cs : forall xs f, NoDup cs -> length cs = length xs -> map (readdress cs xs f) cs = map fst xs.
Proof.
  induction cs as [|c cs IH]; intros [|(x, o) xs] f HN HL; cbn [length] in HL; try lia; auto. inversion HN; subst. cbn [map fst readdress].
  rewrite readdress_out by auto. rewrite Nat.eqb_refl. f_equal. apply IH; auto.
Qed.
Lemma combine_map {A B C} (f : A -> B) (g : A -> C) l : map (fun a => (f a, g a)) l = combine (map f l) (map g l).
Proof. induction l; cbn; congruence. Qed.
Lemma live_filter d l : live (map (cobj_at d) l) = map (cobj_at d) (filter (fun c => negb (isDeleted d c)) l).
Proof. unfold live. induction l as [|c l IH]; cbn [map filter]; auto. unfold isDeleted at 1, cwt, W_DELETED. destruct (wt (cobj_at d c) =? 65535)%N; cbn [negb map]; rewrite IH; auto. Qed.
Lemma nodup_join {A} (l1 l2 : list A) : NoDup l1 -> NoDup l2 -> (forall k, In k l2 -> ~ In k l1) -> NoDup (l1 ++ l2).
Proof.
  induction l1 as [|x l IH]; intros N1 N2 H; cbn [app]; auto. inversion N1; subst. constructor.
  - intros Hi. apply in_app_or in Hi. destruct Hi as [Hi|Hi]; auto. apply (H x Hi). cbn; auto.
  - apply IH; auto. intros k Hk Hi. apply (H k Hk). cbn; auto.
Qed.
Lemma dexec_ok o s : DI s -> dop_ok (ds_d s) o -> exists s', dexec o s = Ok s' /\ DI s' /\ dmeaning o (ds_d s) = Ok (ds_d s').
Proof.
  intros HD HO. destruct o as [ls lbd lem|c w|c i j|c|]; cbn [dexec dmeaning dop_ok] in *.
  - unfold createClause. destruct (N.leb_spec 65536 (N.of_nat (length ls))); [lia|]. cbn [bind]. set (w := if length ls <? 3 then 0%N else (lbd mod 65536)%N). set (c := length (arena (ds_d s))).
    assert (HW : (w < 65536)%N) by (unfold w; destruct (length ls <? 3); [lia|apply N.mod_upper_bound; lia]).
    destruct HD as [(pm & pf & HM & HF & VM & VF) (P1 & P2) (Z1 & Z2) HN HI].
    assert (HK : forall a1 x cs, (forall k, In k cs -> k < c) -> view (mkDS (mkDb (arena (ds_d s) ++ [mkC ls w]) (if length ls =? 1 then mem (ds_d s) else mem (ds_d s) ++ [c]) (if length ls =? 1 then facts (ds_d s) ++ [c] else facts (ds_d s)) (cls (ds_d s) ++ [c]) (nv (ds_d s)) (if length ls =? 0 then true else empt (ds_d s)) (watch_binary c ls (bw (ds_d s))) (if lem then cert (ds_d s) else CAdd ls :: cert (ds_d s))) a1 (fun k => if k =? c then x else ds_addr s k)) cs = view s cs).
    { intros a1 x cs Hcs. unfold view. apply map_ext_in. intros k Hk. specialize (Hcs k Hk). cbn [ds_addr ds_d]. destruct (Nat.eqb_spec k c); [lia|]. f_equal. unfold cobj_at. cbn [arena]. rewrite app_nth1; auto. }
    assert (HC : forall a1 x d1 ad, arena d1 = arena (ds_d s) ++ [mkC ls w] -> ad = (fun k => if k =? c then x else ds_addr s k) -> view (mkDS d1 a1 ad) [c] = [(x, mkC ls w)]).
    { intros a1 x d1 ad E ->. unfold view. cbn [map ds_addr ds_d]. rewrite Nat.eqb_refl. unfold cobj_at. rewrite E. unfold c. rewrite app_nth2, Nat.sub_diag by auto. reflexivity. }
    assert (HVA : forall s' a b, view s' (a ++ b) = view s' a ++ view s' b) by (intros; apply map_app).
    unfold alloc_create. destruct (Nat.eqb_spec (length ls) 1) as [E1|E1].
    + destruct (create_ok _ ls w _ pf HF) as (x & m' & pf' & A & B & (S1 & S2 & S3 & S4 & S5) & D); [split; auto|unfold bytes in *; lia|]. fold w. rewrite A. cbn [bind].
      eexists. split; [reflexivity|]. split; [|reflexivity]. constructor; cbn [ds_d ds_a ds_addr a_mem a_facts mem facts arena].
      * exists pm, pf'. split; auto. split; auto. split.
        -- rewrite VM. symmetry. apply (HK (mkAlloc (a_mem (ds_a s)) m') x). intros k Hk. apply HI. apply in_or_app; auto.
        -- rewrite HVA, D, VF. f_equal; symmetry; [apply (HK (mkAlloc (a_mem (ds_a s)) m') x); intros k Hk; apply HI; apply in_or_app; auto|apply HC; auto].
      * split; congruence.
      * split; congruence.
      * rewrite app_assoc. apply NoDup_rev in HN. rewrite <- rev_involutive. apply NoDup_rev. rewrite rev_app_distr. cbn [rev app]. constructor; auto. rewrite <- in_rev. intros Hk. apply HI in Hk. unfold c in Hk. lia.
      * intros k Hk. rewrite app_length. cbn [length]. rewrite app_assoc in Hk. apply in_app_or in Hk. destruct Hk as [Hk|[<-|[]]]; [apply HI in Hk; lia|unfold c; lia].
    + destruct (create_ok _ ls w _ pm HM) as (x & m' & pm' & A & B & (S1 & S2 & S3 & S4 & S5) & D); [split; auto|unfold bytes in *; lia|]. fold w. rewrite A. cbn [bind].
      eexists. split; [reflexivity|]. split; [|reflexivity]. constructor; cbn [ds_d ds_a ds_addr a_mem a_facts mem facts arena].
      * exists pm', pf. split; auto. split; auto. split.
        -- rewrite HVA, D, VM. f_equal; symmetry; [apply (HK (mkAlloc m' (a_facts (ds_a s))) x); intros k Hk; apply HI; apply in_or_app; auto|apply HC; auto].
        -- rewrite VF. symmetry. apply (HK (mkAlloc m' (a_facts (ds_a s))) x). intros k Hk. apply HI. apply in_or_app; auto.
      * split; congruence.
      * split; congruence.
      * rewrite <- app_assoc. cbn [app]. assert (HA : NoDup (c :: mem (ds_d s) ++ facts (ds_d s))) by (constructor; auto; intros Hk; apply HI in Hk; unfold c in Hk; lia).
        apply (Permutation.Permutation_NoDup (Permutation.Permutation_middle (mem (ds_d s)) (facts (ds_d s)) c) HA).
      * intros k Hk. rewrite app_length. cbn [length]. rewrite <- app_assoc in Hk. apply in_app_or in Hk. destruct Hk as [Hk|[<-|Hk]]; [|unfold c; lia|]; specialize (HI k); rewrite in_app_iff in HI; specialize (HI ltac:(auto)); lia.
  - destruct HO as (HC & HW). destruct (DI_update s c (mkC (clits (ds_d s) c) w) (fun x a => alloc_set_weight x w a) (fun x m => set_weight x w m) (with_arena (ds_d s) (set_wt c w (arena (ds_d s)))) HD HC) as (a1 & E & HX); auto.
    + intros Q m pcs L1 x L2 HM HV. apply (set_weight_ok Q m pcs L1 x (cobj_at (ds_d s) c) L2 w HM HV HW).
    + rewrite E. cbn [bind]. eexists. split; [reflexivity|]. auto.
  - destruct HO as (HC & Hi & Hj). destruct (DI_update s c (mkC (swapped i j (clits (ds_d s) c)) (cwt (ds_d s) c)) (fun x a => alloc_swap x i j a) (fun x m => swap_lits x i j m) (with_arena (ds_d s) (set_lits c (swapped i j (clits (ds_d s) c)) (arena (ds_d s)))) HD HC) as (a1 & E & HX); auto.
    + intros Q m pcs L1 x L2 HM HV. apply (swap_ok Q m pcs L1 x (cobj_at (ds_d s) c) L2 i j HM HV Hi Hj).
    + rewrite E. cbn [bind]. eexists. split; [reflexivity|]. auto.
  - destruct (DI_update s c (mkC (clits (ds_d s) c) 65535) (fun x a => alloc_set_weight x 65535 a) (fun x m => set_weight x 65535 m) (removeClause c (ds_d s)) HD HO) as (a1 & E & HX); auto.
    + intros Q m pcs L1 x L2 HM HV. apply (set_weight_ok Q m pcs L1 x (cobj_at (ds_d s) c) L2 65535 HM HV). reflexivity.
    + rewrite E. cbn [bind]. eexists. split; [reflexivity|]. auto.
  - destruct HD as [(pm & pf & HM & HF & VM & VF) (P1 & P2) (Z1 & Z2) HN HI].
    destruct (reorganize_ok _ _ pm HM P1 ltac:(rewrite Z1; lia)) as (m' & pm' & A & B & C & D & E & F). unfold alloc_reorganize. rewrite A. cbn [bind a_mem]. rewrite (mem_clauses_ok m' pm' (m_p _ _ _ B) (m_g _ _ _ B)). cbn [bind].
    eexists. split; [reflexivity|]. split; [|reflexivity].
    set (mem1 := filter (fun c => negb (isDeleted (ds_d s) c)) (mem (ds_d s))).
    assert (EM : mem (reorganize (ds_d s)) = mem1) by reflexivity. assert (EF : facts (reorganize (ds_d s)) = facts (ds_d s)) by reflexivity. assert (EA : arena (reorganize (ds_d s)) = arena (ds_d s)) by reflexivity.
    assert (ES : map snd (vis pm') = map (cobj_at (ds_d s)) mem1).
    { rewrite F, VM. unfold view. rewrite map_map. cbn [snd]. unfold mem1. apply live_filter. }
    assert (HN1 : NoDup mem1) by (apply NoDup_filter; clear - HN; induction (mem (ds_d s)) as [|c l IH]; [constructor|]; inversion HN; subst; constructor; [intros Hk; apply H1; apply in_or_app; auto|auto]).
    assert (HS1 : forall k, In k mem1 -> In k (mem (ds_d s))) by (intros k Hk; apply filter_In in Hk; tauto).
    assert (HFN : forall k, In k (facts (ds_d s)) -> ~ In k mem1).
    { intros k Hk Hm. apply HS1 in Hm. clear - HN Hk Hm. induction (mem (ds_d s)) as [|c l IH]; [destruct Hm|]. inversion HN; subst. destruct Hm as [->|Hm]; [apply H1; apply in_or_app; auto|auto]. }
    constructor; cbn [ds_d ds_a ds_addr a_mem a_facts]; rewrite ?EM, ?EF, ?EA; auto.
    + exists pm', pf. split; auto. split; auto. split.
      * unfold view. cbn [ds_d ds_addr]. rewrite combine_map. rewrite readdress_in; auto; [|rewrite <- (map_length snd (vis pm')), ES, map_length; auto].
        change (map (cobj_at (reorganize (ds_d s))) mem1) with (map (cobj_at (ds_d s)) mem1). rewrite <- ES. clear. induction (vis pm') as [|(x, o) l IH]; cbn; auto. rewrite <- IH. auto.
      * rewrite VF. unfold view. cbn [ds_d ds_addr]. apply map_ext_in. intros k Hk. rewrite readdress_out by auto. reflexivity.
    + split; auto. rewrite D. auto.
    + apply nodup_join; auto. clear - HN. induction (mem (ds_d s)) as [|c l IH]; auto. inversion HN; auto.
    + intros k Hk. apply HI. apply in_app_or in Hk. apply in_or_app. destruct Hk; auto.
Qed.
Lemma dexecs_ok os : forall s d', DI s -> dhistory os (ds_d s) d' -> exists s', dexecs os s = Ok s' /\ DI s' /\ ds_d s' = d'.
Proof.
  induction os as [|o os IH]; intros s d' HD HH; cbn [dexecs dhistory] in *; [exists s; auto|]. destruct HH as (HO & d1 & E & HH). destruct (dexec_ok o s HD HO) as (s1 & E1 & H1 & E2). rewrite E1. cbn [bind]. apply IH; auto. congruence.
Qed.
Lemma DI_new j1 j2 f : DI (mkDS db_new (alloc_new j1 j2) f).
Proof.
  constructor; cbn [ds_d ds_a a_mem a_facts alloc_new]; auto.
  - exists [], []. split; [apply mem_new_MI; auto|]. split; [apply mem_new_MI; auto|]. auto.
  - constructor.
  - intros c [].
Qed.
Lemma DI_clauses s : DI s -> mem_clauses (a_mem (ds_a s)) = Ok (view s (mem (ds_d s))) /\ mem_clauses (a_facts (ds_a s)) = Ok (view s (facts (ds_d s))).
Proof.
  intros [(pm & pf & HM & HF & VM & VF) _ _ _ _]. rewrite (mem_clauses_ok _ pm (m_p _ _ _ HM) (m_g _ _ _ HM)), (mem_clauses_ok _ pf (m_p _ _ _ HF) (m_g _ _ _ HF)), VM, VF. auto.
Qed.

(** ** What is stored for a clause of any length *)
Lemma at_write f i ws : at_ (write f i ws) i ws. Proof. apply write_at_. Qed.
Lemma mem_create_any Q ls w m pcs : MI Q m pcs -> (bytes (S (length ls)) <= dsz m)%N ->
  exists x m' A p, mem_create ls w m = Ok (x, m') /\ pages m' = A ++ [p] /\ pid p = fst x /\ ~ In (fst x) (map pid A) /\ Q (fst (fst x)) /\ at_ (pw p) (snd x) (clause_image ls w).
Proof.
  intros HM HB. destruct (allocate_ok Q (length ls) m pcs HM HB) as (m1 & pcs0 & p & cs & E & H1 & H2 & H3 & H4). unfold mem_create. rewrite E. unfold mem_write. cbn [pages with_pages].
  assert (HN : ~ In (pid p) (map pid (map fst pcs0))).
  { rewrite pids_fst. pose proof (m_n _ _ _ H1) as H. unfold pids in H. rewrite map_app in H. apply (NoDup_mid _ [] _ H). }
  rewrite (write_at_ok (pid p, pcur p) (clause_image ls w) (mkPage (pid p) (psz p) (pcur p + cwords (length ls)) (pw p)) (mkPage (pid p) (psz p) (pcur p + cwords (length ls)) (write (pw p) (pcur p) (clause_image ls w))) (map fst pcs0) []); auto.
  - cbn [bind]. eexists _, _, (map fst pcs0), _. split; [reflexivity|]. cbn [pages with_pages fst snd pid pw]. split; auto. split; auto. split; auto. split.
    + apply (m_q _ _ _ H1). unfold pids. rewrite map_app, in_app_iff. cbn. auto.
    + apply write_at_.
  - unfold page_write. cbn [snd psz pid pcur pw]. unfold clause_image at 1. cbn [length]. rewrite map_length. apply N.leb_le in H4. unfold lit in *. rewrite H4. reflexivity.
Qed.
Lemma seen_any p pos ls w : at_ (pw p) pos (clause_image ls w) -> length (lits (clause_at p pos)) = length ls mod N.to_nat 65536 /\ lits (clause_at p pos) = firstn (length ls mod N.to_nat 65536) ls /\ wt (clause_at p pos) = (w mod 65536)%N.
Proof.
  intros H. assert (H0 : pw p pos = header (N.of_nat (length ls)) w) by (specialize (H 0); cbn [clause_image length nth] in H; rewrite Nat.add_0_r in H; apply H; lia).
  assert (HL : hlen (pw p pos) = length ls mod N.to_nat 65536).
  { rewrite H0. unfold hlen, header. rewrite <- N.add_mod_idemp_r by discriminate. rewrite (N.mul_comm 65536), N.mod_mul, N.add_0_r, N.mod_mod by discriminate. rewrite N2Nat.inj_mod, Nat2N.id. reflexivity. }
  assert (HW : hwt (pw p pos) = (w mod 65536)%N).
  { rewrite H0. unfold hwt, header. rewrite (N.mul_comm 65536), N.div_add by discriminate. rewrite N.div_small; auto. apply N.mod_upper_bound. discriminate. }
  assert (HS : firstn (length ls mod N.to_nat 65536) ls = lits (clause_at p pos)).
  { unfold clause_at. cbn [lits]. rewrite HL. set (k := length ls mod N.to_nat 65536). assert (Hk : k <= length ls) by (apply Nat.mod_le; lia).
    rewrite (read_at k _ _ (map N.of_nat (firstn k ls))).
    - symmetry. apply map_to_of.
    - rewrite map_length, firstn_length. unfold lit in *. lia.
    - intros i Hi. rewrite map_length, firstn_length in Hi. assert (Hi' : i < length ls) by (unfold lit in *; lia). specialize (H (S i)). cbn [clause_image length nth] in H. rewrite map_length in H. replace (S pos + i) with (pos + S i) by lia. rewrite H by (unfold lit in *; lia).
      rewrite <- (firstn_skipn k ls) at 1. rewrite map_app, app_nth1; auto. rewrite map_length, firstn_length. auto. }
  split; [|split; auto]. rewrite <- HS, firstn_length. assert (length ls mod N.to_nat 65536 <= length ls) by (apply Nat.mod_le; lia). unfold lit in *. lia.
Qed.
Lemma page_of_app i a b : page_of i a = None -> page_of i (a ++ b) = page_of i b.
Proof. induction a as [|p a IH]; cbn [page_of app]; auto. destruct (pid_eqb (pid p) i); [discriminate|auto]. Qed.
Lemma page_of_none i ps : ~ In i (map pid ps) -> page_of i ps = None.
Proof. induction ps as [|p ps IH]; cbn [page_of map]; auto. intros H. destruct (pid_eqb (pid p) i) eqn:E; [apply pid_eqb_eq in E; exfalso; apply H; cbn; auto|]. apply IH. intros H'. apply H. cbn. auto. Qed.
Lemma stored_any s ls w : DI s -> (bytes (S (length ls)) <= dsz (a_mem (ds_a s)))%N -> exists x a' c, alloc_create ls w (ds_a s) = Ok (x, a') /\ stored x a' = Some c /\
  length (lits c) = length ls mod N.to_nat 65536 /\ lits c = firstn (length ls mod N.to_nat 65536) ls /\ wt c = (w mod 65536)%N /\ create_is_empty x a' = (length (lits c) =? 0).
Proof.
  intros [(pm & pf & HM & HF & VM & VF) (P1 & P2) (Z1 & Z2) HN HI] HB. unfold alloc_create.
  assert (K : forall x a' p, page_of (fst x) (pages (a_mem a') ++ pages (a_facts a')) = Some p -> at_ (pw p) (snd x) (clause_image ls w) ->
    exists c, stored x a' = Some c /\ length (lits c) = length ls mod N.to_nat 65536 /\ lits c = firstn (length ls mod N.to_nat 65536) ls /\ wt c = (w mod 65536)%N /\ create_is_empty x a' = (length (lits c) =? 0)).
  { intros x a' p EP HA. exists (clause_at p (snd x)). unfold stored, create_is_empty. rewrite EP. destruct (seen_any p (snd x) ls w HA) as (A1 & A2 & A3). split; auto. split; auto. split; auto. split; auto.
    unfold clause_at. cbn [lits]. rewrite map_length, read_length. auto. }
  destruct (Nat.eqb_spec (length ls) 1) as [E1|E1].
  - destruct (mem_create_any _ ls w _ pf HF) as (x & m' & A & p & E & B1 & B2 & B3 & B4 & B5); [rewrite E1; unfold bytes; lia|]. rewrite E. cbn [bind].
    destruct (K x (mkAlloc (a_mem (ds_a s)) m') p) as (c & HC); auto.
    + cbn [a_mem a_facts]. rewrite page_of_app; [rewrite B1; apply page_of_ok; auto|]. apply page_of_none. rewrite (m_p _ _ _ HM), pids_fst. intros H. apply (m_q _ _ _ HM) in H. lia.
    + exists x, (mkAlloc (a_mem (ds_a s)) m'), c. tauto.
  - destruct (mem_create_any _ ls w _ pm HM HB) as (x & m' & A & p & E & B1 & B2 & B3 & B4 & B5). rewrite E. cbn [bind].
    destruct (K x (mkAlloc m' (a_facts (ds_a s))) p) as (c & HC); auto.
    + cbn [a_mem a_facts]. rewrite B1, <- app_assoc. apply page_of_ok; auto.
    + exists x, (mkAlloc m' (a_facts (ds_a s))), c. tauto.
Qed.
Lemma reached_DI j1 j2 os s : reached j1 j2 os s -> DI s /\ (dsz (a_mem (ds_a s)) = 32 * 1024 * 1024)%N.
Proof.
  intros (E & H). destruct (dexecs_ok os _ _ (DI_new j1 j2 (fun _ => (0, 0, 0))) H) as (s' & E' & HD & _). rewrite E in E'. injection E' as <-. split; auto.
  apply (d_sz _ HD).
Qed.

(** ** Assembling the property theorems *)
Lemma history_core os mb o j : (1 <= mb)%N -> ops_ok [] os -> exists m pcs, execs os (mem_new mb o j) = Ok m /\ MI (eq o) m pcs /\ map snd (vis pcs) = meanings os /\ phase_out m = [] /\ dsz m = (mb * 1024 * 1024)%N.
Proof.
  intros HB HO. assert (G : forall os m pcs, MI (eq o) m pcs -> phase_out m = [] -> (262144 <= dsz m)%N -> ops_ok (map snd (vis pcs)) os ->
    exists m' pcs', execs os m = Ok m' /\ MI (eq o) m' pcs' /\ map snd (vis pcs') = fold_left (fun l o => meaning o l) os (map snd (vis pcs)) /\ phase_out m' = [] /\ dsz m' = dsz m).
  { clear. induction os as [|x os IH]; intros m pcs HM HP HB HO; cbn [execs ops_ok fold_left] in *; [exists m, pcs; auto|]. destruct HO as (H1 & H2).
    destruct (exec_ok _ x m pcs HM HP HB H1) as (m1 & pcs1 & E & A1 & A2 & A3 & A4). rewrite E. cbn [bind]. rewrite <- A4 in H2 |- *. destruct (IH m1 pcs1 A1 A2 ltac:(lia) H2) as (m' & pcs' & B1 & B2 & B3 & B4 & B5). exists m', pcs'. split; auto. split; auto. split; auto. split; auto. congruence. }
  destruct (G os (mem_new mb o j) []) as (m & pcs & A); auto; [apply mem_new_MI; auto|cbn [dsz mem_new]; lia|]. exists m, pcs. auto.
Qed.
Lemma MI_clauses Q m pcs : MI Q m pcs -> mem_clauses m = Ok (vis pcs).
Proof. intros H. apply mem_clauses_ok; [apply (m_p _ _ _ H)|apply (m_g _ _ _ H)]. Qed.
Lemma history_thm mb o j os : (1 <= mb)%N -> ops_ok [] os -> exists m l, execs os (mem_new mb o j) = Ok m /\ mem_clauses m = Ok l /\ map snd l = meanings os /\ Forall (inside (pages m)) l /\ ForallOrdPairs (fun a b => ~ overlap a b) l.
Proof.
  intros HB HO. destruct (history_core os mb o j HB HO) as (m & pcs & E & HM & HV & _). exists m, (vis pcs). split; auto. split; [apply (MI_clauses _ _ _ HM)|]. split; auto. split.
  - apply Forall_forall. intros a Ha. apply (inside_ok _ _ _ _ HM Ha).
  - apply vis_disjoint. apply (m_n _ _ _ HM).
Qed.
Lemma stable_thm mb o j os m l : (1 <= mb)%N -> ops_ok [] os -> execs os (mem_new mb o j) = Ok m -> mem_clauses m = Ok l ->
  (forall ls w, (N.of_nat (length ls) < 65536)%N -> (w < 65536)%N -> exists x m', mem_create ls w m = Ok (x, m') /\ mem_clauses m' = Ok (l ++ [(x, mkC ls w)])) /\
  (forall k x c w, nth_error l k = Some (x, c) -> (w < 65536)%N -> exists m', set_weight x w m = Ok m' /\ mem_clauses m' = Ok (at_kth k (fun _ => (x, mkC (lits c) w)) l)) /\
  (forall k x c i i', nth_error l k = Some (x, c) -> i < length (lits c) -> i' < length (lits c) -> exists m', swap_lits x i i' m = Ok m' /\ mem_clauses m' = Ok (at_kth k (fun _ => (x, mkC (swapped i i' (lits c)) (wt c))) l)).
Proof.
  intros HB HO E EL. destruct (history_core os mb o j HB HO) as (m0 & pcs & E0 & HM & HV & HP & HS). rewrite E in E0. injection E0 as <-. rewrite (MI_clauses _ _ _ HM) in EL. injection EL as <-. split; [|split].
  - intros ls w H1 H2. destruct (create_ok _ ls w m pcs HM) as (x & m' & pcs' & A & B & C & D); [split; auto|rewrite HS; unfold bytes; lia|]. exists x, m'. split; auto. rewrite (MI_clauses _ _ _ B). rewrite D. auto.
  - intros k x c w Hk Hw. destruct (nth_split_vis _ _ _ Hk) as (a & b & EV & <-). destruct (set_weight_ok _ m pcs a x c b w HM EV Hw) as (m' & pcs' & A & B & C & D). exists m'. split; auto. rewrite (MI_clauses _ _ _ B), D, EV, at_kth_app. auto.
  - intros k x c i i' Hk Hi Hi'. destruct (nth_split_vis _ _ _ Hk) as (a & b & EV & <-). destruct (swap_ok _ m pcs a x c b i i' HM EV Hi Hi') as (m' & pcs' & A & B & C & D). exists m'. split; auto. rewrite (MI_clauses _ _ _ B), D, EV, at_kth_app. auto.
Qed.
Lemma reallocate_thm mb o j os m l : (1 <= mb)%N -> ops_ok [] os -> execs os (mem_new mb o j) = Ok m -> mem_clauses m = Ok l ->
  exists m' l', reallocate m = Ok m' /\ mem_clauses m' = Ok l' /\ map snd l' = filter (fun c => negb (wt c =? 65535)%N) (map snd l) /\ phase_out m' = pages m /\
    Forall (inside (pages m')) l' /\ ForallOrdPairs (fun a b => ~ overlap a b) l' /\
    mem_collect m = Ok (filter (fun a => negb (wt (snd a) =? 65535)%N) l).
Proof.
  intros HB HO E EL. destruct (history_core os mb o j HB HO) as (m0 & pcs & E0 & HM & HV & HP & HS). rewrite E in E0. injection E0 as <-. pose proof EL as EL'. rewrite (MI_clauses _ _ _ HM) in EL. injection EL as <-.
  destruct (reallocate_ok _ m pcs HM HP ltac:(rewrite HS; lia)) as (m' & pcs' & A & B & C & D & F & G & H). exists m', (vis pcs'). split; auto. split; [apply (MI_clauses _ _ _ B)|]. split; auto. split; auto. split; [|split].
  - apply Forall_forall. intros a Ha. apply (inside_ok _ _ _ _ B Ha).
  - apply vis_disjoint. apply (m_n _ _ _ B).
  - unfold mem_collect. rewrite EL'. reflexivity.
Qed.
Lemma import_thm limit mb1 mb2 j1 j2 os1 os2 m o lm lo : (1 <= mb1)%N -> (1 <= mb2)%N -> ops_ok [] os1 -> ops_ok [] os2 ->
  execs os1 (mem_new mb1 0 j1) = Ok m -> execs os2 (mem_new mb2 1 j2) = Ok o -> mem_clauses m = Ok lm -> mem_clauses o = Ok lo ->
  (exists m' o' lm', mem_import limit m o = Ok (m', o') /\ mem_clauses m' = Ok lm' /\ map snd lm' = map snd lm ++ filter (selected limit) (map snd lo) /\ mem_clauses o' = Ok (map (after_import limit) lo)) /\
  mem_clauses (fst (mem_absorb m o)) = Ok (lm ++ lo) /\ mem_clauses (snd (mem_absorb m o)) = Ok [].
Proof.
  intros B1 B2 O1 O2 E1 E2 L1 L2. destruct (history_core os1 mb1 0 j1 B1 O1) as (m0 & pm & E0 & HM & HV & HP & HS). rewrite E1 in E0. injection E0 as <-.
  destruct (history_core os2 mb2 1 j2 B2 O2) as (o0 & po & E0 & HM' & HV' & HP' & HS'). rewrite E2 in E0. injection E0 as <-.
  rewrite (MI_clauses _ _ _ HM) in L1. injection L1 as <-. rewrite (MI_clauses _ _ _ HM') in L2. injection L2 as <-. split.
  - destruct (import_ok _ _ limit m pm o po HM ltac:(rewrite HS; lia) HM') as (m' & pm' & o' & po' & E & A1 & A2 & A3 & A4 & A5 & A6). exists m', o', (vis pm'). split; auto. split; [apply (MI_clauses _ _ _ A1)|]. split; auto. rewrite (MI_clauses _ _ _ A3), A5. auto.
  - destruct (absorb_ok _ _ m pm o po HM HM' ltac:(intros; lia)) as (A1 & A2 & A3). rewrite (MI_clauses _ _ _ A1), (MI_clauses _ _ _ A2), A3. auto.
Qed.
Lemma database_thm j1 j2 os d : dhistory os db_new d -> exists s, reached j1 j2 os s /\ ds_d s = d /\
  mem_clauses (a_mem (ds_a s)) = Ok (map (fun c => (ds_addr s c, mkC (clits d c) (cwt d c))) (mem d)) /\
  mem_clauses (a_facts (ds_a s)) = Ok (map (fun c => (ds_addr s c, mkC (clits d c) (cwt d c))) (facts d)).
Proof.
  intros H. destruct (dexecs_ok os _ _ (DI_new j1 j2 (fun _ => (0, 0, 0))) H) as (s & E & HD & <-). exists s. split; [split; auto|]. split; auto.
  assert (K : forall cs, view s cs = map (fun c => (ds_addr s c, mkC (clits (ds_d s) c) (cwt (ds_d s) c))) cs).
  { intros cs. unfold view. apply map_ext. intros c. f_equal. unfold clits, cwt. destruct (cobj_at (ds_d s) c); auto. }
  rewrite <- !K. apply (DI_clauses s HD).
Qed.
Lemma stored_thm j1 j2 os s ls w : reached j1 j2 os s -> (4 * (1 + N.of_nat (length ls)) <= 32 * 1024 * 1024)%N ->
  exists x a c, alloc_create ls w (ds_a s) = Ok (x, a) /\ stored x a = Some c /\ length (lits c) = length ls mod N.to_nat 65536 /\ lits c = firstn (length ls mod N.to_nat 65536) ls /\ create_is_empty x a = (length ls mod N.to_nat 65536 =? 0).
Proof.
  intros HR HL. destruct (reached_DI _ _ _ _ HR) as (HD & HZ). destruct (stored_any s ls w HD) as (x & a & c & A1 & A2 & A3 & A4 & A5 & A6); [rewrite HZ; unfold bytes; lia|]. exists x, a, c. split; auto. split; auto. split; auto. split; auto. rewrite A6, A3. auto.
Qed.
Lemma faithful_thm j1 j2 os s ls w : reached j1 j2 os s -> (N.of_nat (length ls) < 65536)%N ->
  exists x a c, alloc_create ls w (ds_a s) = Ok (x, a) /\ stored x a = Some c /\ lits c = ls /\ create_is_empty x a = (length ls =? 0).
Proof.
  intros HR HL. destruct (stored_thm j1 j2 os s ls w HR ltac:(lia)) as (x & a & c & A1 & A2 & A3 & A4 & A5). exists x, a, c. split; auto. split; auto.
  rewrite Nat.mod_small in A4, A5 by lia. rewrite firstn_all in A4. auto.
Qed.
Lemma long_thm j1 j2 : exists ls x a, satisfiable [ls] /\ ls <> [] /\ alloc_create ls 0 (alloc_new j1 j2) = Ok (x, a) /\ create_is_empty x a = true /\ exists c, stored x a = Some c /\ lits c = [].
Proof.
  set (ls := map (fun v => mkLit v false) (seq 0 (N.to_nat 65536))). assert (HL : length ls = N.to_nat 65536) by (unfold ls; rewrite map_length, seq_length; auto).
  assert (HR : reached j1 j2 [] (mkDS db_new (alloc_new j1 j2) (fun _ => (0, 0, 0)))) by (split; cbn; auto).
  destruct (stored_thm j1 j2 [] _ ls 0 HR) as (x & a & c & A1 & A2 & A3 & A4 & A5); [rewrite HL, N2Nat.id; lia|]. exists ls, x, a.
  rewrite HL, Nat.mod_same in A4, A5 by lia. cbn [firstn] in A4. split; [|split; [|split; [|split]]]; auto.
  - exists (fun _ => true). intros c' [<-|[]]. exists (mkLit 0 false). split; [|reflexivity]. unfold ls. apply in_map_iff. exists 0. split; auto. apply in_seq. lia.
  - intros E. rewrite E in HL. cbn [length] in HL. lia.
  - exists c. auto.
Qed.
