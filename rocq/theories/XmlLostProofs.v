(** The outcome of reading documents that stand for acceptable calls. *)
From Coq Require Import List ZArith Arith Bool Ascii String Permutation Lia.
From Verif Require Import Text TextProofs ConstraintModel ConstraintSpec SourceRangeModel FeatureTreeModel FeatureTreeSpec FeatureTreeProofs FeatureTransactionModel
  FeatureEditSpec FeatureEditProofs FeatureOpsProofs FeatureHistoryProofs FeatureTransactionSpec FeatureTransactionFinal FeatureBuildSpec FeatureBuildProofs FeatureBuildFinal EditValidData
  SxfmModel XmlModel XmlSpec XmlDetectProofs XmlDetectFinal XmlReadProofs XmlFinal RegisterSpec RegisterFinal OutcomeSpec OutcomeProofs OutcomeFinal XmlOutcomeProofs LoopProofs XmlLostSpec.
Import ListNotations.

Section Lost.
Variable ord : list nid -> list nid.
Hypothesis ord_ok : is_order ord.

(** What the build leaves besides the wiring. *)
Record settled_as (cs : list bcall) (d : decl) (h : heap) (m : fmodel) (I : list nid) (dat : nid -> feature) (par : nid -> option nid) (r : nid) : Prop := SettledAs {
  st_naming : naming m I dat d;
  st_nodup : NoDup I;
  st_ids : Permutation (map snd (m_features m)) I;
  st_names : Permutation (map fst (m_features m)) (fst d :: map f_name (snd d));
  st_root : m_root m = Some r;
  st_in : In r I;
  st_dat : dat r = root_feature (fst d);
  st_kinds : forall i, In i I -> (f_kind (dat i) = FRoot <-> i = r);
  st_declared : forall f, In f (snd d) -> exists i, In i I /\ i <> r /\ dat i = f;
  st_others : forall i, In i I -> i <> r -> exists p, get_feature m (last_edge cs (f_name (dat i)) (fst d)) = Some p /\ par i = Some p;
  st_top : (forall p, ~ In (BEdge p (fst d)) cs) -> par r = None;
  st_under : (exists p, In (BEdge p (fst d)) cs) -> exists p, get_feature m (last_edge cs (fst d) (fst d)) = Some p /\ par r = Some p
}.
Lemma accepted_wired h cs d : heap_ok h -> regular cs -> requests cs = [] -> acceptable cs d ->
  exists h' m' I dat par r, build_calls ord h cs = Some (h', Some m') /\ wired h' m' I dat par [] /\ settled_as cs d h' m' I dat par r /\
    forall c, In c (all_constraints m') -> forall x, In x (leaves (c_expr c)) -> exists i, x = Ref i /\ In i I.
Proof.
  intros K [Do Dn Dg] Q [Dd De Dr]. destruct (edges_done ord h cs d K Do Dd De) as (w1 & t1 & h2 & m2 & I & dat & par & r & E1 & R1 & E2 & E).
  pose proof E as [W Nm DI Pf Rr Ir Dr0 Kr Fd Pn Pi Pt Pu (An & Ac & Ap & Ab & Anb & Am)].
  destruct (wired_relations ord ord_ok d I dat par cs h2 m2 [] [] W Nm Dr (Forall2_nil _) Dg) as (h3 & m3 & G & E3 & W3 & Fg & Gw).
  destruct Gw as (Wn & Wc & Wp & Wf & Wr & (b & Wb & Fb) & (n & Wnb & Fn) & (x & Wm & Fx)). cbn [app] in Fg. rewrite Q in Fg. inversion Fg; subst G.
  assert (C2 : consistent h2 m2 = Some true) by (apply (edged_consistent cs d h2 m2 I dat par r h2 m2 [] De E W eq_refl eq_refl)).
  assert (C3 : consistent h3 m3 = Some true) by (apply (edged_consistent cs d h2 m2 I dat par r h3 m3 [] De E W3 Wf Wr)).
  exists h3, m3, I, dat, par, r. split.
  { rewrite build_calls_queues. unfold build. cbn [b_model b_features b_tree b_relations bind]. rewrite <- surjective_pairing.
    rewrite (commit_ok _ _ _ _ _ E1 R1). cbn [bind]. rewrite (commit_fine _ _ _ _ E2 C2). cbn [bind]. rewrite (commit_fine _ _ _ _ E3 C3). reflexivity. }
  split; [exact W3|].
  assert (Ge : forall s, get_feature m3 s = get_feature m2 s) by (intros s; unfold get_feature; rewrite Wf; reflexivity).
  split.
  - constructor.
    + apply (naming_ext m2); [exact Wf|exact Nm].
    + exact DI.
    + rewrite Wf. pose proof (Permutation_map snd Pf) as X. rewrite map_map in X. cbn [snd] in X. rewrite map_id in X. exact X.
    + rewrite Wf. exact Pn.
    + congruence.
    + exact Ir.
    + exact Dr0.
    + exact Kr.
    + exact Fd.
    + intros i Ii Ni. rewrite Ge. exact (edged_par cs d h2 m2 I dat par r De E i Ii Ni).
    + exact Pt.
    + intros X. rewrite Ge. assert (taken d (last_edge cs (fst d) (fst d))) as Tk by (apply last_edge_taken; [exact De|left; reflexivity]).
      destruct (proj1 (proj2 Nm _) Tk) as (p & Gp). exists p. split; [exact Gp|]. rewrite (Pu X). exact Gp.
  - assert (Le : forall k e c, In (k, e) (constraints_of cs) -> links_to m2 e c -> forall y, In y (leaves (c_expr c)) -> exists i, y = Ref i /\ In i I).
    { intros k e c X Lk y Y. rewrite Lk, leaves_cmap in Y. apply in_map_iff in Y. destruct Y as (z & <- & Z). apply constraints_of_in in X. destruct (Dr _ X z Z) as (s & -> & Ts).
      destruct (proj1 (proj2 Nm s) Ts) as (i & Gi). exists i. cbn [pointing]. rewrite Gi. split; [reflexivity|]. apply (proj1 Nm) in Gi. tauto. }
    intros c X. unfold all_constraints in X. rewrite !in_app_iff in X. destruct X as [X|[X|X]].
    + rewrite Wb, Ab in X. cbn [app] in X. destruct (XmlDetectFinal.forall2_right _ _ _ Fb c X) as (e & Ie & Lk). unfold bools in Ie. apply in_flat_map in Ie. destruct Ie as ([k e0] & I0 & I1).
      destruct k; cbn in I1; try contradiction. destruct I1 as [->|[]]. exact (Le _ _ _ I0 Lk).
    + rewrite Wnb, Anb in X. cbn [app] in X. destruct (XmlDetectFinal.forall2_right _ _ _ Fn c X) as (e & Ie & Lk). unfold nonbools in Ie. apply in_flat_map in Ie. destruct Ie as ([k e0] & I0 & I1).
      destruct k; cbn in I1; try contradiction. destruct I1 as [->|[]]. exact (Le _ _ _ I0 Lk).
    + apply in_map_iff in X. destruct X as (y & <- & X). rewrite Wm, Am in X. cbn [app] in X. destruct (XmlDetectFinal.forall2_right _ _ _ Fx y X) as (e & Ie & Lk). unfold mixeds in Ie. apply in_flat_map in Ie. destruct Ie as ([k e0] & I0 & I1).
      destruct k; cbn in I1; try contradiction. destruct I1 as [<-|[]]. exact (Le _ _ _ I0 (proj1 Lk)).
Qed.

(** ** Alternatives *)
Lemma any_defined {A} (p : A -> option bool) l : (forall a, In a l -> exists b, p a = Some b) -> exists b, option_any p l = Some b.
Proof.
  induction l as [|a l IH]; intros E; [eexists; reflexivity|]. destruct (E a (or_introl eq_refl)) as (b & Eb). destruct IH as (c & Ec); [intros x X; apply E; right; exact X|].
  unfold option_any in *. cbn [fold_right]. rewrite Eb. cbn [bind]. rewrite Ec. eexists. reflexivity.
Qed.
Lemma all_defined {A} (p : A -> option bool) l : (forall a, In a l -> exists b, p a = Some b) -> exists b, option_all p l = Some b.
Proof.
  induction l as [|a l IH]; intros E; [eexists; reflexivity|]. destruct (E a (or_introl eq_refl)) as (b & Eb). destruct IH as (c & Ec); [intros x X; apply E; right; exact X|].
  unfold option_all in *. cbn [fold_right]. rewrite Eb. cbn [bind]. rewrite Ec. eexists. reflexivity.
Qed.

Section Detect.
Variables (cs : list bcall) (d : decl) (h : heap) (m : fmodel) (I : list nid) (dat : nid -> feature) (par : nid -> option nid) (r : nid).
Hypothesis W : wired h m I dat par [].
Hypothesis S : settled_as cs d h m I dat par r.
Hypothesis Rg : registered h m.
Hypothesis Cl : forall c, In c (all_constraints m) -> forall x, In x (leaves (c_expr c)) -> exists i, x = Ref i /\ In i I.

Lemma data_at i : In i I -> exists g, feature_at h i = Some g /\ same_data (dat i) g.
Proof. intros Ii. destruct (cell h m I dat par W i Ii) as (g & e & C & Sd & _). exists g. unfold feature_at. rewrite C. auto. Qed.
Lemma named i : In i I -> get_feature m (f_name (dat i)) = Some i.
Proof. intros Ii. apply (proj1 (st_naming _ _ _ _ _ _ _ _ S)). auto. Qed.
Lemma exclude_defined a b : In a I -> In b I -> exists x, detect_exclude h m a b = Some x.
Proof.
  intros Ia Ib. destruct (data_at a Ia) as (f & Fa & _). destruct (data_at b Ib) as (g & Fb & _). unfold detect_exclude. rewrite Fa, Fb. cbn [bind]. apply any_defined. intros id Iid.
  apply (in_excludes _ _ (rg_informed _ _ Rg) _ a f id (named a Ia) Fa) in Iid. destruct Iid as (c & Ic & Ec & _).
  assert (exists c', In c' (all_constraints m) /\ constraint_of m id = Some (c_expr c')) as (c' & Ic' & ->).
  { unfold constraint_of. destruct (find _ (all_constraints m)) as [c'|] eqn:X.
    - apply find_some in X. exists c'. split; [tauto|reflexivity].
    - apply (find_none _ _ X) in Ic. rewrite Ec, Nat.eqb_refl in Ic. discriminate. }
  cbn [bind]. specialize (Cl c' Ic'). assert (Cn : forall x, In x (leaves (c_expr c')) -> exists n, cref_name h x = Some n).
  { intros x X. destruct (Cl x X) as (i & -> & Ii). destruct (data_at i Ii) as (g' & Fg & _). cbn [cref_name]. unfold name_at. rewrite Fg. eexists. reflexivity. }
  destruct (c_expr c') as [o [| | |x] [| | |y]| | |]; try (eexists; reflexivity).
  destruct (Cn x) as (u & ->); [left; reflexivity|]. destruct (Cn y) as (v & ->); [right; left; reflexivity|]. eexists. reflexivity.
Qed.
Lemma children_defined l : incl l I -> exists b, detect_children h m l = Some b.
Proof.
  intros Il. unfold detect_children. destruct (List.length l <=? 1); [eexists; reflexivity|]. apply all_defined. intros a Ia. destruct (data_at a (Il a Ia)) as (f & -> & _). cbn [bind].
  assert (exists b, option_all (fun b => if Nat.eqb a b then Some true else let* x := detect_exclude h m a b in let* y := detect_exclude h m b a in Some (x && y)) l = Some b) as (b & ->); [|eexists; reflexivity].
  apply all_defined. intros b Ib. destruct (Nat.eqb a b); [eexists; reflexivity|]. destruct (exclude_defined a b (Il a Ia) (Il b Ib)) as (x & ->). destruct (exclude_defined b a (Il b Ib) (Il a Ia)) as (y & ->). eexists. reflexivity.
Qed.
Lemma ops_defined l : NoDup l -> incl l I -> exists qs, NoDup qs /\ incl qs l /\ fold_right (fun i o =>
    let* cs := child_features ord h i in
    let* b := detect_children h m cs in
    let* r := o in
    Some (if (b : bool) then OAddRelationship RAlternative (ByPtr i) :: r else r)) (Some []) l = Some (map (fun i => OAddRelationship RAlternative (ByPtr i)) qs).
Proof.
  induction l as [|i l IH]; intros D Il; [exists []; repeat split; [constructor|intros x []]|]. apply NoDup_cons_iff in D. destruct D as [Ni D].
  destruct IH as (qs & Dq & Iq & E); [exact D|intros x X; apply Il; right; exact X|]. cbn [fold_right]. rewrite E.
  destruct (kids ord ord_ok h m I dat par W i (Il i (or_introl eq_refl))) as (ks & -> & _ & Ck). cbn [bind]. destruct (children_defined ks) as (b & ->); [intros x X; apply Ck in X; tauto|]. cbn [bind].
  destruct b; [exists (i :: qs)|exists qs].
  - split; [constructor; [intros X; exact (Ni (Iq i X))|exact Dq]|]. split; [|reflexivity]. intros x [<-|X]; [left; reflexivity|right; exact (Iq x X)].
  - split; [exact Dq|]. split; [|reflexivity]. intros x X. right. exact (Iq x X).
Qed.

(** Adding the groups. *)
Lemma groups_run qs : forall h0 m0 G, wired h0 m0 I dat par G -> m_features m0 = m_features m -> m_root m0 = m_root m -> NoDup qs -> incl qs I -> (forall q, In q qs -> ~ In q (heads G)) ->
  exists h' m' G', run ord (map (fun i => OAddRelationship RAlternative (ByPtr i)) qs) (h0, m0) = Some ((h', m'), None) /\ wired h' m' I dat par G' /\ m_features m' = m_features m /\ m_root m' = m_root m.
Proof.
  induction qs as [|q qs IH]; intros h0 m0 G W0 Ef Er D Iq N; [exists h0, m0, G; split; [reflexivity|auto]|]. apply NoDup_cons_iff in D. destruct D as [Nq D].
  assert (Nm0 : naming m0 I dat d) by (apply (naming_ext m); [exact Ef|exact (st_naming _ _ _ _ _ _ _ _ S)]).
  assert (Gq : get_feature m0 (f_name (dat q)) = Some q) by (apply (proj1 Nm0); split; [apply Iq; left; reflexivity|reflexivity]).
  destruct (wired_group ord ord_ok h0 m0 I dat par d G RAlternative _ q W0 Nm0 Gq (N q (or_introl eq_refl))) as (h1 & E1 & W1).
  assert (X : exec ord (OAddRelationship RAlternative (ByPtr q)) (h0, m0) = exec ord (OAddRelationship RAlternative (ByName (f_name (dat q)))) (h0, m0)).
  { cbn [exec]. unfold exec_add_relationship. destruct (store_relationship h0 m0 RAlternative) as [[i h2] m2] eqn:St. cbn [resolve].
    assert (get_feature m2 (f_name (dat q)) = get_feature m0 (f_name (dat q))) as -> by (unfold store_relationship in St; destruct (h_alloc h0 _) in St; injection St as _ _ <-; reflexivity).
    rewrite Gq. reflexivity. }
  destruct (IH h1 _ _ W1) as (h' & m' & G' & E & W' & F' & R'); [exact Ef|exact Er|exact D|intros x Y; apply Iq; right; exact Y| |].
  { intros x Y Z. unfold heads in Z. rewrite map_app in Z. apply in_app_iff in Z. destruct Z as [Z|[Z|[]]]; [exact (N x (or_intror Y) Z)|]. cbn in Z. subst x. contradiction. }
  exists h', m', G'. split; [|auto]. cbn [map run]. rewrite X, E1. cbn [bind]. exact E.
Qed.
Lemma wired_consistent_here h' m' G : wired h' m' I dat par G -> m_features m' = m_features m -> m_root m' = m_root m -> consistent h' m' = Some true.
Proof.
  intros W' Ef Er. destruct S as [Nm DI Pi Pn Rr Ir Dr Kr Fd Ot Tp Un]. apply (wired_consistent h' m' I dat par G r W').
  - rewrite Ef. exact Pi.
  - exact DI.
  - congruence.
  - exact Ir.
  - exact Kr.
  - intros i Ii Ni X. destruct (Ot i Ii Ni) as (p & _ & P). congruence.
Qed.
Lemma parent_wired h' m' G i : wired h' m' I dat par G -> In i I -> parent_feature h' i = Some (par i).
Proof.
  intros [Ok Er Pa Ce Gr] Ii. destruct (Ce i Ii) as (g & e & C & _). unfold parent_feature. rewrite C. cbn [bind n_parent]. destruct (par i) as [p|] eqn:Pi; [|reflexivity]. cbn [option_map].
  destruct (Pa i p Ii Pi) as [Ip _]. destruct (Ce p Ip) as (gp & ep & Cp & _). destruct (in_dec Nat.eq_dec p (heads G)) as [Hp|Hp].
  - destruct (host_in G p Hp) as (k & X). destruct (Gr _ _ _ X) as (_ & eq & Cq & _). cbn [first_feature]. rewrite Cq. cbn [bind n_data is_feature n_parent].
    destruct (h_next h') as [|n] eqn:Hn; [rewrite (Ok p) in Cp; [discriminate|lia]|]. cbn [first_feature]. rewrite Cp. reflexivity.
  - rewrite host_head by exact Hp. cbn [first_feature]. rewrite Cp. reflexivity.
Qed.

(** Below the root. *)
Notation up := (fun t => last_edge cs t (fst d)).
Lemma under_leads i : under I par r i -> In i I /\ leads up (fst d) (f_name (dat i)).
Proof.
  destruct S as [Nm DI Pi Pn Rr Ir Dr Kr Fd Ot Tp Un]. induction 1 as [|i p Ii Pp Up IH].
  - split; [exact Ir|]. rewrite Dr. constructor.
  - split; [exact Ii|]. destruct (Nat.eq_dec i r) as [->|Ni]; [rewrite Dr; constructor|]. apply leads_up. destruct (Ot i Ii Ni) as (q & Gq & Pq). rewrite Pp in Pq. injection Pq as <-.
    apply (proj1 Nm) in Gq. destruct Gq as [_ <-]. exact (proj2 IH).
Qed.
Lemma leads_under s : leads up (fst d) s -> forall i, In i I -> f_name (dat i) = s -> under I par r i.
Proof.
  destruct S as [Nm DI Pi Pn Rr Ir Dr Kr Fd Ot Tp Un].
  assert (Top : forall i, In i I -> f_name (dat i) = fst d -> i = r).
  { intros i Ii E. assert (get_feature m (fst d) = Some i) as A by (apply (proj1 Nm); auto). assert (get_feature m (fst d) = Some r) as B by (apply (proj1 Nm); split; [exact Ir|rewrite Dr; reflexivity]). congruence. }
  induction 1 as [|s L IH]; intros i Ii E; [rewrite (Top i Ii E); constructor|]. destruct (Nat.eq_dec i r) as [->|Ni]; [constructor|].
  destruct (Ot i Ii Ni) as (p & Gp & Pp). eapply under_step; [exact Ii|exact Pp|]. rewrite E in Gp. apply (proj1 Nm) in Gp. destruct Gp as [Ip Np]. exact (IH p Ip Np).
Qed.

Lemma detected : (lost cs d /\ detect ord h m = None) \/ (~ lost cs d /\ exists h' m', detect ord h m = Some (h', m') /\ placed_as cs d h' m').
Proof.
  pose proof S as [Nm DI Pi Pn Rr Ir Dr Kr Fd Ot Tp Un].
  assert (C0 : consistent h m = Some true) by (apply (wired_consistent_here h m [] W); reflexivity).
  assert (Low : forall q, par r = Some q -> low dat q = lower (last_edge cs (fst d) (fst d)) /\ exists p, In (BEdge p (fst d)) cs).
  { intros q Q. destruct (edge_dec cs (fst d)) as [X|X]; [|rewrite (Tp X) in Q; discriminate]. split; [|exact X]. destruct (Un X) as (p & Gp & Pp). rewrite Q in Pp. injection Pp as <-.
    apply (proj1 Nm) in Gp. unfold low. rewrite (proj2 Gp). reflexivity. }
  destruct (iterate_any ord ord_ok h m I dat par W DI r Ir Rr) as [(out & E & Do & Io & St)|(E & q & Q & N)].
  - right. split.
    + intros [X L]. destruct (Un X) as (p & Gp & Pp). destruct (St p Pp) as (x & Ux & Lx). destruct (Low p Pp) as [Lp _]. destruct (under_leads x Ux) as [Ix Lix].
      apply (L (f_name (dat x))); [|exact Lix|].
      * apply (proj2 Nm). exists x. apply (proj1 Nm). auto.
      * rewrite <- Lp, <- Lx. reflexivity.
    + destruct (ops_defined out Do Io) as (qs & Dq & Iq & Eq). destruct (groups_run qs h m [] W eq_refl eq_refl Dq) as (h' & m' & G' & Er & W' & F' & R'); [intros x X; apply Io, Iq, X|intros x _ []|].
      exists h', m'. assert (C' : consistent h' m' = Some true) by (apply (wired_consistent_here h' m' G' W' F' R')). split.
      * unfold detect, open_modify. cbn [fst snd]. rewrite C0. cbn [bind mtx_start t_open]. rewrite E. cbn [bind]. rewrite Eq. cbn [bind].
        rewrite (commit_fine ord _ _ _ Er C'). reflexivity.
      * assert (Ge : forall s, get_feature m' s = get_feature m s) by (intros s; unfold get_feature; rewrite F'; reflexivity).
        assert (Da : forall i, In i I -> exists g, feature_at h' i = Some g /\ same_data (dat i) g).
        { intros i Ii. destruct (wi_cells _ _ _ _ _ _ W' i Ii) as (g & e & C & Sd & _). exists g. unfold feature_at. rewrite C. auto. }
        assert (Pw : forall i, In i I -> parent_feature h' i = Some (par i)) by (intros i Ii; exact (parent_wired h' m' G' i W' Ii)).
        constructor.
        -- exact C'.
        -- rewrite F'. exact Pn.
        -- destruct (Da r Ir) as (g & Fg & Sg). exists r, g. split; [congruence|]. split; [rewrite Ge; apply (proj1 Nm); split; [exact Ir|rewrite Dr; reflexivity]|]. split; [exact Fg|]. rewrite <- Dr. exact Sg.
        -- intros f If. destruct (Fd f If) as (i & Ii & _ & <-). destruct (Da i Ii) as (g & Fg & Sg). exists i, g. split; [rewrite Ge; apply (proj1 Nm); auto|auto].
        -- intros f If. destruct (Fd f If) as (i & Ii & Ni & <-). destruct (Ot i Ii Ni) as (p & Gp & Pp). exists i, p. split; [rewrite Ge; apply (proj1 Nm); auto|]. split; [rewrite Ge; exact Gp|]. rewrite (Pw i Ii), Pp. reflexivity.
        -- intros r' Er'. assert (r' = r) as -> by congruence. split.
           ++ intros X. rewrite (Pw r Ir), (Tp X). reflexivity.
           ++ intros X. destruct (Un X) as (p & Gp & Pp). exists p. split; [rewrite Ge; exact Gp|]. rewrite (Pw r Ir), Pp. reflexivity.
  - left. destruct (Low q Q) as [Lq X]. split.
    + split; [exact X|]. intros s Ts Ls Es. destruct (proj1 (proj2 Nm s) Ts) as (i & Gi). apply (proj1 Nm) in Gi. destruct Gi as [Ii Ni]. apply (N i (leads_under s Ls i Ii Ni)). unfold low at 1. rewrite Ni, Es, Lq. reflexivity.
    + unfold detect, open_modify. cbn [fst snd]. rewrite C0. cbn [bind]. rewrite E. reflexivity.
Qed.
End Detect.

Variables (sci : text -> option text) (step : text -> sx (option (Z -> option Z))).
Lemma document_placed cwd h e cs d : heap_ok h -> valid e = true -> stands sci step cwd e cs -> acceptable cs d ->
  (lost cs d /\ read_xml ord sci step cwd h e = SxUndefined) \/
  (~ lost cs d /\ exists h' m', read_xml ord sci step cwd h e = SxDone (h', Some m') /\ placed_as cs d h' m').
Proof.
  intros K V Sd A. pose proof (stands_plain sci step cwd e cs Sd) as P. pose proof (stands_regular sci step cwd e cs Sd) as R.
  destruct (accepted_wired h cs d K R (plain_requests _ P) A) as (h1 & m1 & I & dat & par & r & B & W & St & Cl).
  assert (Rg : registered h1 m1).
  { apply (build_registered ord h cs h1 m1 K); [|exact B]. rewrite Forall_forall in P. intros c Ic. specialize (P c Ic). destruct c; exact P || exact Logic.I. }
  unfold read_xml. rewrite V. apply (read_vm_iff sci step cwd e cs V) in Sd. rewrite Sd. cbn [sx_bind]. rewrite B.
  destruct (detected cs d h1 m1 I dat par r W St Rg Cl) as [[L ->]|[L (h' & m' & -> & Pl)]]; [left; auto|right; split; [exact L|]; eauto].
Qed.
Lemma undefined_exactly cwd h e cs d : heap_ok h -> valid e = true -> stands sci step cwd e cs -> acceptable cs d ->
  (read_xml ord sci step cwd h e = SxUndefined <-> lost cs d).
Proof. intros K V Sd A. destruct (document_placed cwd h e cs d K V Sd A) as [[L E]|[L (h' & m' & E & _)]]; rewrite E; split; auto; [discriminate|contradiction]. Qed.
Lemma placed_otherwise cwd h e cs d : heap_ok h -> valid e = true -> stands sci step cwd e cs -> acceptable cs d -> ~ lost cs d ->
  exists h' m', read_xml ord sci step cwd h e = SxDone (h', Some m') /\ placed_as cs d h' m'.
Proof. intros K V Sd A N. destruct (document_placed cwd h e cs d K V Sd A) as [[L _]|[_ X]]; [contradiction|exact X]. Qed.
End Lost.
