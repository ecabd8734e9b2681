(** The outcome of building, for all sequences of calls. *)
From Coq Require Import List Arith Bool Ascii String Permutation Lia.
From Verif Require Import Text TextProofs ConstraintModel ConstraintSpec SourceRangeModel FeatureTreeModel FeatureTreeSpec FeatureTreeProofs FeatureTransactionModel
  FeatureEditSpec FeatureEditProofs FeatureOpsProofs FeatureRemoveProofs FeatureGroupProofs FeatureDataProofs FeatureRootProofs FeatureHistoryProofs
  FeatureTransactionSpec FeatureTransactionFinal FeatureBuildSpec FeatureBuildProofs FeatureBuildFinal OutcomeSpec OutcomeProofs.
Import ListNotations.

Section Outcome.
Variable ord : list nid -> list nid.
Hypothesis ord_ok : is_order ord.

(** The state after the edges. *)
Record edged (cs : list bcall) (d : decl) (h : heap) (m : fmodel) (I : list nid) (dat : nid -> feature) (par : nid -> option nid) (r : nid) : Prop := Edged {
  eg_wired : wired h m I dat par [];
  eg_naming : naming m I dat d;
  eg_nodup : NoDup I;
  eg_features : Permutation (m_features m) (map (fun j => (f_name (dat j), j)) I);
  eg_root : m_root m = Some r;
  eg_in : In r I;
  eg_dat : dat r = root_feature (fst d);
  eg_kinds : forall i, In i I -> (f_kind (dat i) = FRoot <-> i = r);
  eg_declared : forall f, In f (snd d) -> exists i, In i I /\ i <> r /\ dat i = f;
  eg_names : Permutation (map fst (m_features m)) (fst d :: map f_name (snd d));
  eg_others : forall i, In i I -> i <> r -> par i = get_feature m (last_edge cs (f_name (dat i)) (fst d));
  eg_top : (forall p, ~ In (BEdge p (fst d)) cs) -> par r = None;
  eg_under : (exists p, In (BEdge p (fst d)) cs) -> par r = get_feature m (last_edge cs (fst d) (fst d));
  eg_attrs : m_name m = last_name cs (T "FeatureModel") /\ m_commit m = last_commit cs [] /\ m_path m = last_path cs [] /\ m_boolean m = [] /\ m_nonboolean m = [] /\ m_mixed m = []
}.

Lemma edges_done h cs d : heap_ok h -> (forall c, In c cs -> ordinary c) -> declares (default_root, []) cs d -> (forall c, In c cs -> edge_ok d c) ->
  exists w1 t1 h2 m2 I dat par r, run ord (feature_ops cs) (new_model h) = Some (w1, None) /\ represents (fst w1) (snd w1) t1 /\
    run ord (tree_ops cs) w1 = Some ((h2, m2), None) /\ edged cs d h2 m2 I dat par r.
Proof.
  intros K Do Dd De.
  destruct (declared ord h cs d K Dd Do) as (h1 & m1 & L & r & E1 & R1 & EL & S1 & Rel1).
  destruct (flat_linked h1 m1 r (fst d) L R1) as (Li1 & Nm & Pf & A). rewrite EL, <- surjective_pairing in Nm.
  set (I := r :: map fst L) in *. set (dat := flat_dat r (fst d) L) in *.
  assert (Dn : dat r = root_feature (fst d)) by (unfold dat, flat_dat; rewrite Nat.eqb_refl; reflexivity).
  assert (Ir : In r I) by (left; reflexivity).
  pose proof (rep_ids _ _ _ R1) as DI. rewrite ids_flat in DI. fold I in DI.
  assert (Gr : get_feature m1 (fst d) = Some r) by (apply (proj1 Nm); split; [exact Ir|rewrite Dn; reflexivity]).
  destruct (edges_run ord d I dat cs h1 m1 (flat_par r) (flat_ed r L) Li1 Nm De) as (h2 & m2 & par & ed & E2 & Li2 & S2 & P2 & Q2).
  destruct S2 as (Sn & Sc & Sp & Sr & Sf & Srel & Sb & Snb & Sm).
  assert (Ge : forall s, get_feature m2 s = get_feature m1 s) by (intros s; unfold get_feature; rewrite Sf; reflexivity).
  assert (Nm2 : naming m2 I dat d) by (apply (naming_ext m1); assumption).
  assert (Fd : forall i, In i I -> i <> r -> In (dat i) (snd d)).
  { intros i [<-|Ii] Ni; [contradiction|]. apply in_map_iff in Ii. destruct Ii as (e & <- & Ie). rewrite (A e Ie), <- EL. apply in_map. exact Ie. }
  assert (Pi : forall i, In i I -> i <> r -> par i = get_feature m1 (last_edge cs (f_name (dat i)) (fst d))).
  { intros i Ii Ni. apply P2; [exact Ii|]. unfold flat_par. destruct (Nat.eqb_spec i r); [contradiction|]. symmetry. exact Gr. }
  assert (Pt : (forall p, ~ In (BEdge p (fst d)) cs) -> par r = None).
  { intros N. rewrite (Q2 r Ir); [unfold flat_par; rewrite Nat.eqb_refl; reflexivity|]. intros p s X. rewrite Dn. cbn. intros ->. exact (N p X). }
  assert (Pu : (exists p, In (BEdge p (fst d)) cs) -> par r = get_feature m1 (last_edge cs (fst d) (fst d))).
  { intros X. destruct (fresh_name m1) as (s & Fs). rewrite (last_edge_any cs (fst d) (fst d) s X). rewrite (P2 r s Ir); [rewrite Dn; reflexivity|]. unfold flat_par. rewrite Nat.eqb_refl. symmetry. exact Fs. }
  exists (h1, m1), (flat r (fst d) L), h2, m2, I, dat, par, r. split; [exact E1|]. split; [exact R1|]. split; [exact E2|].
  destruct S1 as (Tn & Tp & Tc & Tb & Tnb & Tm). constructor.
  - constructor.
    + exact (li_ok _ _ _ _ _ Li2).
    + cbn. congruence.
    + intros i p Ii X. split; [exact (li_par _ _ _ _ _ Li2 i p Ii X)|]. intros ->.
      destruct (Nat.eq_dec i r) as [->|Ni].
      * destruct (edge_dec cs (fst d)) as [Y|Y]; [|rewrite (Pt Y) in X; discriminate]. rewrite (Pu Y) in X. apply (proj1 Nm) in X. destruct X as [_ X]. rewrite Dn in X. cbn in X.
        destruct (fresh_name m1) as (s & Fs). rewrite (last_edge_any cs (fst d) (fst d) s Y) in X. apply (last_edge_neq d cs (fst d) s De); [|congruence]. intros ->. congruence.
      * rewrite (Pi i Ii Ni) in X. apply (proj1 Nm) in X. destruct X as [_ X]. apply (last_edge_neq d cs (f_name (dat i)) (fst d) De); [|congruence].
        intros Z. apply Ni. assert (get_feature m1 (fst d) = Some i) as W by (apply (proj1 Nm); auto). congruence.
    + intros i Ii. exists (dat i), (ed i). split; [rewrite (li_cells _ _ _ _ _ Li2 i Ii); do 2 f_equal; destruct (par i); reflexivity|]. split; [repeat split|].
      intros _. split; [exact (li_nodup _ _ _ _ _ Li2 i Ii)|]. intros j. exact (li_edges _ _ _ _ _ Li2 i j Ii).
    + intros p k q [].
  - exact Nm2.
  - exact DI.
  - rewrite Sf. exact Pf.
  - rewrite Sr. exact (rep_root _ _ _ R1).
  - exact Ir.
  - exact Dn.
  - intros i Ii. split; intros X; [|subst i; rewrite Dn; reflexivity]. destruct (Nat.eq_dec i r) as [->|Ni]; [reflexivity|]. exfalso.
    destruct (declares_from cs _ d (dat i) Dd (Fd i Ii Ni)) as [Y|Y]; [destruct Y|]. exact (Do _ Y X).
  - intros f If. rewrite <- EL in If. apply in_map_iff in If. destruct If as (e & <- & Ie). exists (fst e). split; [right; apply in_map; exact Ie|]. split; [|apply A; exact Ie].
    apply NoDup_cons_iff in DI. intros X. apply (proj1 DI). rewrite <- X. apply in_map. exact Ie.
  - rewrite Sf. pose proof (Permutation_map fst Pf) as Pm. rewrite map_map in Pm. cbn [fst] in Pm. rewrite Pm. unfold I. cbn [map].
    rewrite Dn. cbn [root_feature f_name new_feature]. apply Permutation_refl'. f_equal. rewrite <- EL, !map_map. apply map_ext_in.
    intros e Ie. rewrite (A e Ie). reflexivity.
  - intros i Ii Ni. rewrite Ge. exact (Pi i Ii Ni).
  - exact Pt.
  - intros X. rewrite Ge. exact (Pu X).
  - rewrite Sn, Sc, Sp, Sb, Snb, Sm, Tn, Tc, Tp, Tb, Tnb, Tm. repeat split.
Qed.

Lemma edged_par cs d h m I dat par r : (forall c, In c cs -> edge_ok d c) -> edged cs d h m I dat par r -> forall i, In i I -> i <> r ->
  exists p, get_feature m (last_edge cs (f_name (dat i)) (fst d)) = Some p /\ par i = Some p.
Proof.
  intros De E i Ii Ni. rewrite (eg_others _ _ _ _ _ _ _ _ E i Ii Ni).
  assert (taken d (last_edge cs (f_name (dat i)) (fst d))) as Tk by (apply last_edge_taken; [exact De|left; reflexivity]).
  destruct (proj1 (proj2 (eg_naming _ _ _ _ _ _ _ _ E) _) Tk) as (p & Gp). eauto.
Qed.

Lemma edged_consistent cs d h m I dat par r h' m' G : (forall c, In c cs -> edge_ok d c) -> edged cs d h m I dat par r ->
  wired h' m' I dat par G -> m_features m' = m_features m -> m_root m' = m_root m -> consistent h' m' = Some true.
Proof.
  intros De E W Ef Er. apply (wired_consistent h' m' I dat par G r W).
  - rewrite Ef. pose proof (Permutation_map snd (eg_features _ _ _ _ _ _ _ _ E)) as X. rewrite map_map in X. cbn [snd] in X. rewrite map_id in X. exact X.
  - exact (eg_nodup _ _ _ _ _ _ _ _ E).
  - rewrite Er. exact (eg_root _ _ _ _ _ _ _ _ E).
  - exact (eg_in _ _ _ _ _ _ _ _ E).
  - exact (eg_kinds _ _ _ _ _ _ _ _ E).
  - intros i Ii Ni X. destruct (edged_par cs d h m I dat par r De E i Ii Ni) as (p & _ & P). congruence.
Qed.

Lemma commit_fine q w w' : run ord q w = Some (w', None) -> consistent (fst w') (snd w') = Some true ->
  commit_modify ord (Mtx true q) w = Some (Mtx false q, w', None).
Proof. intros E R. unfold commit_modify. cbn [t_open t_queue]. rewrite E. cbn [bind]. rewrite R. reflexivity. Qed.

(** What the relations leave. *)
Lemma wired_hangs h m m0 I dat par d G rs i s p : wired h m I dat par G -> naming m0 I dat d -> Forall2 (corr m0) G rs ->
  In i I -> par i = Some p -> get_feature m0 s = Some p -> hangs h i p (request_for rs s).
Proof.
  intros W Nm F Ii Pi Gs. destruct (wi_cells _ _ _ _ _ _ W i Ii) as (g & e & C & _). rewrite Pi in C. cbn [option_map] in C.
  eexists. split; [exact C|]. cbn [n_parent]. pose proof (request_host m0 I dat d G rs s p Nm F Gs) as Rq. destruct (request_for rs s) as [k|].
  - destruct (wi_groups _ _ _ _ _ _ W p k _ Rq) as (_ & e1 & Cq & _). exists (host G p). eexists. split; [reflexivity|]. split; [exact Cq|]. split; reflexivity.
  - rewrite Rq. reflexivity.
Qed.

Lemma accepted_builds h cs d : heap_ok h -> regular cs -> acceptable cs d ->
  exists h' m', build_calls ord h cs = Some (h', Some m') /\ linked_as cs d h' m' /\ heap_ok h'.
Proof.
  intros K [Do Dn Dg] [Dd De Dr]. destruct (edges_done h cs d K Do Dd De) as (w1 & t1 & h2 & m2 & I & dat & par & r & E1 & R1 & E2 & E).
  pose proof E as [W Nm DI Pf Rr Ir Dr0 Kr Fd Pn Pi Pt Pu (An & Ac & Ap & Ab & Anb & Am)].
  destruct (wired_relations ord ord_ok d I dat par cs h2 m2 [] [] W Nm Dr (Forall2_nil _) Dg) as (h3 & m3 & G & E3 & W3 & Fg & Gw).
  destruct Gw as (Wn & Wc & Wp & Wf & Wr & (b & Wb & Fb) & (n & Wnb & Fn) & (x & Wm & Fx)). cbn [app] in Fg.
  assert (C2 : consistent h2 m2 = Some true) by (apply (edged_consistent cs d h2 m2 I dat par r h2 m2 [] De E W eq_refl eq_refl)).
  assert (C3 : consistent h3 m3 = Some true) by (apply (edged_consistent cs d h2 m2 I dat par r h3 m3 G De E W3 Wf Wr)).
  exists h3, m3. split.
  { rewrite build_calls_queues. unfold build. cbn [b_model b_features b_tree b_relations bind]. rewrite <- surjective_pairing.
    rewrite (commit_ok _ _ _ _ _ E1 R1). cbn [bind]. rewrite (commit_fine _ _ _ E2 C2). cbn [bind]. rewrite (commit_fine _ _ _ E3 C3). reflexivity. }
  split; [|exact (wi_ok _ _ _ _ _ _ W3)].
  assert (Ge : forall s, get_feature m3 s = get_feature m2 s) by (intros s; unfold get_feature; rewrite Wf; reflexivity).
  assert (Le : forall e c, links_to m2 e c -> links_to m3 e c) by (apply links_to_ext; congruence).
  assert (Gr : get_feature m2 (fst d) = Some r) by (apply (proj1 Nm); split; [exact Ir|rewrite Dr0; reflexivity]).
  constructor.
  - exact C3.
  - congruence.
  - congruence.
  - congruence.
  - rewrite Wf. exact Pn.
  - destruct (wi_cells _ _ _ _ _ _ W3 r Ir) as (g & e & C & Sd & _). exists r, g. split; [congruence|]. split; [rewrite Ge; exact Gr|]. split; [unfold feature_at; rewrite C; reflexivity|]. rewrite <- Dr0. exact Sd.
  - intros f If. destruct (Fd f If) as (i & Ii & Ni & <-). destruct (wi_cells _ _ _ _ _ _ W3 i Ii) as (g & e & C & Sd & _). exists i, g. split; [rewrite Ge; apply (proj1 Nm); auto|]. split; [unfold feature_at; rewrite C; reflexivity|exact Sd].
  - intros f If s. destruct (Fd f If) as (i & Ii & Ni & Ei). subst f. destruct (edged_par cs d h2 m2 I dat par r De E i Ii Ni) as (p & Gp & Pp). fold s in Gp.
    exists i, p. split; [rewrite Ge; apply (proj1 Nm); auto|]. split; [rewrite Ge; exact Gp|]. apply (wired_hangs h3 m3 m2 I dat par d G _ i s p W3 Nm Fg Ii Pp Gp).
  - intros r' Er s. assert (r' = r) as -> by congruence. destruct (edge_dec cs (fst d)) as [X|X].
    + assert (s <> fst d) as Ns.
      { unfold s. destruct (fresh_name m2) as (u & Fu). rewrite (last_edge_any cs (fst d) (fst d) u X). apply (last_edge_neq d); [exact De|]. intros ->. congruence. }
      split; [contradiction|]. intros _. pose proof (Pu X) as Pr. fold s in Pr.
      assert (taken d s) as Tk by (apply last_edge_taken; [exact De|left; reflexivity]). destruct (proj1 (proj2 Nm _) Tk) as (p & Gp). exists p. split; [rewrite Ge; exact Gp|].
      apply (wired_hangs h3 m3 m2 I dat par d G _ r s p W3 Nm Fg Ir); [congruence|exact Gp].
    + split; [|intros N; exfalso; apply N; apply last_edge_none; exact X]. intros _. destruct (wi_cells _ _ _ _ _ _ W3 r Ir) as (g & e & C & _). eexists. split; [exact C|]. cbn [n_parent]. rewrite (Pt X). reflexivity.
  - rewrite (wi_rels _ _ _ _ _ _ W3). pose proof (wi_groups _ _ _ _ _ _ W3) as Cg. revert Fg Cg. generalize (requests cs). clear -Ge.
    induction G as [|[[p k] q] G IH]; intros rs F Cg; inversion F as [|? [t k'] ? ? [E1 E2] F']; subst; [constructor|].
    constructor; [|apply IH; [exact F'|intros a b c X; apply Cg; right; exact X]]. cbn [fst snd] in *. destruct (Cg p k q (or_introl eq_refl)) as (_ & e & Cq & _).
    eexists. split; [exact Cq|]. split; [cbn; congruence|]. cbn. rewrite Ge. symmetry. exact E1.
  - rewrite Wb, Ab. cbn [app]. eapply forall2_impl; [exact Le|exact Fb].
  - rewrite Wnb, Anb. cbn [app]. eapply forall2_impl; [exact Le|exact Fn].
  - rewrite Wm, Am. cbn [app]. eapply forall2_impl; [|exact Fx]. intros a c (A1 & A2). split; [apply Le; exact A1|exact A2].
Qed.

(** ** Failures *)
Lemma first_bad {A} (P : A -> Prop) (Dec : forall a, P a \/ ~ P a) l : (forall a, In a l -> P a) \/ exists a c b, l = a ++ c :: b /\ (forall x, In x a -> P x) /\ ~ P c.
Proof.
  induction l as [|c l IH]; [left; intros a []|]. destruct (Dec c) as [Pc|N].
  - destruct IH as [F|(a & x & b & -> & F & N)]; [left; intros y [<-|Y]; auto|]. right. exists (c :: a), x, b. split; [reflexivity|]. split; [intros y [<-|Y]; auto|exact N].
  - right. exists [], c, l. split; [reflexivity|]. split; [intros x []|exact N].
Qed.
Lemma edge_ok_dec d c : edge_ok d c \/ ~ edge_ok d c.
Proof.
  destruct c as [f|s|p s|k p|k e|s|s|s]; cbn; auto. destruct (taken_dec d p) as [A|A]; [|tauto]. destruct (taken_dec d s) as [B|B]; [|tauto].
  destruct (text_eqb p s) eqn:E; [apply text_eqb_eq in E; tauto|apply text_eqb_neq in E; tauto].
Qed.
Lemma leaves_dec d (e : cexpr cref) : (forall r, In r (leaves e) -> exists s, r = Own s) -> mentions_declared d e \/ exists s, In (Own s) (leaves e) /\ ~ taken d s.
Proof.
  unfold mentions_declared. generalize (leaves e). induction l as [|r l IH]; intros O; [left; intros r []|].
  destruct (O r (or_introl eq_refl)) as (s & ->). destruct IH as [M|(t & I & N)]; [intros x X; apply O; right; exact X| |right; exists t; split; [right; exact I|exact N]].
  destruct (taken_dec d s) as [Y|N]; [|right; exists s; split; [left; reflexivity|exact N]]. left. intros x [<-|X]; [eauto|auto].
Qed.
Lemma relation_ok_dec d c : by_name c -> relation_ok d c \/ ~ relation_ok d c.
Proof.
  destruct c as [f|s|p s|k p|k e|s|s|s]; cbn; auto; intros O.
  - apply taken_dec.
  - destruct (leaves_dec d e O) as [M|(s & I & N)]; [left; exact M|]. right. intros M. destruct (M _ I) as (t & X & Y). congruence.
Qed.
Lemma first_bad_rel d l : (forall c, In c l -> by_name c) -> (forall a, In a l -> relation_ok d a) \/ exists a c b, l = a ++ c :: b /\ (forall x, In x a -> relation_ok d x) /\ ~ relation_ok d c.
Proof.
  induction l as [|c l IH]; intros O; [left; intros a []|]. destruct (relation_ok_dec d c (O c (or_introl eq_refl))) as [Pc|N].
  - destruct IH as [F|(a & x & b & -> & F & N)]; [intros x X; apply O; right; exact X|left; intros y [<-|Y]; auto|]. right. exists (c :: a), x, b. split; [reflexivity|]. split; [intros y [<-|Y]; auto|exact N].
  - right. exists [], c, l. split; [reflexivity|]. split; [intros x []|exact N].
Qed.

Lemma relations_split a c b : relation_ops (a ++ c :: b) = relation_ops a ++ relation_ops (c :: b).
Proof. unfold relation_ops. apply flat_map_app. Qed.

Lemma relations_before h cs d a c b : heap_ok h -> regular cs -> declares (default_root, []) cs d -> (forall x, In x cs -> edge_ok d x) ->
  cs = a ++ c :: b -> (forall x, In x a -> relation_ok d x) ->
  exists w1 w2 h3 m3 I dat par G, commit_modify ord (Mtx true (feature_ops cs)) (new_model h) = Some (Mtx false (feature_ops cs), w1, None) /\
    commit_modify ord (Mtx true (tree_ops cs)) w1 = Some (Mtx false (tree_ops cs), w2, None) /\
    run ord (relation_ops a) w2 = Some ((h3, m3), None) /\ wired h3 m3 I dat par G /\ naming m3 I dat d.
Proof.
  intros K [Do Dn Dg] Dd De Ec Dr. destruct (edges_done h cs d K Do Dd De) as (w1 & t1 & h2 & m2 & I & dat & par & r & E1 & R1 & E2 & E).
  pose proof (eg_wired _ _ _ _ _ _ _ _ E) as W. pose proof (eg_naming _ _ _ _ _ _ _ _ E) as Nm.
  assert (Ng : NoDup (map fst ([] ++ requests a))).
  { cbn [app]. rewrite Ec in Dg. unfold requests in Dg. rewrite flat_map_app, map_app in Dg. apply nodup_app in Dg. apply Dg. }
  destruct (wired_relations ord ord_ok d I dat par a h2 m2 [] [] W Nm Dr (Forall2_nil _) Ng) as (h3 & m3 & G & E3 & W3 & Fg & Gw).
  assert (C2 : consistent h2 m2 = Some true) by (apply (edged_consistent cs d h2 m2 I dat par r h2 m2 [] De E W eq_refl eq_refl)).
  exists w1, (h2, m2), h3, m3, I, dat, par, G. split; [exact (commit_ok _ _ _ _ _ E1 R1)|]. split; [exact (commit_fine _ _ _ E2 C2)|]. split; [exact E3|]. split; [exact W3|].
  destruct Gw as (_ & _ & _ & Wf & _). exact (naming_ext m2 m3 I dat d Wf Nm).
Qed.

Lemma misgrouped_undefined h cs : heap_ok h -> regular cs -> misgrouped cs -> build_calls ord h cs = None.
Proof.
  intros K R (d & a & k & p & b & Ec & Dd & De & Dr & N).
  destruct (relations_before h cs d a _ b K R Dd De Ec Dr) as (w1 & w2 & h3 & m3 & I & dat & par & G & E1 & E2 & E3 & W & Nm).
  rewrite build_calls_queues. unfold build. cbn [b_model b_features b_tree b_relations bind]. rewrite <- surjective_pairing.
  rewrite E1. cbn [bind]. rewrite E2. cbn [bind].
  unfold commit_modify. cbn [t_open t_queue]. rewrite Ec, relations_split, run_app, E3. cbn [relation_ops flat_map app run exec].
  unfold exec_add_relationship, store_relationship. destruct (h_alloc h3 _) as [i h4]. cbn [resolve].
  change (get_feature (with_relationships m3 (m_relationships m3 ++ [i])) p) with (get_feature m3 p).
  destruct (get_feature m3 p) as [j|] eqn:Gp; [|reflexivity]. exfalso. apply N. apply (proj2 Nm). eauto.
Qed.

Lemma otherwise_null h cs : heap_ok h -> regular cs -> (forall d, ~ acceptable cs d) -> ~ misgrouped cs -> exists h', build_calls ord h cs = Some (h', None).
Proof.
  intros K R Na Nm. pose proof R as [Do Dn Dg]. destruct (declares_or_clash cs (default_root, [])) as [(d & Dd)|(a & c & b & e & -> & Da & C)].
  2: { apply (build_clash ord h a c b e K Da); [intros x X; apply Do; apply in_or_app; left; exact X|exact C]. }
  destruct (first_bad (edge_ok d) (edge_ok_dec d) cs) as [De|(a & c & b & -> & Oa & Nc)].
  2: { destruct c as [f|s|p s|k p|k x|s|s|s]; cbn in Nc; try (exfalso; apply Nc; exact Logic.I). apply (build_bad_edge ord h a p s b d K Dd Do Oa).
       destruct (taken_dec d p) as [A|A]; [|auto]. destruct (taken_dec d s) as [B|B]; [|auto]. right. right. destruct (text_eqb p s) eqn:E; [apply text_eqb_eq; exact E|]. apply text_eqb_neq in E. tauto. }
  destruct (first_bad_rel d cs Dn) as [Dr|(a & c & b & Ec & Oa & Nc)]; [exfalso; apply (Na d); constructor; assumption|].
  destruct (relations_before h cs d a c b K R Dd De Ec Oa) as (w1 & w2 & h3 & m3 & I & dat & par & G & E1 & E2 & E3 & W & Nm3).
  destruct c as [f|s|p s|k p|k x|s|s|s]; cbn in Nc; try (exfalso; apply Nc; exact Logic.I).
  - exfalso. apply Nm. exists d, a, k, p, b. auto.
  - assert (O : forall r, In r (leaves x) -> exists s, r = Own s).
    { apply (Dn (BConstraint k x)). rewrite Ec. apply in_or_app. right. left. reflexivity. }
    destruct (leaves_dec d x O) as [M|(s & Is & N)]; [contradiction|].
    assert (exists names, map (cref_name h3) (leaves x) = map Some names /\ In s names) as (names & En & Ins).
    { clear -O Is. revert Is O. generalize (leaves x). intros l Is O.
      assert (exists names, map (cref_name h3) l = map Some names /\ map Own names = l) as (names & E1 & E2).
      { clear Is. induction l as [|r l IH]; [exists []; split; reflexivity|]. destruct IH as (n & A & B); [intros y X; apply O; right; exact X|].
        destruct (O r (or_introl eq_refl)) as (y & ->). exists (y :: n). cbn. rewrite A, B. split; reflexivity. }
      exists names. split; [exact E1|]. rewrite <- E2 in Is. apply in_map_iff in Is. destruct Is as (y & E & X). congruence. }
    destruct (wired_constraint_run ord h3 m3 I dat par d G k x names W Nm3 En) as (h4 & c' & E4 & _).
    assert (forallb (found m3) names = false) as F.
    { destruct (forallb (found m3) names) eqn:F; [|reflexivity]. exfalso. rewrite forallb_forall in F. specialize (F s Ins). unfold found in F.
      destruct (get_feature m3 s) as [i|] eqn:Gs; [|discriminate]. apply N. apply (proj2 Nm3). eauto. }
    rewrite F in E4. rewrite build_calls_queues. unfold build. cbn [b_model b_features b_tree b_relations bind]. rewrite <- surjective_pairing.
    rewrite E1. cbn [bind]. rewrite E2. cbn [bind].
    erewrite commit_error; [cbn [bind]; eexists; reflexivity|]. rewrite Ec, relations_split, run_app, E3. cbn [relation_ops flat_map app run]. rewrite E4. reflexivity.
Qed.

Lemma outcome_total h cs : heap_ok h -> regular cs ->
  (forall d, acceptable cs d -> exists h' m', build_calls ord h cs = Some (h', Some m') /\ linked_as cs d h' m' /\ heap_ok h') /\
  (misgrouped cs -> build_calls ord h cs = None) /\
  ((forall d, ~ acceptable cs d) -> ~ misgrouped cs -> exists h', build_calls ord h cs = Some (h', None)).
Proof.
  intros K R. split; [intros d; exact (accepted_builds h cs d K R)|]. split; [exact (misgrouped_undefined h cs K R)|exact (otherwise_null h cs K R)].
Qed.

(** The three cases exclude each other and one of them holds. *)
Lemma acceptable_not_misgrouped cs d : acceptable cs d -> ~ misgrouped cs.
Proof.
  intros [Dd De Dr] (e & a & k & p & b & Ec & Ee & _ & _ & N). rewrite (declares_unique _ _ _ Dd e Ee) in N. apply N.
  apply (Dr (BRelationship k p)). rewrite Ec. apply in_or_app. right. left. reflexivity.
Qed.
Lemma clash_declares d0 a c b e : declares d0 a e -> clashes e c -> forall f, ~ declares d0 (a ++ c :: b) f.
Proof.
  induction 1 as [d|root fs g cs d N D IH|root fs cs d D IH|root fs s cs d N D IH|d x cs e Cx D IH]; intros C f F; cbn [app] in F.
  - inversion F; subst; cbn in C; try contradiction.
    + destruct C as [C _]. apply C. reflexivity.
    + destruct C as [_ C]. contradiction.
    + destruct c; contradiction.
  - inversion F; subst; [exact (IH C f ltac:(assumption))|contradiction].
  - inversion F; subst; [exact (IH C f ltac:(assumption))|exact (IH C f ltac:(assumption))|contradiction].
  - inversion F; subst; [exfalso; apply N; left; reflexivity|exact (IH C f ltac:(assumption))|contradiction].
  - inversion F; subst; try contradiction. exact (IH C f ltac:(assumption)).
Qed.
Lemma cases_cover cs : regular cs -> (exists d, acceptable cs d) \/ misgrouped cs \/ ((forall d, ~ acceptable cs d) /\ ~ misgrouped cs).
Proof.
  intros [Do Dn Dg]. destruct (declares_or_clash cs (default_root, [])) as [(d & Dd)|(a & c & b & e & -> & Da & C)].
  - destruct (first_bad (edge_ok d) (edge_ok_dec d) cs) as [De|(a & c & b & Ec & Oa & Nc)].
    + destruct (first_bad_rel d cs Dn) as [Dr|(a & c & b & Ec & Oa & Nc)]; [left; exists d; constructor; assumption|].
      destruct c as [f|s|p s|k p|k x|s|s|s]; try (exfalso; apply Nc; exact Logic.I).
      * right. left. exists d, a, k, p, b. auto.
      * right. right. split.
        -- intros e [Ee _ Er]. rewrite (declares_unique _ _ _ Dd e Ee) in Er. apply Nc. apply (Er (BConstraint k x)). rewrite Ec. apply in_or_app. right. left. reflexivity.
        -- intros (e & a' & k' & p' & b' & Ec' & Ee & _ & Oa' & N'). rewrite (declares_unique _ _ _ Dd e Ee) in *. rewrite Ec in Ec'.
           clear -Oa Oa' Nc N' Ec'. revert a' Oa' Ec'. induction a as [|y a IH]; intros [|y' a'] Oa' E; cbn [app] in E.
           ++ discriminate.
           ++ injection E as <- E. apply Nc. apply Oa'. left. reflexivity.
           ++ injection E as -> E. apply N'. apply (Oa (BRelationship k' p')). left. reflexivity.
           ++ injection E as <- E. apply (IH (fun z Z => Oa z (or_intror Z)) a' (fun z Z => Oa' z (or_intror Z)) E).
    + right. right. split.
      * intros e [Ee Eo _]. rewrite (declares_unique _ _ _ Dd e Ee) in Eo. apply Nc. apply Eo. rewrite Ec. apply in_or_app. right. left. reflexivity.
      * intros (e & a' & k' & p' & b' & _ & Ee & Eo & _). rewrite (declares_unique _ _ _ Dd e Ee) in Eo. apply Nc. apply Eo. rewrite Ec. apply in_or_app. right. left. reflexivity.
  - right. right. assert (X : forall f, ~ declares (default_root, []) (a ++ c :: b) f).
    { intros f F. exact (clash_declares _ _ _ _ _ Da C f F). }
    split; [intros d [Dd _ _]; exact (X d Dd)|]. intros (d & a' & k & p & b' & _ & Dd & _). exact (X d Dd).
Qed.

(** ** Trees *)
Lemma describes_split cs d : regular cs -> (describes cs d <-> acceptable cs d /\ rooted cs d).
Proof.
  intros [Do Dn Dg]. split.
  - intros [A B C D E F G]. split; [constructor; assumption|]. split; [intros p X; exact (D p _ X eq_refl)|exact E].
  - intros [[A B C] [D E]]. constructor; auto. intros p s X ->. exact (D p X).
Qed.

Lemma reaches_leads cs d h m r : linked_as cs d h m -> (forall c, In c cs -> edge_ok d c) -> m_root m = Some r ->
  forall i q, reaches h i q -> q = r -> (forall f, In f (snd d) -> get_feature m (f_name f) = Some i -> leads (fun s => last_edge cs s (fst d)) (fst d) (f_name f)) /\
    (forall k c, h_cells h i = Some c -> n_data c = NRelationship k -> forall s p, n_parent c = Some p -> get_feature m s = Some p -> taken d s -> leads (fun s => last_edge cs s (fst d)) (fst d) s).
Proof.
  intros La De Rr i q Re. pose proof (la_root _ _ _ _ La) as (r0 & fr & Er0 & Gr & Fr & Sr). assert (r0 = r) as -> by congruence.
  assert (Uniq : forall s t i, get_feature m s = Some i -> get_feature m t = Some i -> taken d s -> taken d t -> s = t).
  { assert (Nm : forall s i, get_feature m s = Some i -> taken d s -> exists f, feature_at h i = Some f /\ f_name f = s).
    { intros s i' G [->|T].
      - assert (i' = r) as -> by congruence. exists fr. split; [exact Fr|]. destruct Sr as (_ & X & _). rewrite X. reflexivity.
      - apply in_map_iff in T. destruct T as (f & <- & T). destruct (la_data _ _ _ _ La f T) as (j & g & Gj & Fj & Sj). assert (i' = j) as -> by congruence. exists g. split; [exact Fj|]. apply Sj. }
    intros s t i' G1 G2 T1 T2. destruct (Nm s i' G1 T1) as (f1 & F1 & <-). destruct (Nm t i' G2 T2) as (f2 & F2 & <-). congruence. }
  induction Re as [i c C|i c p q C P Re IH]; intros ->.
  - split.
    + intros f If G. assert (f_name f = fst d) as -> by (apply (Uniq _ _ r); [exact G|exact Gr|right; apply in_map; exact If|left; reflexivity]). constructor.
    + intros k c' C' X. unfold feature_at in Fr. rewrite C' in Fr. cbn in Fr. rewrite X in Fr. discriminate.
  - destruct (IH eq_refl) as [IH1 IH2].
    assert (Here : forall s, taken d s -> get_feature m s = Some p -> leads (fun s => last_edge cs s (fst d)) (fst d) s).
    { intros s [->|T] G; [constructor|]. apply in_map_iff in T. destruct T as (f & <- & T). exact (IH1 f T G). }
    split.
    + intros f If G. apply leads_up. cbv beta. destruct (la_parents _ _ _ _ La f If) as (i0 & p0 & G0 & Gp & (c0 & C0 & Hg)). assert (i0 = i) as -> by congruence.
      assert (c0 = c) as -> by congruence. assert (Tk : taken d (last_edge cs (f_name f) (fst d))) by (apply last_edge_taken; [exact De|left; reflexivity]).
      destruct (request_for (requests cs) (last_edge cs (f_name f) (fst d))) as [k|].
      * destruct Hg as (g & cg & Pg & Cg & Dg & Ug). assert (g = p) as -> by congruence. exact (IH2 k cg Cg Dg _ p0 Ug Gp Tk).
      * assert (p0 = p) as -> by congruence. exact (Here _ Tk Gp).
    + intros k c' C' X s p' P' G T. assert (c' = c) as -> by congruence. assert (p' = p) as -> by congruence. exact (Here s T G).
Qed.

Lemma trees_exactly h cs d h' m' : heap_ok h -> regular cs -> acceptable cs d -> build_calls ord h cs = Some (h', Some m') -> (tree_shaped h' m' <-> rooted cs d).
Proof.
  intros K R A E. split.
  - intros Ts. destruct (accepted_builds h cs d K R A) as (h2 & m2 & E2 & La & _). rewrite E in E2. injection E2 as <- <-.
    destruct (la_root _ _ _ _ La) as (r & fr & Er & Gr & Fr & Sr). pose proof A as [_ De _]. split.
    + intros p X. destruct (la_top _ _ _ _ La r Er) as [_ Y].
      assert (N : last_edge cs (fst d) (fst d) <> fst d).
      { destruct (fresh_name m') as (u & Fu). rewrite (last_edge_any cs (fst d) (fst d) u (ex_intro _ p X)). apply (last_edge_neq d); [exact De|]. intros ->. congruence. }
      destruct (Y N) as (q & _ & (c & C & Hg)). destruct (ts_root _ _ Ts) as (r0 & c0 & f0 & Er0 & _ & C0 & P0 & _).
      assert (r0 = r) as -> by congruence. assert (c0 = c) as -> by congruence. destruct (request_for _ _) as [k|]; [destruct Hg as (g & cg & Pg & _)|]; congruence.
    + intros f If. destruct (la_data _ _ _ _ La f If) as (i & g & Gi & _).
      assert (In i (nodes m')) as Ii.
      { unfold nodes. apply in_or_app. left. apply find_name_in in Gi; [|exact (ts_names _ _ Ts)]. apply in_map_iff. exists (f_name f, i). auto. }
      pose proof (ts_reaches _ _ Ts i r Ii Er) as Re. apply (proj1 (reaches_leads cs d h' m' r La De Er i r Re eq_refl) f If Gi).
  - intros Ro. destruct (built ord ord_ok h cs d K) as (h2 & m2 & E2 & As & _); [apply describes_split; [exact R|split; assumption]|]. rewrite E in E2. injection E2 as <- <-. exact (ad_tree _ _ _ _ As).
Qed.
End Outcome.
