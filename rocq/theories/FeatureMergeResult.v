(** What merging returns. *)
From Coq Require Import List ZArith Arith Bool Ascii String Permutation Lia.
From Verif Require Import Text TextProofs ConstraintModel ConstraintSpec SourceRangeModel FeatureTreeModel FeatureTreeSpec FeatureTreeProofs FeatureOrderProofs
  FeatureTreeFinal FeatureTransactionModel FeatureEditSpec FeatureEditProofs FeatureOpsProofs FeatureRemoveProofs FeatureGroupProofs FeatureDataProofs
  FeatureHistoryProofs FeatureTransactionSpec FeatureTransactionFinal FeatureBuildSpec FeatureBuildProofs FeatureBuildFinal FeatureCloneSpec FeatureCloneProofs
  FeatureIsolationProofs FeatureMergeSpec FeatureMergeProofs FeatureMergeWalk FeatureMergeSteps FeatureMergeFinal.
Import ListNotations.

Lemma flat_map_one {A B} (f : A -> list B) l a : NoDup l -> In a l -> (forall b, In b l -> b <> a -> f b = []) -> flat_map f l = f a.
Proof.
  induction l as [|b l IH]; intros D I O; [destruct I|]. apply NoDup_cons_iff in D. destruct D as (N & D). cbn [flat_map]. destruct I as [->|I].
  - assert (flat_map f l = []) as ->; [|apply app_nil_r]. assert (forall x, In x l -> f x = []) as Z.
    { intros x X. apply O; [right; exact X|]. intros ->. contradiction. }
    clear -Z. induction l as [|x l IH]; [reflexivity|]. cbn [flat_map]. rewrite Z by (left; reflexivity). apply IH. intros y Y. apply Z. right. exact Y.
  - rewrite O; [|left; reflexivity|intros ->; contradiction]. apply IH; [exact D|exact I|]. intros x X. apply O. right. exact X.
Qed.
Lemma flat_map_none {A B} (f : A -> list B) l : (forall b, In b l -> f b = []) -> flat_map f l = [].
Proof.
  intros Z. induction l as [|x l IH]; [reflexivity|]. cbn [flat_map]. rewrite Z by (left; reflexivity). apply IH. intros y Y. apply Z. right. exact Y.
Qed.
Lemma feature_ids_named t i : In i (feature_ids t) <-> exists s, In (s, i) (named t).
Proof.
  induction t as [n d ts IH] using tree_ind'. rewrite Forall_forall in IH. cbn [feature_ids named]. split.
  - intros X. apply in_app_or in X. destruct X as [X|X].
    + destruct d as [f|k]; cbn [is_feature] in X; [|destruct X]. destruct X as [<-|[]]. exists (f_name f). left. reflexivity.
    + apply in_flat_map in X. destruct X as (u & U & X). apply (IH u U) in X. destruct X as (s & X). exists s. apply in_or_app. right. apply in_flat_map. eauto.
  - intros (s & X). apply in_app_or in X. destruct X as [X|X].
    + destruct d as [f|k]; [|destruct X]. destruct X as [X|[]]. injection X as _ <-. left. reflexivity.
    + apply in_flat_map in X. destruct X as (u & U & X). apply in_or_app. right. apply in_flat_map. exists u. split; [exact U|]. apply (IH u U). eauto.
Qed.

Lemma forall2_impl {A B} (P Q : A -> B -> Prop) l l' : Forall2 P l l' -> (forall a b, P a b -> Q a b) -> Forall2 Q l l'.
Proof. intros F I. induction F; constructor; auto. Qed.

Section Result.
Variable ord : list nid -> list nid.
Hypothesis ord_ok : is_order ord.
Variables (h0 : heap) (m1 m2 : fmodel) (t1 t2 : tree) (strict : bool).
Hypothesis R1 : represents h0 m1 t1.
Hypothesis R2 : represents h0 m2 t2.
Variables (h1 : heap) (m0 : fmodel) (t0 : tree).
Hypothesis Cl : cloned h0 m1 h1 m0.
Hypothesis R0 : represents h1 m0 t0.
Variables (L : list nid) (h : heap) (m : fmodel).
Hypothesis I : inv h0 m1 m2 h1 m0 L h m.
Hypothesis PL : Permutation L (feature_ids t2).

Lemma in_L j : In j L <-> exists s, get_feature m2 s = Some j.
Proof.
  assert (In j L <-> In j (feature_ids t2)) as -> by (split; apply Permutation_in; [|apply Permutation_sym]; exact PL).
  rewrite feature_ids_named. split; intros (s & X); exists s; apply (rep_find R2); exact X.
Qed.
Lemma nodup_L : NoDup L.
Proof. eapply Permutation_NoDup; [apply Permutation_sym; exact PL|]. apply feature_ids_nodup. apply (rep_ids _ _ _ R2). Qed.
Lemma L_name s : (exists j, In j L /\ name_at h0 j = Some s) <-> known m2 s.
Proof.
  split.
  - intros (j & J & Nj). apply in_L in J. destruct J as (s' & G). unfold name_at in Nj. destruct (feature_at h0 j) as [g|] eqn:F; [|discriminate].
    pose proof (second_name h0 m2 t2 R2 s' j g G F). cbn [bind] in Nj. assert (s' = s) as -> by congruence. exists j. exact G.
  - intros (j & G). exists j. split; [apply in_L; eauto|]. pose proof (proj2 (entry_find h0 m2 t2 R2 s j) G) as X.
    destruct (entry_facts h0 m2 t2 R2 s j X) as (F' & Ns & _). unfold name_at. rewrite F'. cbn [bind]. congruence.
Qed.

Lemma extra_gained s i f : get_feature m1 s = Some i -> feature_at h0 i = Some f -> gained_ranges h0 m2 s f (extra h0 m1 s L).
Proof.
  intros G F. unfold gained_ranges. destruct (get_feature m2 s) as [j|] eqn:G2.
  - pose proof (proj2 (entry_find h0 m2 t2 R2 s j) G2) as X. destruct (entry_facts h0 m2 t2 R2 s j X) as (F' & Ns & _).
    exists (fd h0 j). split; [exact F'|]. exists (fun l => negb (existsb (range_eqb l) (f_locations f))). split.
    + unfold extra. rewrite (flat_map_one _ L j nodup_L); [|apply in_L; eauto|].
      * unfold extra_at. rewrite F', G, F, Ns, text_eqb_refl. reflexivity.
      * intros b B Nb. unfold extra_at. destruct (feature_at h0 b) as [x|] eqn:Fx; [|reflexivity]. rewrite G. rewrite text_eqb_ne; [reflexivity|].
        intros E. apply Nb. apply in_L in B. destruct B as (s' & B). pose proof (second_name h0 m2 t2 R2 s' b x B Fx). assert (s' = s) as -> by congruence. congruence.
    + intros l. rewrite negb_true_iff. split.
      * intros E (l' & I' & E'). assert (existsb (range_eqb l) (f_locations f) = true) by (apply existsb_exists; eauto). congruence.
      * intros Ne. destruct (existsb (range_eqb l) (f_locations f)) eqn:E; [|reflexivity]. exfalso. apply Ne. apply existsb_exists in E. destruct E as (x & X1 & X2). eauto.
  - unfold extra. apply flat_map_none. intros j J. unfold extra_at. destruct (feature_at h0 j) as [x|] eqn:Fx; [|reflexivity]. rewrite G.
    rewrite text_eqb_ne; [reflexivity|]. intros E. apply in_L in J. destruct J as (s' & B). pose proof (second_name h0 m2 t2 R2 s' j x B Fx). assert (s' = s) as -> by congruence. congruence.
Qed.

Lemma feature_cell (hh : heap) (i : nid) f : feature_at hh i = Some f <-> exists c, h_cells hh i = Some c /\ n_data c = NFeature f.
Proof.
  unfold feature_at. destruct (h_cells hh i) as [c|]; cbn [bind].
  - split; [destruct (n_data c) eqn:D; [|discriminate]; intros E; exists c; split; [reflexivity|congruence]|].
    intros (c' & E & D). injection E as <-. rewrite D. reflexivity.
  - split; [discriminate|]. intros (c & E & _). discriminate.
Qed.

Lemma name_kept i s : get_feature m0 s = Some i -> name_at h1 i = Some s /\ name_at h i = Some s.
Proof.
  intros G. assert (name_at h1 i = Some s) as E.
  { pose proof (proj2 (entry_find h1 m0 t0 R0 s i) G) as X. destruct (entry_facts h1 m0 t0 R0 s i X) as (F' & Ns & _). unfold name_at. rewrite F'. cbn [bind]. congruence. }
  split; [exact E|]. destruct (b_stored _ _ _ _ _ _ (iv_base _ _ _ _ _ _ _ _ I) s i (iv_first _ _ _ _ _ _ _ _ I s i G)) as (f & p & e & C & Nf).
  unfold name_at, feature_at. rewrite C. cbn [bind n_data]. congruence.
Qed.

Lemma constraint_kept e e' : same_constraint h0 h1 m0 e e' -> same_constraint h0 h m e e'.
Proof.
  intros ((x & S1 & S2) & Lv). split.
  - exists x. split; [exact S1|]. unfold spelled in *. rewrite <- S2. apply cmap_ext_in. intros r Ir. destruct (Lv r Ir) as (s & i & -> & G).
    cbn [cref_name]. destruct (name_kept i s G) as (-> & ->). reflexivity.
  - intros r Ir. destruct (Lv r Ir) as (s & i & -> & G). exists s, i. split; [reflexivity|]. apply (iv_first _ _ _ _ _ _ _ _ I). exact G.
Qed.

Lemma hangs_kept i p g : In i (nodes m0) -> hangs h1 i p g -> hangs h i p g.
Proof.
  intros Ii (c & C & H). destruct (iv_old _ _ _ _ _ _ _ _ I i c Ii C) as (c' & C' & P' & _). exists c'. split; [exact C'|]. destruct g as [k|]; [|congruence].
  destruct H as (q & cq & Pq & Cq & Dq & Pp). exists q.
  assert (In q (nodes m0)) as Iq.
  { pose proof (represents_tree_shaped _ _ _ R0) as Ts. destruct (ts_parent _ _ Ts i Ii) as (c1 & p1 & cp1 & X1 & X2 & X3 & _).
    - intros Rt. destruct (ts_root _ _ Ts) as (r & cr & f & Y1 & _ & Y2 & Y3 & _). assert (r = i) as -> by congruence. congruence.
    - assert (c1 = c) as -> by congruence. congruence. }
  destruct (iv_old _ _ _ _ _ _ _ _ I q cq Iq Cq) as (cq' & Cq' & Pq' & Dq'). exists cq'. split; [congruence|]. split; [exact Cq'|]. rewrite Dq in Dq'. cbn [as_was] in Dq'.
  split; [exact Dq'|congruence].
Qed.

Lemma inv_merged : merged h0 m1 m2 h m.
Proof.
  destruct (iv_rep _ _ _ _ _ _ _ _ I) as (t & R). destruct (iv_rest _ _ _ _ _ _ _ _ I) as (E1 & E2 & E3 & E4 & E5 & E6).
  pose proof (iv_first _ _ _ _ _ _ _ _ I) as First. constructor.
  - exact (represents_tree_shaped _ _ _ R).
  - exists t. exact R.
  - exact (represents_consistent _ _ _ R).
  - rewrite E1. apply (cl_name _ _ _ _ Cl).
  - rewrite E3. apply (cl_commit _ _ _ _ Cl).
  - rewrite E2. apply (cl_path _ _ _ _ Cl).
  - intros s. rewrite (b_names _ _ _ _ _ _ (iv_base _ _ _ _ _ _ _ _ I) s), L_name. reflexivity.
  - destruct (cl_root _ _ _ _ Cl) as (s & r & r' & X1 & X2 & X3 & X4). exists s, r, r'. split; [exact X1|]. split; [exact X2|]. split; [apply First; exact X3|].
    rewrite (iv_top _ _ _ _ _ _ _ _ I). exact X4.
  - intros s i f G F. destruct (cl_features _ _ _ _ Cl s i f G F) as (i' & f0 & G' & F' & Kp). apply feature_cell in F'. destruct F' as (c & C & D).
    pose proof (clone_node h1 m0 t0 R0 s i' G') as In'. destruct (iv_old _ _ _ _ _ _ _ _ I i' c In' C) as (c' & C' & _ & D').
    rewrite D in D'. cbn [as_was extra_for] in D'. exists i'. eexists. exists f0, (extra h0 m1 s L). split; [apply First; exact G'|]. split; [apply feature_cell; eauto|].
    split; [exact Kp|]. split; [apply (extra_gained s i f G F)|].
    assert (f_name f0 = s) as ->; [|reflexivity]. destruct Kp as (K1 & _). rewrite K1. exact (first_name h0 m1 t1 R1 s i f G F).
  - intros s j g G1 G2 Fg. pose proof (second_name h0 m2 t2 R2 s j g G2 Fg) as Ng. rewrite <- Ng in G1.
    destruct (iv_new _ _ _ _ _ _ _ _ I j g) as (i & y & q & e & X1 & X2 & X3 & _); [apply in_L; eauto|exact Fg|exact G1|].
    exists i, y. rewrite <- Ng. split; [exact X1|]. split; [apply feature_cell; eexists; split; [exact X3|reflexivity]|].
    unfold feature_copy in X2. unfold kept. destruct (f_kind g); try discriminate; injection X2 as <-; cbn; auto.
  - intros s i u p G Gu Ab. destruct (cl_parents _ _ _ _ Cl s i u p G Gu Ab) as (i' & p' & g & X1 & X2 & X3 & X4). exists i', p', g.
    split; [apply First; exact X1|]. split; [apply First; exact X2|]. split; [|exact X4]. apply hangs_kept; [exact (clone_node h1 m0 t0 R0 s i' X1)|exact X3].
  - intros s j u p G1 G2 Gu Ab. pose proof (proj2 (entry_find h0 m2 t2 R2 s j) G2) as X. destruct (entry_facts h0 m2 t2 R2 s j X) as (Fg & Ng & Cj).
    destruct Cj as [(_ & _ & Pn)|(_ & _ & u0 & p0 & Pj & Ip & Np)]; [exfalso; exact (parent_feature_none h0 j p Pn Ab)|].
    assert (p0 = p) as -> by (eapply feature_above_unique; [apply parent_feature_above; exact Pj|exact Ab]).
    assert (u0 = u) as -> by (pose proof (proj2 (entry_find h0 m2 t2 R2 u p) Gu) as Y; destruct (entry_facts h0 m2 t2 R2 u p Y) as (Fp & Nu & _); unfold name_at in Np; rewrite Fp in Np; cbn [bind] in Np; congruence).
    rewrite <- Ng in G1. destruct (iv_new _ _ _ _ _ _ _ _ I j _ (proj2 (in_L j) (ex_intro _ s G2)) Fg G1) as (i & y & q & e & X1 & X2 & X3 & X4).
    exists i, q. rewrite <- Ng at 1. split; [exact X1|]. split; [apply (X4 p u Pj Np)|]. eexists. split; [exact X3|]. reflexivity.
  - rewrite (iv_rel _ _ _ _ _ _ _ _ I).
    assert (INC : forall q, In q (m_relationships m0) -> In q (nodes m0)) by (intros q Q; unfold nodes; apply in_or_app; auto).
    assert (REL : forall q, In q (m_relationships m0) -> In q (m_relationships m0)) by auto.
    pose proof (cl_groups _ _ _ _ Cl) as F. revert F INC REL. generalize (m_relationships m1) as l. generalize (m_relationships m0) at 1 2 3 5 as l'.
    intros l' l F. induction F as [|q q' l l' X F IH]; intros INC REL; constructor; [|apply IH; intros x Y; [apply INC|apply REL]; right; exact Y].
    destruct X as (c & c' & p & u & C & C' & D & P & G & P'). destruct (iv_old _ _ _ _ _ _ _ _ I q' c' (INC q' (or_introl eq_refl)) C') as (c2 & C2 & P2 & D2).
    exists c, c2, p, u. split; [exact C|]. split; [exact C2|].
    assert (n_data c2 = n_data c' /\ exists i, get_feature m0 u = Some i) as (Ed & i & Gi).
    { split; [|apply (clone_known h0 m1 t1 R1 h1 m0 t0 Cl R0); exists p; exact G].
      pose proof (represents_tree_shaped _ _ _ R0) as Ts. destruct (ts_relationships _ _ Ts q' (REL q' (or_introl eq_refl))) as (c3 & k & C3 & D3).
      assert (c3 = c') as -> by congruence. rewrite D3 in *. exact D2. }
    split; [congruence|]. split; [exact P|]. split; [exact G|]. rewrite P2, P', Gi. symmetry. apply First. exact Gi.
  - rewrite E4. exact (forall2_impl _ _ _ _ (cl_boolean _ _ _ _ Cl) (fun a b => constraint_kept _ _)).
  - rewrite E5. exact (forall2_impl _ _ _ _ (cl_nonboolean _ _ _ _ Cl) (fun a b => constraint_kept _ _)).
  - rewrite E6. apply (forall2_impl _ _ _ _ (cl_mixed _ _ _ _ Cl)). intros a b (X1 & X2 & X3). split; [apply constraint_kept; exact X1|auto].
Qed.
End Result.

Section Final.
Variable ord : list nid -> list nid.
Hypothesis ord_ok : is_order ord.
Variable map_order : list (text * nid) -> list (text * nid).
Hypothesis map_ok : forall l, Permutation (map_order l) l.
Variables (h : heap) (m1 m2 : fmodel) (t1 t2 : tree) (strict : bool).
Hypothesis R1 : represents h m1 t1.
Hypothesis R2 : represents h m2 t2.
Hypothesis conn : all_connected h m1.
Hypothesis free : root_name_free m1.

Lemma opened : exists h1 m0 t0, open_copy ord map_order h m1 = Some (h1, Ctx (Some m0) true) /\ cloned h m1 h1 m0 /\ represents h1 m0 t0 /\
  apart (h_next h) h h1 /\ own (h_next h) m0.
Proof.
  destruct (clone_represents ord ord_ok map_order map_ok h m1 t1 R1 conn free) as (h1 & m0 & t0 & E & C & R0).
  exists h1, m0, t0. split; [|split; [exact C|split; [exact R0|]]].
  - unfold open_copy. rewrite (represents_consistent _ _ _ R1). cbn [bind]. unfold ctx_start. rewrite E. reflexivity.
  - exact (clone_good ord ord_ok map_order h m1 h1 m0 (rep_ok _ _ _ R1) E).
Qed.

Lemma two_start h1 m0 t0 : cloned h m1 h1 m0 -> represents h1 m0 t0 -> apart (h_next h) h h1 -> own (h_next h) m0 -> two_roots h m1 m2 t2 [] h1 m0.
Proof.
  intros C R0 A O. constructor; [|intros []|exact (rep_keys R0)].
  exact (iv_base _ _ _ _ _ _ _ _ (inv_start h m1 m2 t1 R1 h1 m0 t0 C R0 A O)).
Qed.

Lemma merge_success : root_shared m1 m2 -> mergeable strict h m1 m2 ->
  exists h' m', merge_models ord map_order h m1 m2 strict = Some (h', Some m') /\ merged h m1 m2 h' m' /\ heap_ok h' /\
    forall i, i < h_next h -> h_cells h' i = h_cells h i.
Proof.
  intros Sh Mg. destruct opened as (h1 & m0 & t0 & E & C & R0 & A & O).
  pose proof (inv_start h m1 m2 t1 R1 h1 m0 t0 C R0 A O) as I0.
  destruct (walk_all ord ord_ok h m1 m2 t1 t2 strict R1 R2 (inv h m1 m2 h1 m0)) with (h := h1) (m := m0) as (W & _).
  - intros P h' m' I. exact (b_apart _ _ _ _ _ _ (iv_base _ _ _ _ _ _ _ _ I)).
  - intros P h' m' s j g I. exact (inv_step ord ord_ok h m1 m2 t1 t2 strict R1 R2 h1 m0 t0 R0 P h' m' s j g Sh I).
  - exact I0.
  - destruct (W Mg) as (h2 & m' & L & E2 & I2 & PL). exists h2, m'.
    pose proof (inv_merged h m1 m2 t1 t2 R1 R2 h1 m0 t0 C R0 L h2 m' I2 PL) as M. pose proof (b_apart _ _ _ _ _ _ (iv_base _ _ _ _ _ _ _ _ I2)) as A2.
    split; [|split; [exact M|split; [exact (ap_ok _ _ _ A2)|exact (ap_same _ _ _ A2)]]].
    unfold merge_models. rewrite E. cbn [bind]. rewrite (rep_root _ _ _ R2). cbn [bind]. rewrite E2. cbn [bind negb].
    unfold commit_copy. cbn [x_copy x_continue]. rewrite (mg_consistent _ _ _ _ _ M). reflexivity.
Qed.

Lemma merge_refused : ~ mergeable strict h m1 m2 ->
  exists h', merge_models ord map_order h m1 m2 strict = Some (h', None) /\ heap_ok h' /\ forall i, i < h_next h -> h_cells h' i = h_cells h i.
Proof.
  intros Mg. destruct opened as (h1 & m0 & t0 & E & C & R0 & A & O).
  destruct (walk_all ord ord_ok h m1 m2 t1 t2 strict R1 R2 (base h m1 m2)) with (h := h1) (m := m0) as (_ & W).
  - intros P h' m' I. exact (b_apart _ _ _ _ _ _ I).
  - intros P h' m' s j g B G F Ft Nj Rc. destruct (base_step ord ord_ok h m1 m2 t1 t2 strict R1 R2 P h' m' s j g B G F Ft Nj Rc) as (h2 & m3 & E2 & B2 & _). eauto.
  - exact (tr_base _ _ _ _ _ _ _ (two_start h1 m0 t0 C R0 A O)).
  - destruct (W Mg) as (h2 & t' & E2 & A2). exists h2. split; [|split; [exact (ap_ok _ _ _ A2)|exact (ap_same _ _ _ A2)]].
    unfold merge_models. rewrite E. cbn [bind]. rewrite (rep_root _ _ _ R2). cbn [bind]. rewrite E2. reflexivity.
Qed.

Lemma merge_undefined : ~ root_shared m1 m2 -> mergeable strict h m1 m2 ->
  exists h1 c h2 c' r c'', open_copy ord map_order h m1 = Some (h1, c) /\ m_root m2 = Some r /\
    merge_subtree ord (S (h_next h)) strict m1 r h1 c = Some (true, h2, c') /\ commit_copy h2 c' = Some (None, c'') /\
    merge_models ord map_order h m1 m2 strict = None.
Proof.
  intros Sh Mg. destruct opened as (h1 & m0 & t0 & E & C & R0 & A & O).
  destruct (walk_all ord ord_ok h m1 m2 t1 t2 strict R1 R2 (two_roots h m1 m2 t2)) with (h := h1) (m := m0) as (W & _).
  - intros P h' m' I. exact (b_apart _ _ _ _ _ _ (tr_base _ _ _ _ _ _ _ I)).
  - intros P h' m' s j g B. exact (two_step ord ord_ok h m1 m2 t1 t2 strict R1 R2 P h' m' s j g Sh B).
  - exact (two_start h1 m0 t0 C R0 A O).
  - destruct (W Mg) as (h2 & m' & L & E2 & I2 & PL).
    assert (In (rid t2) L) as Il.
    { eapply Permutation_in; [apply Permutation_sym; exact PL|]. destruct (rep_top_data R2) as (f & Ef & _). destruct t2 as [n d ts]. cbn [rdata] in Ef. subst d. left. reflexivity. }
    pose proof (two_roots_inconsistent h m1 m2 t2 L h2 m' I2 Il) as Ic.
    assert (commit_copy h2 (Ctx (Some m') true) = Some (None, Ctx None false)) as Ec by (unfold commit_copy; cbn [x_copy x_continue]; rewrite Ic; reflexivity).
    exists h1, (Ctx (Some m0) true), h2, (Ctx (Some m') true), (rid t2), (Ctx None false). split; [exact E|]. split; [exact (rep_root _ _ _ R2)|]. split; [exact E2|]. split; [exact Ec|].
    unfold merge_models. rewrite E. cbn [bind]. rewrite (rep_root _ _ _ R2). cbn [bind]. rewrite E2. cbn [bind negb]. rewrite Ec. reflexivity.
Qed.
End Final.
