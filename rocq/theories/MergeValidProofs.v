(** The valid configurations of merged models. *)
From Coq Require Import List ZArith Arith Bool Ascii String Permutation Lia.
From Verif Require Import Text TextProofs ConstraintModel ConstraintSpec SourceRangeModel FeatureTreeModel FeatureTreeSpec FeatureTreeProofs FeatureTransactionModel FeatureTransactionSpec FeatureEditSpec
  FeatureEditProofs FeatureHistoryProofs FeatureBuildSpec FeatureCloneSpec FeatureCloneProofs FeatureMergeSpec FeatureMergeResult SxfmModel XmlModel XmlSpec ConfigurationModel SolverModel SolverSpec SolverProofs
  SolverLoadProofs SolverEncodingProofs ValidSpec ValidProofs ValidCloneProofs ValidFinal MergeValidSpec.
Import ListNotations.

Section Merge.
Variables (h : heap) (m1 m2 : fmodel) (t1 t2 : tree) (h' : heap) (m' : fmodel) (t' : tree) (strict : bool).
Hypothesis R1 : represents h m1 t1.
Hypothesis R2 : represents h m2 t2.
Hypothesis R' : represents h' m' t'.
Hypothesis Mg : merged h m1 m2 h' m'.
Hypothesis Ne : neat h m1.
Hypothesis Li : listed h m1.
Hypothesis Re : all_resolved m1.
Hypothesis Sh : root_shared m1 m2.
Hypothesis Fit : mergeable strict h m1 m2.

Lemma first_back s : get_feature m' s = None -> get_feature m1 s = None.
Proof.
  intros E. destruct (get_feature m1 s) as [i|] eqn:G; [|reflexivity]. destruct (proj2 (mg_names _ _ _ _ _ Mg s) (or_introl (ex_intro _ i G))). congruence.
Qed.
Lemma first_alike s i f : get_feature m1 s = Some i -> feature_at h i = Some f -> exists i' f', get_feature m' s = Some i' /\ feature_at h' i' = Some f' /\
  alike (f_kind f) (f_kind f') /\ (f_kind f = FBinary -> f_optional f' = f_optional f).
Proof.
  intros G F. destruct (mg_first _ _ _ _ _ Mg s i f G F) as (i' & f' & f0 & ls & G' & F' & (_ & _ & K) & _ & E). exists i', f'. split; [exact G'|]. split; [exact F'|]. subst f'.
  cbn [with_locations f_kind f_optional]. destruct (f_kind f) as [|v g| |] eqn:Kf; destruct K as (K1 & K2 & _); rewrite K1; (split; [|intros X; try discriminate; exact K2]); try reflexivity.
  destruct (Li s i f v g G F Kf) as (vs & ->). cbn. intros z. reflexivity.
Qed.
Lemma merge_groups_from u p' k : get_feature m' u = Some p' -> group_of h' m' p' k -> exists p, get_feature m1 u = Some p /\ group_of h m1 p k.
Proof.
  intros G (q' & c' & Q & C & D & P).
  destruct (Forall2_right _ _ _ _ (mg_groups _ _ _ _ _ Mg) Q) as (q & Iq & c & c2 & p & v & X1 & X2 & X3 & X4 & X5 & X6).
  rewrite C in X2. injection X2 as <-. rewrite P in X6. symmetry in X6. destruct (get_stored h' m' t' R' u p' G) as (f1 & (_ & F1) & N1). destruct (get_stored h' m' t' R' v p' X6) as (f2 & (_ & F2) & N2).
  assert (v = u) as -> by congruence. exists p. split; [exact X5|]. exists q, c. rewrite <- X3. auto.
Qed.
Lemma merge_frame : frame h m1 h' m'.
Proof.
  constructor.
  - exact first_back.
  - exact first_alike.
  - intros s i u p r G Gp H. pose proof (hangs_above h m1 t1 R1 i p r u H Gp) as A.
    destruct (mg_first_parents _ _ _ _ _ Mg s i u p G Gp A) as (i' & p' & g & Gi' & Gp' & H' & Gr). exists i', p'. split; [exact Gi'|]. split; [exact Gp'|].
    destruct r as [k|].
    + destruct (get_stored h m1 t1 R1 s i G) as (f & Sf & _). pose proof (hangs_group_of h m1 t1 R1 i f p k Sf H) as Gk.
      destruct g as [k'|]; [|destruct (Gr k Gk)]. destruct Gk as (q1 & c1 & Q1 & C1 & D1 & P1). destruct Gr as (q2 & c2 & Q2 & C2 & D2 & P2).
      assert (q1 = q2) as <- by (eapply (proj1 Ne); eauto). rewrite C1 in C2. injection C2 as <-. rewrite D1 in D2. injection D2 as <-. exact H'.
    + destruct g as [k'|]; [|exact H']. destruct (proj2 Ne p k' s i Gr G H).
  - intros u p k G (q & c & Q & C & D & P). destruct (Forall2_left _ _ _ _ (mg_groups _ _ _ _ _ Mg) Q) as (q' & Iq & c0 & c' & p0 & v & X1 & X2 & X3 & X4 & X5 & X6).
    rewrite C in X1. injection X1 as <-. rewrite P in X4. injection X4 as <-. destruct (get_stored h m1 t1 R1 u p G) as (f1 & (_ & F1) & N1). destruct (get_stored h m1 t1 R1 v p X5) as (f2 & (_ & F2) & N2).
    assert (v = u) as -> by congruence. destruct (get_feature m' u) as [p'|] eqn:G'; [|apply first_back in G'; congruence]. exists p'. split; [reflexivity|]. exists q', c'. rewrite X3. auto.
Qed.
Lemma merge_one_group : one_group h' m'.
Proof.
  intros p' q q' c c' Q Q' C C' P P'. destruct (In_nth_error _ _ Q) as (j & Ej). destruct (In_nth_error _ _ Q') as (j' & Ej').
  destruct (Forall2_nth _ _ _ _ _ (mg_groups _ _ _ _ _ Mg) Ej) as (q0 & E0 & d & d1 & p0 & u & X1 & X2 & _ & X3 & X4 & X5).
  destruct (Forall2_nth _ _ _ _ _ (mg_groups _ _ _ _ _ Mg) Ej') as (q0' & E0' & d' & d1' & p0' & u' & Y1 & Y2 & _ & Y3 & Y4 & Y5).
  rewrite C in X2. injection X2 as <-. rewrite C' in Y2. injection Y2 as <-. rewrite P in X5. rewrite P' in Y5. symmetry in X5, Y5.
  destruct (get_stored h' m' t' R' u p' X5) as (f1 & (_ & F1) & N1). destruct (get_stored h' m' t' R' u' p' Y5) as (f2 & (_ & F2) & N2).
  assert (u' = u) as -> by congruence. rewrite X4 in Y4. injection Y4 as <-.
  assert (q0 = q0') as <-. { eapply (proj1 Ne p0); eauto; eapply nth_error_In; eauto. }
  assert (j = j') as <-; [|congruence].
  pose proof (represents_tree_shaped _ _ _ R1) as TS. pose proof (ts_nodes _ _ TS) as ND. unfold nodes in ND.
  assert (NDr : NoDup (m_relationships m1)). { clear - ND. induction (map snd (m_features m1)) as [|x l IH]; [exact ND|]. inversion ND; subst. auto. }
  rewrite NoDup_nth_error in NDr. apply NDr; [apply nth_error_Some; congruence|congruence].
Qed.

(** Features of the merged model are those of the first one or new. *)
Lemma second_kind s j g : get_feature m1 s = None -> get_feature m2 s = Some j -> feature_at h j = Some g -> f_kind g <> FRoot /\ f_kind g <> FUnknown.
Proof.
  intros N G F. split.
  - intros K. pose proof (represents_tree_shaped _ _ _ R2) as TS. destruct (get_stored h m2 t2 R2 s j G) as (g0 & (I0 & F0) & Ns).
    assert (g0 = g) as -> by congruence. pose proof (ts_one_root _ _ TS j g I0 F0 K) as Rt. destruct Sh as (u & r & Ru & Gu & (i & Gi)).
    assert (r = j) as -> by congruence. rewrite (get_name h m2 t2 R2 u j g Gu F) in Ns. congruence.
  - specialize (Fit s j g G F). unfold FeatureMergeSpec.fits in Fit. rewrite N in Fit. exact Fit.
Qed.
Lemma new_parent s j g : get_feature m1 s = None -> get_feature m2 s = Some j -> feature_at h j = Some g ->
  exists u p, get_feature m2 u = Some p /\ feature_above h j p.
Proof.
  intros N G F. destruct (get_stored h m2 t2 R2 s j G) as (g0 & Sg & _). assert (g0 = g) as -> by (destruct Sg; congruence).
  destruct (hangs_below h m2 t2 R2 j g Sg (proj1 (second_kind s j g N G F))) as (p & gp & r & H & Sp & _).
  exists (f_name gp), p. split; [exact (stored_get h m2 t2 R2 p gp Sp)|]. exact (hangs_above h m2 t2 R2 j p r _ H (stored_get h m2 t2 R2 p gp Sp)).
Qed.
(** Where the features hang in the merged model. *)
Lemma merged_hangs i' f' p' g' r : stored h' m' i' f' -> hangs h' i' p' r -> feature_at h' p' = Some g' ->
  (exists i p f g, stored h m1 i f /\ f_name f = f_name f' /\ hangs h i p r /\ stored h m1 p g /\ f_name g = f_name g') \/
  (get_feature m1 (f_name f') = None /\ r = None /\ exists j p, get_feature m2 (f_name f') = Some j /\ get_feature m2 (f_name g') = Some p /\ feature_above h j p).
Proof.
  intros Sf H Fg. pose proof (stored_get h' m' t' R' i' f' Sf) as Gi.
  destruct (hangs_parent h' m' t' R' i' p' r f' Sf H (ex_intro _ g' Fg)) as (u & Gu). pose proof (get_name h' m' t' R' u p' g' Gu Fg) as Nu.
  assert (K' : f_kind f' <> FRoot) by (intros K'; exact (hangs_root h' m' t' R' i' f' p' r Sf K' H)).
  destruct (hangs_below h' m' t' R' i' f' Sf K') as (p0 & g0 & r0 & _ & _ & _ & U). destruct (U p' g' r H Fg) as (-> & -> & ->).
  destruct (get_feature m1 (f_name f')) as [i|] eqn:G1.
  - left. destruct (get_stored h m1 t1 R1 _ i G1) as (f & Sf1 & Nf). destruct (first_alike _ i f G1 (proj2 Sf1)) as (i2 & f2 & X1 & X2 & A & _).
    assert (i2 = i') as -> by congruence. assert (f2 = f') as -> by (destruct Sf; congruence).
    assert (K : f_kind f <> FRoot). { intros K. rewrite K in A. destruct (f_kind f'); cbn in A; try discriminate; try contradiction. }
    destruct (hangs_below h m1 t1 R1 i f Sf1 K) as (p & g & r & H1 & Sp & _ & _). pose proof (stored_get h m1 t1 R1 p g Sp) as Gp.
    destruct (fr_hangs _ _ _ _ merge_frame _ i _ p r G1 Gp H1) as (i3 & p3 & Y1 & Y2 & Y3). assert (i3 = i') as -> by congruence.
    destruct (get_stored h' m' t' R' _ p3 Y2) as (g3 & Sg3 & Ng3). destruct (U p3 g3 r Y3 (proj2 Sg3)) as (-> & -> & ->).
    exists i, p, f, g. auto.
  - right. split; [reflexivity|]. assert (exists j, get_feature m2 (f_name f') = Some j) as (j & G2).
    { destruct (proj1 (mg_names _ _ _ _ _ Mg (f_name f')) (ex_intro _ i' Gi)) as [(x & X)|X]; [congruence|exact X]. }
    destruct (get_stored h m2 t2 R2 _ j G2) as (g & Sg & _). destruct (new_parent _ j g G1 G2 (proj2 Sg)) as (v & p & Gv & Ab).
    destruct (mg_second_parents _ _ _ _ _ Mg _ j v p G1 G2 Gv Ab) as (i2 & p2 & X1 & X2 & X3). assert (i2 = i') as -> by congruence.
    destruct (get_stored h' m' t' R' v p2 X2) as (g2 & Sg2 & Ng2). destruct (U p2 g2 None X3 (proj2 Sg2)) as (-> & -> & Er).
    split; [congruence|]. exists j, p. rewrite Ng2. auto.
Qed.
Lemma merged_feature i' f' : stored h' m' i' f' ->
  (exists i f, stored h m1 i f /\ f_name f = f_name f' /\ alike (f_kind f) (f_kind f') /\ (f_kind f = FBinary -> f_optional f' = f_optional f)) \/
  (get_feature m1 (f_name f') = None /\ exists j g, get_feature m2 (f_name f') = Some j /\ feature_at h j = Some g /\ kept g f').
Proof.
  intros Sf. pose proof (stored_get h' m' t' R' i' f' Sf) as Gi. destruct (get_feature m1 (f_name f')) as [i|] eqn:G1.
  - left. destruct (get_stored h m1 t1 R1 _ i G1) as (f & Sf1 & Nf). destruct (first_alike _ i f G1 (proj2 Sf1)) as (i2 & f2 & X1 & X2 & A & O).
    assert (i2 = i') as -> by congruence. assert (f2 = f') as -> by (destruct Sf; congruence). exists i, f. auto.
  - right. split; [reflexivity|]. destruct (proj1 (mg_names _ _ _ _ _ Mg (f_name f')) (ex_intro _ i' Gi)) as [(x & X)|(j & G2)]; [congruence|].
    destruct (get_stored h m2 t2 R2 _ j G2) as (g & Sg & _). destruct (mg_second _ _ _ _ _ Mg _ j g G1 G2 (proj2 Sg)) as (i2 & f2 & X1 & X2 & K).
    assert (i2 = i') as -> by congruence. assert (f2 = f') as -> by (destruct Sf; congruence). exists j, g. split; [exact G2|]. split; [exact (proj2 Sg)|exact K].
Qed.

(** Groups have the members they had. *)
Lemma merge_group k n ns ns' : group h m1 k n ns -> group h' m' k n ns' -> forall s, In s ns <-> In s ns'.
Proof.
  intros Gn Gn'. destruct (members_hang h m1 t1 R1 k n ns Ne Gn) as (p & Gp & _ & M). destruct (members_hang_one h' m' t' R' k n ns' merge_one_group Gn') as (p' & Gp' & _ & M').
  intros s. rewrite M, M'. split.
  - intros (i & G & H). destruct (fr_hangs _ _ _ _ merge_frame s i n p _ G Gp H) as (i' & p2 & X1 & X2 & X3). assert (p2 = p') as -> by congruence. eauto.
  - intros (i' & G & H). destruct (get_stored h' m' t' R' s i' G) as (f' & Sf & Nf). destruct (get_stored h' m' t' R' n p' Gp') as (g' & Sg & Ng).
    destruct (merged_hangs i' f' p' g' (Some k) Sf H (proj2 Sg)) as [(i & p0 & f & g & Sf1 & Nf1 & H1 & Sg1 & Ng1)|(_ & X & _)]; [|discriminate].
    exists i. rewrite <- Nf, <- Nf1. split; [exact (stored_get h m1 t1 R1 i f Sf1)|]. pose proof (stored_get h m1 t1 R1 p0 g Sg1) as X. rewrite Ng1, Ng in X. assert (p0 = p) as -> by congruence. exact H1.
Qed.
Lemma merge_group_to k n ns : group h m1 k n ns -> exists ns', group h' m' k n ns' /\ forall s, In s ns <-> In s ns'.
Proof.
  intros Gn. destruct (members_hang h m1 t1 R1 k n ns Ne Gn) as (p & Gp & Gk & _). destruct (fr_groups _ _ _ _ merge_frame n p k Gp Gk) as (p' & Gp' & Gk').
  destruct (grouped_by h' m' t' R' p' k n Gp' Gk') as (ns' & X). exists ns'. split; [exact X|]. exact (merge_group k n ns ns' Gn X).
Qed.
Lemma merge_group_from k n ns' : group h' m' k n ns' -> exists ns, group h m1 k n ns /\ forall s, In s ns <-> In s ns'.
Proof.
  intros Gn. destruct (members_hang_one h' m' t' R' k n ns' merge_one_group Gn) as (p' & Gp' & Gk' & _). destruct (merge_groups_from n p' k Gp' Gk') as (p & Gp & Gk).
  destruct (grouped_by h m1 t1 R1 p k n Gp Gk) as (ns & X). exists ns. split; [exact X|]. exact (merge_group k n ns ns' X Gn).
Qed.

(** Constraints mean the same. *)
Lemma merge_constraint e e' : same_constraint h h' m' e e' -> (forall r, In r (leaves e) -> exists s i, r = Ref i /\ get_feature m1 s = Some i) -> crel (corresponds m1 m') e e'.
Proof.
  intros ((x & S1 & S2) & L') L. apply (crel_refine _ _ _ _ (same_spelling _ _ _ _ _ S1 S2)). intros r r' I I' (s & E & E').
  destruct (L r I) as (u & i & -> & G). destruct (L' r' I') as (u' & i' & -> & G'). exists u, i, i'. split; [reflexivity|]. split; [reflexivity|]. split; [exact G|].
  cbn [cref_name] in E, E'. destruct (get_stored h m1 t1 R1 u i G) as (f & Sf & Nf). destruct (get_stored h' m' t' R' u' i' G') as (f' & Sf' & Nf').
  pose proof (stored_name h m1 i f Sf) as X. pose proof (stored_name h' m' i' f' Sf') as Y. assert (u = u') as <-; [|exact G']. congruence.
Qed.
Lemma merge_meets : constraints_meet m1 m'.
Proof.
  split; [apply Forall2_app|].
  - apply (Forall2_refine _ _ _ _ (mg_boolean _ _ _ _ _ Mg)). intros c c' I S. apply merge_constraint; [exact S|]. intros r Ir. apply (Re c r); [|exact Ir]. unfold all_constraints. apply in_or_app. left. exact I.
  - apply (Forall2_refine _ _ _ _ (mg_nonboolean _ _ _ _ _ Mg)). intros c c' I S. apply merge_constraint; [exact S|]. intros r Ir. apply (Re c r); [|exact Ir]. unfold all_constraints. apply in_or_app. right. apply in_or_app. left. exact I.
  - apply (Forall2_refine _ _ _ _ (mg_mixed _ _ _ _ _ Mg)). intros x x' I (S & Q). split; [|exact Q]. apply merge_constraint; [exact S|]. intros r Ir. apply (Re (x_con x) r); [|exact Ir]. unfold all_constraints. apply in_or_app. right. apply in_or_app. right. apply in_map. exact I.
Qed.
Lemma mentions_back r r' n : corresponds m1 m' r r' -> mentions h' r' false n -> mentions h r false n.
Proof.
  intros (s & i & i' & -> & -> & G & G'). intros (f' & F' & K & ->). destruct (get_stored h m1 t1 R1 s i G) as (f & (_ & F) & Nf).
  destruct (first_alike s i f G F) as (j & f2 & G2 & F2 & A & _). assert (j = i') as -> by congruence. assert (f2 = f') as -> by congruence.
  exists f. split; [exact F|]. split; [rewrite K; symmetry; exact (alike_numeric _ _ A)|]. rewrite Nf. exact (get_name h' m' t' R' s i' f' G' F').
Qed.
Lemma mixed_back a e e' k r : Forall2 (corresponds m1 m') (leaves e) (leaves e') -> value_of h true a e = value_of h' true a e' -> mixed_holds h' a e' k r -> mixed_holds h a e k r.
Proof.
  intros C V [H|(Er & x & n & I & M & S)]; [left; congruence|right]. split; [exact Er|]. destruct (Forall2_right _ _ _ _ C I) as (y & Iy & Cy).
  exists y, n. split; [exact Iy|]. split; [exact (mentions_back y x n Cy M)|exact S].
Qed.

Lemma merge_valid a : SolverSpec.valid h' m' a <-> SolverSpec.valid h m1 a /\ new_rules h m1 m2 a.
Proof.
  destruct merge_meets as (Mb & Mx). split.
  - intros V. split.
    + constructor.
      * intros i f Sf K. pose proof (stored_get h m1 t1 R1 i f Sf) as G. destruct (first_alike _ i f G (proj2 Sf)) as (i' & f' & G' & F' & A & _).
        pose proof (get_name h' m' t' R' _ i' f' G' F') as N. rewrite <- N. apply (v_root _ _ _ V i' f'); [apply (stored_is h' m' t' R'); rewrite N; auto|].
        rewrite K in A. destruct (f_kind f'); cbn in A; try discriminate; try contradiction. reflexivity.
      * intros i f p g r Sf K H Fg S. pose proof (stored_get h m1 t1 R1 i f Sf) as G. destruct (first_alike _ i f G (proj2 Sf)) as (i' & f' & G' & F' & A & _).
        pose proof (get_name h' m' t' R' _ i' f' G' F') as N. assert (Sf' : stored h' m' i' f') by (apply (stored_is h' m' t' R'); rewrite N; auto).
        destruct (hangs_parent h m1 t1 R1 i p r f Sf H (ex_intro _ g Fg)) as (u & Gu). destruct (fr_hangs _ _ _ _ merge_frame _ i u p r G Gu H) as (i2 & p' & X1 & X2 & X3).
        assert (i2 = i') as -> by congruence. destruct (get_stored h' m' t' R' u p' X2) as (g' & Sg' & Ng'). rewrite (get_name h m1 t1 R1 u p g Gu Fg), <- Ng'.
        apply (v_parent _ _ _ V i' f' p' g' r Sf'); [|exact X3|exact (proj2 Sg')|rewrite N; exact S].
        rewrite K in A. destruct (f_kind f'); cbn in A; try discriminate; try contradiction. reflexivity.
      * intros i f p g Sf K O H Fg S. pose proof (stored_get h m1 t1 R1 i f Sf) as G. destruct (first_alike _ i f G (proj2 Sf)) as (i' & f' & G' & F' & A & Of).
        pose proof (get_name h' m' t' R' _ i' f' G' F') as N. assert (Sf' : stored h' m' i' f') by (apply (stored_is h' m' t' R'); rewrite N; auto).
        destruct (hangs_parent h m1 t1 R1 i p None f Sf H (ex_intro _ g Fg)) as (u & Gu). destruct (fr_hangs _ _ _ _ merge_frame _ i u p None G Gu H) as (i2 & p' & X1 & X2 & X3).
        assert (i2 = i') as -> by congruence. destruct (get_stored h' m' t' R' u p' X2) as (g' & Sg' & Ng'). rewrite <- N.
        apply (v_mandatory _ _ _ V i' f' p' g' Sf'); [|rewrite (Of K); exact O|exact X3|exact (proj2 Sg')|].
        -- rewrite K in A. destruct (f_kind f'); cbn in A; try discriminate; try contradiction. reflexivity.
        -- rewrite Ng', <- (get_name h m1 t1 R1 u p g Gu Fg). exact S.
      * intros n ns Gn S. destruct (merge_group_to _ _ _ Gn) as (ns' & Gn' & E). destruct (v_alternative _ _ _ V n ns' Gn' S) as (s & Is & Ss & U).
        exists s. split; [apply E; exact Is|]. split; [exact Ss|]. intros s' I'. apply U. apply E. exact I'.
      * intros n ns Gn S. destruct (merge_group_to _ _ _ Gn) as (ns' & Gn' & E). destruct (v_or _ _ _ V n ns' Gn' S) as (s & Is & Ss). exists s. split; [apply E; exact Is|exact Ss].
      * intros i f v g Sf K. pose proof (stored_get h m1 t1 R1 i f Sf) as G. destruct (first_alike _ i f G (proj2 Sf)) as (i' & f' & G' & F' & A & _).
        pose proof (get_name h' m' t' R' _ i' f' G' F') as N. rewrite K in A. destruct (f_kind f') as [|v' g'| |] eqn:K'; cbn in A; try discriminate; try contradiction.
        apply A. rewrite <- N. apply (v_values _ _ _ V i' f' v' g'); [apply (stored_is h' m' t' R'); rewrite N; auto|exact K'].
      * intros c Ic. destruct (Forall2_left _ _ _ _ Mb Ic) as (c' & I' & C). rewrite (same_value h m1 t1 h' m' t' R1 R' merge_frame false a _ _ C). exact (v_constraints _ _ _ V c' I').
      * intros x Ix. destruct (Forall2_left _ _ _ _ Mx Ix) as (x' & I' & C & Er & Ek). rewrite <- Er, <- Ek.
        eapply mixed_back; [apply crel_leaves; exact C|exact (same_value h m1 t1 h' m' t' R1 R' merge_frame true a _ _ C)|exact (v_mixed _ _ _ V x' I')].
    + intros s j g N G F. destruct (mg_second _ _ _ _ _ Mg s j g N G F) as (i' & f' & G' & F' & (Nk & _ & K)). pose proof (get_name h' m' t' R' s i' f' G' F') as Ns.
      assert (Sf' : stored h' m' i' f') by (apply (stored_is h' m' t' R'); rewrite Ns; auto). destruct (f_kind g) as [|v st| |] eqn:Kg; try exact I.
      * intros u p Gu Ab. destruct K as (K & O & _). destruct (mg_second_parents _ _ _ _ _ Mg s j u p N G Gu Ab) as (i2 & p' & X1 & X2 & X3). assert (i2 = i') as -> by congruence.
        destruct (get_stored h' m' t' R' u p' X2) as (g' & Sg' & Ng'). rewrite <- Ns, <- Ng'. split.
        -- exact (v_parent _ _ _ V i' f' p' g' None Sf' K X3 (proj2 Sg')).
        -- intros Og. apply (v_mandatory _ _ _ V i' f' p' g' Sf' K); [congruence|exact X3|exact (proj2 Sg')].
      * destruct K as (K & _). pose proof (v_values _ _ _ V i' f' v None Sf' K) as Av. rewrite Ns in Av. destruct v as [lo hi|vs]; cbn in Av; [destruct Av as (x & _ & X & _); discriminate|]. eauto.
  - intros (V & W). constructor.
    + intros i' f' Sf K. destruct (merged_feature i' f' Sf) as [(i & f & Sf1 & Nf & A & _)|(N & j & g & G & F & (_ & _ & Kk))].
      * rewrite <- Nf. apply (v_root _ _ _ V i f Sf1). rewrite K in A. destruct (f_kind f); cbn in A; try discriminate; try contradiction. reflexivity.
      * exfalso. apply (proj1 (second_kind _ j g N G F)). destruct (f_kind g); destruct Kk as (Kk & _); congruence.
    + intros i' f' p' g' r Sf K H Fg S. destruct (merged_hangs i' f' p' g' r Sf H Fg) as [(i & p & f & g & Sf1 & Nf & H1 & Sg1 & Ng)|(N & -> & j & p & G & Gp & Ab)].
      * rewrite <- Ng. rewrite <- Nf in S. refine (v_parent _ _ _ V i f p g r Sf1 _ H1 (proj2 Sg1) S).
        destruct (merged_feature i' f' Sf) as [(i2 & f2 & S2 & N2 & A & _)|(N & _)]; [|rewrite <- Nf, (stored_get h m1 t1 R1 i f Sf1) in N; discriminate].
        assert (i2 = i) as -> by (pose proof (stored_get h m1 t1 R1 i2 f2 S2); pose proof (stored_get h m1 t1 R1 i f Sf1); congruence).
        assert (f2 = f) as -> by (destruct S2, Sf1; congruence). rewrite K in A. destruct (f_kind f); cbn in A; try discriminate; try contradiction. reflexivity.
      * destruct (merged_feature i' f' Sf) as [(i2 & f2 & S2 & N2 & _)|(_ & j2 & g & G2 & F & (_ & _ & Kk))]; [rewrite <- N2, (stored_get h m1 t1 R1 i2 f2 S2) in N; discriminate|].
        assert (j2 = j) as -> by congruence. specialize (W _ j g N G F). destruct (f_kind g); destruct Kk as (Kk & _); try congruence. exact (proj1 (W _ p Gp Ab) S).
    + intros i' f' p' g' Sf K O H Fg S. destruct (merged_hangs i' f' p' g' None Sf H Fg) as [(i & p & f & g & Sf1 & Nf & H1 & Sg1 & Ng)|(N & _ & j & p & G & Gp & Ab)].
      * rewrite <- Ng in S. rewrite <- Nf.
        destruct (merged_feature i' f' Sf) as [(i2 & f2 & S2 & N2 & A & Of)|(N & _)]; [|rewrite <- Nf, (stored_get h m1 t1 R1 i f Sf1) in N; discriminate].
        assert (i2 = i) as -> by (pose proof (stored_get h m1 t1 R1 i2 f2 S2); pose proof (stored_get h m1 t1 R1 i f Sf1); congruence).
        assert (f2 = f) as -> by (destruct S2, Sf1; congruence). 
        assert (Kf : f_kind f = FBinary) by (rewrite K in A; destruct (f_kind f); cbn in A; try discriminate; try contradiction; reflexivity).
        apply (v_mandatory _ _ _ V i f p g Sf1 Kf); [rewrite <- (Of Kf); exact O|exact H1|exact (proj2 Sg1)|exact S].
      * destruct (merged_feature i' f' Sf) as [(i2 & f2 & S2 & N2 & _)|(_ & j2 & g & G2 & F & (_ & _ & Kk))]; [rewrite <- N2, (stored_get h m1 t1 R1 i2 f2 S2) in N; discriminate|].
        assert (j2 = j) as -> by congruence. specialize (W _ j g N G F). destruct (f_kind g); destruct Kk as (Kk & Ko & _); try congruence. apply (proj2 (W _ p Gp Ab)); [congruence|exact S].
    + intros n ns' Gn S. destruct (merge_group_from _ _ _ Gn) as (ns & Gn1 & E). destruct (v_alternative _ _ _ V n ns Gn1 S) as (s & Is & Ss & U).
      exists s. split; [apply E; exact Is|]. split; [exact Ss|]. intros s' I'. apply U. apply E. exact I'.
    + intros n ns' Gn S. destruct (merge_group_from _ _ _ Gn) as (ns & Gn1 & E). destruct (v_or _ _ _ V n ns Gn1 S) as (s & Is & Ss). exists s. split; [apply E; exact Is|exact Ss].
    + intros i' f' v st Sf K. destruct (merged_feature i' f' Sf) as [(i & f & Sf1 & Nf & A & _)|(N & j & g & G & F & (_ & _ & Kk))].
      * rewrite K in A. destruct (f_kind f) as [|v0 g0| |] eqn:Kf; cbn in A; try discriminate; try contradiction. rewrite <- Nf. apply A. exact (v_values _ _ _ V i f v0 g0 Sf1 Kf).
      * specialize (W _ j g N G F). destruct (f_kind g) as [|v0 g0| |] eqn:Kg; destruct Kk as (Kk & _); try congruence. destruct W as (vs & -> & Iv).
        assert (v = VList vs) as -> by congruence. exact Iv.
    + intros c' Ic. destruct (Forall2_right _ _ _ _ Mb Ic) as (c & I1 & C). rewrite <- (same_value h m1 t1 h' m' t' R1 R' merge_frame false a _ _ C). exact (v_constraints _ _ _ V c I1).
    + intros x' Ix. destruct (Forall2_right _ _ _ _ Mx Ix) as (x & I1 & C & Er & Ek). rewrite Er, Ek.
      eapply (same_mixed h m1 t1 h' m' t' R1 R' merge_frame); [apply crel_leaves; exact C|exact (same_value h m1 t1 h' m' t' R1 R' merge_frame true a _ _ C)|exact (v_mixed _ _ _ V x I1)].
Qed.
End Merge.
