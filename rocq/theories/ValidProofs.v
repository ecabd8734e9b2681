(** Models with the same features, parents, groups and constraints by name have the same
    valid configurations. *)
From Coq Require Import List ZArith Arith Bool Ascii String Permutation Lia.
From Verif Require Import Text TextProofs ConstraintModel ConstraintSpec FeatureTreeModel FeatureTreeSpec FeatureTreeProofs FeatureTransactionModel FeatureTransactionSpec FeatureEditSpec FeatureEditProofs
  FeatureHistoryProofs FeatureBuildSpec FeatureCloneSpec FeatureCloneProofs SxfmModel XmlModel XmlSpec XmlTripSpec ConfigurationModel SolverModel SolverSpec SolverProofs SolverLoadProofs SolverEncodingProofs ValidSpec.
Import ListNotations.

(** ** Constraints by name *)
Inductive crel {A B} (R : A -> B -> Prop) : cexpr A -> cexpr B -> Prop :=
| crel_bin o l r l' r' : crel R l l' -> crel R r r' -> crel R (CBin o l r) (CBin o l' r')
| crel_un o e e' : crel R e e' -> crel R (CUn o e) (CUn o e')
| crel_int n : crel R (CInt n) (CInt n)
| crel_feat a b : R a b -> crel R (CFeat a) (CFeat b).

Lemma crel_meaning R xor leaf leaf' d e e' : crel R e e' -> (forall r r', In r (leaves e) -> In r' (leaves e') -> R r r' -> leaf r = leaf' r') ->
  meaning xor leaf d e = meaning xor leaf' d e'.
Proof.
  intros C H. induction C as [o l r l' r' C1 IH1 C2 IH2|o e e' C IH|n|a b Rab]; cbn [meaning leaves] in *.
  - rewrite IH1, IH2; [reflexivity| |]; intros x y X Y; apply H; apply in_or_app; auto.
  - rewrite (IH H). reflexivity.
  - reflexivity.
  - apply H; [left; reflexivity|left; reflexivity|exact Rab].
Qed.
Lemma crel_leaves {A B} (R : A -> B -> Prop) e e' : crel R e e' -> Forall2 R (leaves e) (leaves e').
Proof. intros C. induction C; cbn [leaves]; auto. apply Forall2_app; assumption. Qed.
Lemma crel_compose {A B C} (R : A -> B -> Prop) (Q : B -> C -> Prop) (P : A -> C -> Prop) : (forall a b c, R a b -> Q b c -> P a c) ->
  forall e f, crel R e f -> forall g, crel Q f g -> crel P e g.
Proof.
  intros H e f X. induction X; intros g Y; inversion Y; subst.
  - apply crel_bin; auto.
  - apply crel_un; auto.
  - apply crel_int.
  - apply crel_feat. eauto.
Qed.
Lemma crel_refine {A B} (R Q : A -> B -> Prop) e e' : crel R e e' -> (forall r r', In r (leaves e) -> In r' (leaves e') -> R r r' -> Q r r') -> crel Q e e'.
Proof.
  intros C H. induction C as [o l r l' r' C1 IH1 C2 IH2|o e e' C IH|n|a b Rab]; cbn [leaves] in *.
  - apply crel_bin; [apply IH1|apply IH2]; intros x y X Y; apply H; apply in_or_app; auto.
  - apply crel_un. exact (IH H).
  - apply crel_int.
  - apply crel_feat. apply H; [left; reflexivity|left; reflexivity|exact Rab].
Qed.
Lemma crel_sym {A B} (R : A -> B -> Prop) e f : crel R e f -> crel (fun b a => R a b) f e.
Proof. intros X. induction X; constructor; assumption. Qed.

(** ** Excluding spelled as implying *)
Lemma implies_meaning {leaf : cref -> option sval} xor d e : meaning xor leaf d (excludes_as_implies e) = meaning xor leaf d e.
Proof.
  induction e as [o l IHl r IHr|o e IH|n|r]; try reflexivity.
  - destruct o; cbn [excludes_as_implies meaning]; rewrite ?IHl, ?IHr; try reflexivity.
    destruct (meaning xor leaf d l) as [[a|x]|], (meaning xor leaf d r) as [[b|y]|]; cbn [truth_op number_op]; try reflexivity.
    do 2 f_equal. destruct a, b; reflexivity.
  - destruct o; cbn [excludes_as_implies meaning]; rewrite IH; reflexivity.
Qed.
Lemma implies_leaves {A} (e : cexpr A) : leaves (excludes_as_implies e) = leaves e.
Proof. induction e as [o l IHl r IHr|o e IH|n|r]; try reflexivity; [destruct o|destruct o]; cbn [excludes_as_implies leaves]; congruence. Qed.
Lemma implies_crel {A B} (R : A -> B -> Prop) e f : crel R e f -> crel R (excludes_as_implies e) (excludes_as_implies f).
Proof. intros X. induction X; [destruct o| | |]; cbn [excludes_as_implies]; repeat (constructor; try assumption). Qed.

(** ** The frame of a model *)
Definition alike (k l : fkind) : Prop :=
  match k, l with
  | FNumeric v g, FNumeric v' g' => forall z, allowed_value v g z <-> allowed_value v' g' z
  | FNumeric _ _, _ | _, FNumeric _ _ => False
  | _, _ => k = l
  end.
Lemma alike_numeric k l : alike k l -> numeric_kind k = numeric_kind l.
Proof. destruct k, l; cbn; intros H; try discriminate; try contradiction; reflexivity. Qed.
Lemma alike_sym k l : alike k l -> alike l k.
Proof. destruct k, l; cbn; intros H; try discriminate; try contradiction; try reflexivity. intros z. symmetry. apply H. Qed.

Record frame (h : heap) (m : fmodel) (h' : heap) (m' : fmodel) : Prop := Frame {
  fr_names : forall s, get_feature m' s = None -> get_feature m s = None;
  fr_features : forall s i f, get_feature m s = Some i -> feature_at h i = Some f -> exists i' f', get_feature m' s = Some i' /\ feature_at h' i' = Some f' /\
    alike (f_kind f) (f_kind f') /\ (f_kind f = FBinary -> f_optional f' = f_optional f);
  fr_hangs : forall s i u p r, get_feature m s = Some i -> get_feature m u = Some p -> hangs h i p r ->
    exists i' p', get_feature m' s = Some i' /\ get_feature m' u = Some p' /\ hangs h' i' p' r;
  fr_groups : forall u p k, get_feature m u = Some p -> group_of h m p k -> exists p', get_feature m' u = Some p' /\ group_of h' m' p' k
}.

Section Model.
Variables (h : heap) (m : fmodel) (t : tree).
Hypothesis R : represents h m t.

Lemma get_stored s i : get_feature m s = Some i -> exists f, stored h m i f /\ f_name f = s.
Proof.
  intros G. pose proof (represents_tree_shaped _ _ _ R) as TS. unfold get_feature in G. apply (find_name_in _ _ _ (ts_names _ _ TS)) in G.
  destruct (ts_stored _ _ TS s i G) as (f & F & N). exists f. split; [|exact N]. split; [|exact F]. apply in_map_iff. exists (s, i). auto.
Qed.
Lemma stored_get i f : stored h m i f -> get_feature m (f_name f) = Some i.
Proof.
  intros X. apply (stored_entry h m t R) in X. unfold get_feature. apply (find_name_in _ _ _ (ts_names _ _ (represents_tree_shaped _ _ _ R))). exact X.
Qed.
Lemma stored_is i f : stored h m i f <-> get_feature m (f_name f) = Some i /\ feature_at h i = Some f.
Proof.
  split; [intros X; split; [exact (stored_get i f X)|exact (proj2 X)]|]. intros (G & F). destruct (get_stored _ _ G) as (g & (I & F') & _). split; assumption.
Qed.
Lemma get_name s i f : get_feature m s = Some i -> feature_at h i = Some f -> f_name f = s.
Proof. intros G F. destruct (get_stored s i G) as (g & (_ & F') & N). congruence. Qed.

Lemma group_parent k p : group_of h m p k -> exists g, stored h m p g.
Proof.
  intros (q & cq & Q & C & D & P). pose proof (represents_tree_shaped _ _ _ R) as TS. destruct (group_cell h m t R q Q) as (k0 & p0 & e0 & n0 & ns0 & C0 & N & _).
  rewrite C in C0. injection C0 as ->. cbn in P. injection P as ->. destruct (ts_parent _ _ TS q) as (c & p1 & cp & C1 & P1 & In1 & Cp & _).
  - unfold nodes. apply in_or_app. right. exact Q.
  - intros E. destruct (ts_root _ _ TS) as (r & c & f & Er & _ & Cr & _ & Dr & _). rewrite E in Er. injection Er as <-. rewrite C in Cr. injection Cr as <-. discriminate.
  - rewrite C in C1. injection C1 as <-. cbn in P1. injection P1 as <-. unfold name_at, feature_at in N. rewrite Cp in N. cbn in N.
    destruct (n_data cp) as [g|] eqn:D1; [|discriminate]. exists g. split.
    + unfold nodes in In1. apply in_app_or in In1. destruct In1 as [I|I]; [exact I|]. destruct (ts_relationships _ _ TS _ I) as (c2 & k2 & C2 & D2). congruence.
    + unfold feature_at. rewrite Cp. cbn. rewrite D1. reflexivity.
Qed.

Lemma hangs_group i f p k : stored h m i f -> hangs h i p (Some k) -> exists c q cq, h_cells h i = Some c /\ n_parent c = Some q /\ In q (m_relationships m) /\
  h_cells h q = Some cq /\ n_data cq = NRelationship k /\ n_parent cq = Some p.
Proof.
  intros Sf (c & Ci & q & cq & Pc & Cq & Dq & Pq). exists c, q, cq. split; [exact Ci|]. split; [exact Pc|]. split; [|auto]. pose proof (represents_tree_shaped _ _ _ R) as TS.
  destruct (ts_parent _ _ TS i) as (c2 & p2 & cp2 & X1 & X2 & X3 & X4 & _).
  - unfold nodes. apply in_or_app. left. exact (proj1 Sf).
  - intros E. destruct (ts_root _ _ TS) as (r & cr & fr & Er & _ & Cr & Pr & _). rewrite E in Er. injection Er as <-. congruence.
  - assert (p2 = q) as -> by congruence. unfold nodes in X3. apply in_app_or in X3. destruct X3 as [I|I]; [|exact I]. exfalso.
    apply in_map_iff in I. destruct I as ((s2 & j) & E2 & I). cbn in E2. subst j. destruct (ts_stored _ _ TS s2 q I) as (f2 & F2 & _). unfold feature_at in F2. rewrite Cq in F2. cbn in F2. rewrite Dq in F2. discriminate.
Qed.
Lemma hangs_above i p r s : hangs h i p r -> get_feature m s = Some p -> feature_above h i p.
Proof.
  intros (c & Ci & H) Gp. destruct (get_stored s p Gp) as (g & (_ & Fg) & _). unfold feature_at in Fg. destruct (h_cells h p) as [cp|] eqn:Cp; [|discriminate]. cbn in Fg.
  destruct (n_data cp) as [g0|] eqn:Dp; [|discriminate]. destruct r as [k|].
  - destruct H as (q & cq & Pc & Cq & Dq & Pq). eapply above_further; [exact Ci|exact Pc|exact Cq|rewrite Dq; reflexivity|]. eapply above_here; [exact Cq|exact Pq|exact Cp|rewrite Dp; reflexivity].
  - eapply above_here; [exact Ci|exact H|exact Cp|rewrite Dp; reflexivity].
Qed.
Lemma above_hangs i p s : get_feature m s = Some i -> feature_above h i p -> exists r, hangs h i p r.
Proof.
  intros G A. destruct (get_stored s i G) as (f & Sf & _). destruct (f_kind f) eqn:K.
  3: { exfalso. pose proof (represents_tree_shaped _ _ _ R) as TS. inversion A as [? c q cp Ci Pi Cp Dp|? c q cp ? Ci Pi Cp Dp _]; subst.
    - apply (hangs_root h m t R i f p None Sf K). exists c. auto.
    - destruct (n_data cp) as [g|k] eqn:Dk; [discriminate|]. destruct (ts_parent _ _ TS i) as (c2 & p2 & cp2 & X1 & X2 & X3 & X4 & _).
      + unfold nodes. apply in_or_app. left. exact (proj1 Sf).
      + intros E. destruct (ts_root _ _ TS) as (r & cr & fr & Er & _ & Cr & Pr & _). rewrite E in Er. injection Er as <-. congruence.
      + assert (p2 = q) as -> by congruence. unfold nodes in X3. apply in_app_or in X3. destruct X3 as [I|I].
        * apply in_map_iff in I. destruct I as ((s2 & j) & E2 & I). cbn in E2. subst j. destruct (ts_stored _ _ TS s2 q I) as (f2 & F2 & _). unfold feature_at in F2. rewrite Cp in F2. cbn in F2. rewrite Dk in F2. discriminate.
        * destruct (group_cell h m t R q I) as (k0 & p0 & e0 & n0 & ns0 & C0 & _). apply (hangs_root h m t R i f p0 (Some k0) Sf K). exists c. split; [exact Ci|]. eexists q, _. split; [exact Pi|]. split; [exact C0|]. auto. }
  all: destruct (hangs_below h m t R i f Sf) as (p1 & g1 & r1 & H1 & S1 & _ & _); [rewrite K; discriminate|];
    pose proof (hangs_above i p1 r1 _ H1 (stored_get p1 g1 S1)) as A1; assert (p1 = p) as -> by (eapply feature_above_unique; eauto);
    exists r1; exact H1.
Qed.
Lemma hangs_group_of i f p k : stored h m i f -> hangs h i p (Some k) -> group_of h m p k.
Proof. intros Sf H. destruct (hangs_group i f p k Sf H) as (c & q & cq & _ & _ & Q & Cq & Dq & Pq). exists q, cq. auto. Qed.

(** The members of a group are the features that hang there. *)
Definition one_group : Prop :=
  forall p q q' c c', In q (m_relationships m) -> In q' (m_relationships m) -> h_cells h q = Some c -> h_cells h q' = Some c' ->
    n_parent c = Some p -> n_parent c' = Some p -> q = q'.
Lemma members_hang_one k n ns : one_group -> group h m k n ns -> exists p, get_feature m n = Some p /\ group_of h m p k /\
  forall s, In s ns <-> exists i, get_feature m s = Some i /\ hangs h i p (Some k).
Proof.
  intros One (q & p & e & Q & C & N & F). destruct (group_cell h m t R q Q) as (k0 & p0 & e0 & n0 & ns0 & C0 & N0 & _ & _ & _ & M0).
  rewrite C in C0. injection C0 as <- <- <-. pose proof (represents_tree_shaped _ _ _ R) as TS.
  destruct (group_parent k p (ex_intro _ q (ex_intro _ _ (conj Q (conj C (conj eq_refl eq_refl)))))) as (g & Sp).
  exists p. assert (Eg : f_name g = n). { unfold name_at in N. rewrite (proj2 Sp) in N. cbn in N. congruence. }
  split; [rewrite <- Eg; exact (stored_get p g Sp)|]. split; [exists q, (Cell (NRelationship k) (Some p) e); auto|].
  intros s. split.
  - intros I. destruct (In_nth_error _ _ I) as (j & Ej). assert (exists i, nth_error e j = Some i /\ name_at h i = Some s) as (i & Ei & Ni).
    { clear - F Ej. revert j Ej. induction F as [|x y l l' Hxy F IH]; intros [|j] Ej; cbn in *; try discriminate; [injection Ej as <-; eauto|eauto]. }
    apply nth_error_In in Ei. rewrite Forall_forall in M0. destruct (M0 i Ei) as (f & Sf & H). exists i. split; [|exact H].
    rewrite (stored_name h m i f Sf) in Ni. injection Ni as <-. exact (stored_get i f Sf).
  - intros (i & G & H). destruct (get_stored s i G) as (f & Sf & Nf). destruct (hangs_group i f p k Sf H) as (c & q' & cq & Ci & Pi & Iq & Cq & Dq & Pq).
    assert (q' = q) as -> by (eapply One; eauto). rewrite C in Cq. injection Cq as <-.
    assert (In i e) as Ie.
    { destruct (ts_parent _ _ TS i) as (c2 & p2 & cp2 & X1 & X2 & X3 & X4 & X5).
      - unfold nodes. apply in_or_app. left. exact (proj1 Sf).
      - intros E. destruct (ts_root _ _ TS) as (r & cr & fr & Er & _ & Cr & Pr & _). rewrite E in Er. injection Er as <-. rewrite Ci in Cr. injection Cr as <-. congruence.
      - rewrite Ci in X1. injection X1 as <-. rewrite Pi in X2. injection X2 as <-. rewrite C in X4. injection X4 as <-. cbn in X5.
        apply (count_occ_In Nat.eq_dec). lia. }
    destruct (In_nth_error _ _ Ie) as (j & Ej). clear - F Ej G Nf Sf.
    assert (exists s', nth_error ns j = Some s' /\ name_at h i = Some s') as (s' & Es & Ns).
    { revert j Ej. induction F as [|x y l l' Hxy F IH]; intros [|j] Ej; cbn in *; try discriminate; [injection Ej as <-; eauto|eauto]. }
    rewrite (stored_name h m i f Sf), Nf in Ns. injection Ns as <-. eapply nth_error_In; eauto.
Qed.
(** A feature of a tree has at most one group. *)
Lemma rep_one_group : one_group.
Proof.
  intros p q q' c c' Q Q' C C' P P'.
  assert (K : forall x d, In x (m_relationships m) -> h_cells h x = Some d -> n_parent d = Some p -> exists v w, subtree v t /\ rid v = p /\ In w (kids v) /\ rid w = x /\ is_relationship (rdata w) = true).
  { intros x d X D Pd. apply (Permutation_in _ (rep_groups _ _ _ R)) in X. apply groups_subtree in X. destruct X as (w & k & W & <- & Dw).
    destruct (subtree_parent w t W) as [->|(v & V & I)].
    - exfalso. rewrite (rep_top R) in D. injection D as <-. discriminate.
    - exists v, w. split; [exact V|]. rewrite (rep_kid R v w V I) in D. injection D as <-. cbn in Pd. injection Pd as <-. rewrite Dw. auto. }
  destruct (K q c Q C P) as (v & w & V & Ev & I & <- & Dw). destruct (K q' c' Q' C' P') as (v' & w' & V' & Ev' & I' & <- & Dw').
  assert (v' = v) as -> by (apply (subtree_unique t); [apply (rep_ids _ _ _ R)|exact V'|exact V|congruence]).
  pose proof (grouped_sub v t V (rep_shape _ _ _ R)) as G. inversion G as [n f ts L F E|n kk ts L F E]; subst; cbn [kids] in *.
  - assert (A : In w (own_groups ts)) by (apply filter_In; auto). assert (B : In w' (own_groups ts)) by (apply filter_In; auto).
    destruct (own_groups ts) as [|a [|b r]]; [contradiction| |cbn in L; lia]. destruct A as [<-|[]]. destruct B as [<-|[]]. reflexivity.
  - exfalso. rewrite Forall_forall in L. specialize (L w I). destruct (rdata w); discriminate.
Qed.
Lemma members_hang_rep k n ns : group h m k n ns -> exists p, get_feature m n = Some p /\ group_of h m p k /\
  forall s, In s ns <-> exists i, get_feature m s = Some i /\ hangs h i p (Some k).
Proof. exact (members_hang_one k n ns rep_one_group). Qed.
Lemma members_hang k n ns : neat h m -> group h m k n ns -> exists p, get_feature m n = Some p /\ group_of h m p k /\
  forall s, In s ns <-> exists i, get_feature m s = Some i /\ hangs h i p (Some k).
Proof. intros (One & _). exact (members_hang_one k n ns One). Qed.
Lemma grouped_by p k u : get_feature m u = Some p -> group_of h m p k -> exists ns, group h m k u ns.
Proof.
  intros G (q & c & Q & C & D & P). destruct (group_cell h m t R q Q) as (k0 & p0 & e0 & n0 & ns0 & C0 & N0 & _ & F & _).
  rewrite C in C0. injection C0 as ->. cbn in D, P. injection D as ->. injection P as ->. exists ns0, q, p, e0. split; [exact Q|]. split; [exact C|]. split; [|exact F].
  destruct (get_stored u p G) as (f & Sf & <-). exact (stored_name h m p f Sf).
Qed.
Lemma hangs_parent i p r f : stored h m i f -> hangs h i p r -> (exists g, feature_at h p = Some g) -> exists u, get_feature m u = Some p.
Proof.
  intros Sf H (g & F). destruct (f_kind f) eqn:K.
  all: try (destruct (hangs_below h m t R i f Sf) as (p1 & g1 & r1 & H1 & S1 & _ & U); [rewrite K; discriminate|];
    destruct (U p g r H F) as (-> & -> & ->); exists (f_name g1); exact (stored_get _ _ S1)).
  exfalso. exact (hangs_root h m t R i f p r Sf K H).
Qed.
End Model.

(** ** Frames are symmetric *)
Section Frames.
Variables (h : heap) (m : fmodel) (t : tree) (h' : heap) (m' : fmodel) (t' : tree).
Hypothesis R : represents h m t.
Hypothesis R' : represents h' m' t'.
Hypothesis Fr : frame h m h' m'.
Hypothesis same_names : forall s, get_feature m s = None -> get_feature m' s = None.
Hypothesis groups_from : forall u p' k, get_feature m' u = Some p' -> group_of h' m' p' k -> exists p, get_feature m u = Some p /\ group_of h m p k.

Lemma frame_back : frame h' m' h m.
Proof.
  assert (FB : forall s i' f', get_feature m' s = Some i' -> feature_at h' i' = Some f' -> exists i f, get_feature m s = Some i /\ feature_at h i = Some f /\
    alike (f_kind f) (f_kind f') /\ (f_kind f = FBinary -> f_optional f' = f_optional f)).
  { intros s i' f' G F. destruct (get_feature m s) as [i|] eqn:E; [|apply same_names in E; congruence].
    destruct (get_stored h m t R s i E) as (f & Sf & _). destruct (fr_features _ _ _ _ Fr s i f E (proj2 Sf)) as (j & g & G' & F' & A & O).
    rewrite G in G'. injection G' as <-. rewrite F in F'. injection F' as <-. exists i, f. split; [reflexivity|]. split; [exact (proj2 Sf)|]. auto. }
  constructor.
  - exact same_names.
  - intros s i' f' G F. destruct (FB s i' f' G F) as (i & f & G1 & F1 & A & O). exists i, f. split; [exact G1|]. split; [exact F1|]. split; [exact (alike_sym _ _ A)|].
    intros K. rewrite O; [reflexivity|]. rewrite K in A. destruct (f_kind f); cbn in A; try discriminate; try contradiction. reflexivity.
  - intros s i' u p' r Gi Gp H. destruct (get_stored h' m' t' R' s i' Gi) as (f' & Sf' & Nf'). destruct (FB s i' f' Gi (proj2 Sf')) as (i & f & G1 & F1 & A & _).
    assert (Sf : stored h m i f) by (apply (stored_is h m t R); split; [rewrite (get_name h m t R s i f G1 F1); exact G1|exact F1]).
    destruct (get_stored h' m' t' R' u p' Gp) as (g' & Sg' & Ng').
    assert (K : f_kind f <> FRoot). { intros K. rewrite K in A. destruct (f_kind f') eqn:K'; cbn in A; try discriminate; try contradiction.
      exact (hangs_root h' m' t' R' i' f' p' r Sf' K' H). }
    destruct (hangs_below h m t R i f Sf K) as (p & g & r0 & H0 & Sp & _ & _). pose proof (stored_get h m t R p g Sp) as Gp0.
    destruct (fr_hangs _ _ _ _ Fr s i (f_name g) p r0 G1 Gp0 H0) as (i2 & p2 & X1 & X2 & X3). rewrite Gi in X1. injection X1 as <-.
    assert (K' : f_kind f' <> FRoot). { intros K'. rewrite K' in A. destruct (f_kind f); cbn in A; try discriminate; try contradiction. }
    destruct (hangs_below h' m' t' R' i' f' Sf' K') as (p3 & g3 & r3 & _ & _ & _ & U). destruct (U p' g' r H (proj2 Sg')) as (-> & -> & ->).
    destruct (get_stored h' m' t' R' (f_name g) p2 X2) as (g2 & Sg2 & Ng2). destruct (U p2 g2 r0 X3 (proj2 Sg2)) as (-> & -> & ->).
    assert (u = f_name g) as -> by congruence. exists i, p. auto.
  - exact groups_from.
Qed.
(** Children beside a group. *)
Lemma none_beside : (forall p k s i, group_of h m p k -> get_feature m s = Some i -> ~ hangs h i p None) ->
  forall p' k s i', group_of h' m' p' k -> get_feature m' s = Some i' -> ~ hangs h' i' p' None.
Proof.
  intros N p' k s i' Gr Gi H. destruct (get_stored h' m' t' R' s i' Gi) as (f' & Sf' & Nf').
  destruct (group_parent h' m' t' R' k p' Gr) as (g' & Sg').
  pose proof (stored_get h' m' t' R' p' g' Sg') as Gp'. destruct (fr_hangs _ _ _ _ frame_back s i' _ p' None Gi Gp' H) as (i & p & Gi0 & Gp0 & H0).
  destruct (groups_from _ p' k Gp' Gr) as (p1 & Gp1 & Gr1). rewrite Gp0 in Gp1. injection Gp1 as <-. exact (N p k s i Gr1 Gi0 H0).
Qed.
End Frames.

(** ** Transfer *)
Section Transfer.
Variables (h : heap) (m : fmodel) (t : tree) (h' : heap) (m' : fmodel) (t' : tree).
Hypothesis R : represents h m t.
Hypothesis R' : represents h' m' t'.
Hypothesis Fr : frame h m h' m'.
Hypothesis Fr' : frame h' m' h m.

Lemma from_feature i' f' : stored h' m' i' f' -> exists i f, stored h m i f /\ f_name f = f_name f' /\ alike (f_kind f) (f_kind f') /\ (f_kind f = FBinary -> f_optional f' = f_optional f).
Proof.
  intros Sf. apply (stored_is h' m' t' R') in Sf. destruct Sf as (G & F). destruct (fr_features _ _ _ _ Fr' _ _ _ G F) as (i & f & G1 & F1 & _ & _).
  destruct (fr_features _ _ _ _ Fr _ _ _ G1 F1) as (j & g & G2 & F2 & A & O). rewrite G in G2. injection G2 as <-. rewrite F in F2. injection F2 as <-.
  pose proof (get_name h m t R _ _ _ G1 F1) as En. exists i, f. split; [apply (stored_is h m t R); rewrite En; auto|]. auto.
Qed.
Lemma group_transfer k n ns' : group h' m' k n ns' -> exists ns, group h m k n ns /\ forall s, In s ns <-> In s ns'.
Proof.
  intros Gr. destruct (members_hang_rep h' m' t' R' k n ns' Gr) as (p' & Gp' & Gk' & M').
  destruct (fr_groups _ _ _ _ Fr' n p' k Gp' Gk') as (p & Gp & Gk). destruct (grouped_by h m t R p k n Gp Gk) as (ns & Gn). exists ns. split; [exact Gn|].
  destruct (members_hang_rep h m t R k n ns Gn) as (p0 & Gp0 & _ & M). assert (p0 = p) as -> by congruence.
  intros s. rewrite M, M'. split.
  - intros (i & G & H). destruct (fr_hangs _ _ _ _ Fr s i n p _ G Gp H) as (i' & p2 & X1 & X2 & X3). assert (p2 = p') as -> by congruence. eauto.
  - intros (i & G & H). destruct (fr_hangs _ _ _ _ Fr' s i n p' _ G Gp' H) as (i' & p2 & X1 & X2 & X3). assert (p2 = p) as -> by congruence. eauto.
Qed.

(** A reference to a feature of the one model and one to the feature of the same name in
    the other. *)
Definition corresponds (r r' : cref) : Prop :=
  exists s i i', r = Ref i /\ r' = Ref i' /\ get_feature m s = Some i /\ get_feature m' s = Some i'.
Lemma corresponds_value mixed a r r' : corresponds r r' -> leaf_value h mixed a r = leaf_value h' mixed a r'.
Proof.
  intros (s & i & i' & -> & -> & G & G'). destruct (get_stored h m t R s i G) as (f & Sf & Nf).
  destruct (fr_features _ _ _ _ Fr s i f G (proj2 Sf)) as (j & f' & G2 & F' & A & _). rewrite G' in G2. injection G2 as <-.
  cbn [leaf_value]. rewrite (proj2 Sf), F'. rewrite (alike_numeric _ _ A), (get_name h' m' t' R' s i' f' G' F'), Nf. reflexivity.
Qed.
Lemma same_value mixed a e e' : crel corresponds e e' -> value_of h mixed a e = value_of h' mixed a e'.
Proof. intros C. unfold value_of. eapply crel_meaning; [exact C|]. intros r r' _ _ X. exact (corresponds_value mixed a r r' X). Qed.
Lemma corresponds_mentions r r' n : corresponds r r' -> mentions h r false n -> mentions h' r' false n.
Proof.
  intros (s & i & i' & -> & -> & G & G'). intros (f & F & K & ->).
  destruct (fr_features _ _ _ _ Fr s i f G F) as (j & f' & G2 & F' & A & _). rewrite G' in G2. injection G2 as <-.
  exists f'. split; [exact F'|]. split; [rewrite K; exact (alike_numeric _ _ A)|]. rewrite (get_name h m t R s i f G F). symmetry. exact (get_name h' m' t' R' s i' f' G' F').
Qed.
Lemma same_mixed a e e' k r : Forall2 corresponds (leaves e) (leaves e') -> value_of h true a e = value_of h' true a e' -> mixed_holds h a e k r -> mixed_holds h' a e' k r.
Proof.
  intros C V [H|(Er & x & n & I & M & S)]; [left; congruence|right]. split; [exact Er|].
  assert (exists y, In y (leaves e') /\ corresponds x y) as (y & Iy & Cy).
  { clear - C I. induction C as [|u v l l' H C IH]; [destruct I|]. destruct I as [<-|I]; [exists v; split; [left; reflexivity|exact H]|]. destruct (IH I) as (y & Y & Z). exists y. split; [right; exact Y|exact Z]. }
  exists y, n. split; [exact Iy|]. split; [exact (corresponds_mentions x y n Cy M)|exact S].
Qed.

Lemma valid_transfer a :
  (SolverSpec.valid h m a -> forall c', In c' (m_boolean m' ++ m_nonboolean m') -> value_of h' false a (c_expr c') = Some (Truth true)) ->
  (SolverSpec.valid h m a -> forall x', In x' (m_mixed m') -> mixed_holds h' a (c_expr (x_con x')) (x_kind x') (x_req x')) ->
  SolverSpec.valid h m a -> SolverSpec.valid h' m' a.
Proof.
  intros Cs Xs V. specialize (Cs V). specialize (Xs V). constructor; [| | | | | |exact Cs|exact Xs].
  - intros i' f' Sf K. destruct (from_feature i' f' Sf) as (i & f & Sf0 & Nf & A & _). rewrite <- Nf. apply (v_root _ _ _ V i f Sf0).
    rewrite K in A. destruct (f_kind f); cbn in A; try discriminate; try contradiction. reflexivity.
  - intros i' f' p' g' r Sf K H Fg S. destruct (from_feature i' f' Sf) as (i & f & Sf0 & Nf & A & _).
    assert (Kf : f_kind f = FBinary) by (rewrite K in A; destruct (f_kind f); cbn in A; try discriminate; try contradiction; reflexivity).
    destruct (hangs_parent h' m' t' R' i' p' r f' Sf H (ex_intro _ g' Fg)) as (u & Gu).
    destruct (fr_hangs _ _ _ _ Fr' (f_name f') i' u p' r (stored_get h' m' t' R' _ _ Sf) Gu H) as (i0 & p & G0 & Gp & H0).
    assert (i0 = i) as -> by (rewrite <- Nf, (stored_get h m t R i f Sf0) in G0; congruence).
    destruct (get_stored h m t R u p Gp) as (g & Sg & Ng). rewrite (get_name h' m' t' R' u p' g' Gu Fg), <- Ng.
    apply (v_parent _ _ _ V i f p g r Sf0 Kf H0 (proj2 Sg)). rewrite Nf. exact S.
  - intros i' f' p' g' Sf K O H Fg S. destruct (from_feature i' f' Sf) as (i & f & Sf0 & Nf & A & Of).
    assert (Kf : f_kind f = FBinary) by (rewrite K in A; destruct (f_kind f); cbn in A; try discriminate; try contradiction; reflexivity).
    destruct (hangs_parent h' m' t' R' i' p' None f' Sf H (ex_intro _ g' Fg)) as (u & Gu).
    destruct (fr_hangs _ _ _ _ Fr' (f_name f') i' u p' None (stored_get h' m' t' R' _ _ Sf) Gu H) as (i0 & p & G0 & Gp & H0).
    assert (i0 = i) as -> by (rewrite <- Nf, (stored_get h m t R i f Sf0) in G0; congruence).
    destruct (get_stored h m t R u p Gp) as (g & Sg & Ng). rewrite <- Nf. apply (v_mandatory _ _ _ V i f p g Sf0 Kf); [|exact H0|exact (proj2 Sg)|].
    + rewrite <- Of; [exact O|exact Kf].
    + rewrite Ng, <- (get_name h' m' t' R' u p' g' Gu Fg). exact S.
  - intros n ns' G S. destruct (group_transfer _ _ _ G) as (ns & G0 & E). destruct (v_alternative _ _ _ V n ns G0 S) as (s & I & Ss & U).
    exists s. split; [apply E; exact I|]. split; [exact Ss|]. intros s' I'. apply U. apply E. exact I'.
  - intros n ns' G S. destruct (group_transfer _ _ _ G) as (ns & G0 & E). destruct (v_or _ _ _ V n ns G0 S) as (s & I & Ss). exists s. split; [apply E; exact I|exact Ss].
  - intros i' f' v g Sf K. destruct (from_feature i' f' Sf) as (i & f & Sf0 & Nf & A & _). rewrite K in A. destruct (f_kind f) as [|v0 g0| |] eqn:Kf; cbn in A; try discriminate; try contradiction.
    rewrite <- Nf. apply A. exact (v_values _ _ _ V i f v0 g0 Sf0 Kf).
Qed.

(** What the solver supports. *)
Lemma supported_transfer :
  (forall i' f' v g, stored h' m' i' f' -> f_kind f' = FNumeric v g -> leaves_range v g) ->
  (forall c', In c' (m_boolean m' ++ m_nonboolean m') -> well_typed h' false (c_expr c')) ->
  (forall x', In x' (m_mixed m') -> well_typed h' true (c_expr (x_con x'))) ->
  supported h m -> supported h' m'.
Proof.
  intros Rg Cs Xs V. constructor; [| | |exact Rg|exact Cs|exact Xs].
  - intros i' f' Sf K. destruct (from_feature i' f' Sf) as (i & f & Sf0 & Nf & A & _). apply (su_kinds _ _ V i f Sf0).
    rewrite K in A. destruct (f_kind f); cbn in A; try discriminate; try contradiction. reflexivity.
  - intros i' f' p' g' r Sf K H Fg. destruct (from_feature i' f' Sf) as (i & f & Sf0 & Nf & A & _).
    assert (Kf : f_kind f = FBinary) by (rewrite K in A; destruct (f_kind f); cbn in A; try discriminate; try contradiction; reflexivity).
    destruct (hangs_parent h' m' t' R' i' p' r f' Sf H (ex_intro _ g' Fg)) as (u & Gu).
    destruct (fr_hangs _ _ _ _ Fr' (f_name f') i' u p' r (stored_get h' m' t' R' _ _ Sf) Gu H) as (i0 & p & G0 & Gp & H0).
    assert (i0 = i) as -> by (rewrite <- Nf, (stored_get h m t R i f Sf0) in G0; congruence).
    destruct (get_stored h m t R u p Gp) as (g & Sg & Ng). pose proof (su_parents _ _ V i f p g r Sf0 Kf H0 (proj2 Sg)) as Np.
    destruct (fr_features _ _ _ _ Fr u p g Gp (proj2 Sg)) as (p2 & g2 & X1 & X2 & X3 & _). rewrite Gu in X1. injection X1 as <-. rewrite Fg in X2. injection X2 as <-.
    rewrite <- (alike_numeric _ _ X3). exact Np.
  - intros n ns' G E. destruct (group_transfer _ _ _ G) as (ns & G0 & Es). apply (su_alternatives _ _ V n ns G0). subst ns'.
    destruct ns as [|s ns]; [reflexivity|]. destruct (proj1 (Es s) (or_introl eq_refl)).
Qed.
End Transfer.
