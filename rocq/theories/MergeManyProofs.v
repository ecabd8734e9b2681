(** Proofs about merging any number of models. *)
From Coq Require Import List ZArith Arith Bool Ascii String Permutation Lia.
From Verif Require Import Text TextProofs ConstraintModel ConstraintSpec SourceRangeModel SourceRangeProofs FeatureTreeModel FeatureTreeSpec FeatureTreeProofs FeatureTransactionModel FeatureTransactionSpec FeatureEditSpec
  FeatureEditProofs FeatureHistoryProofs FeatureTransactionFinal FeatureBuildSpec FeatureCloneSpec FeatureCloneProofs FeatureMergeSpec FeatureMergeResult SxfmModel XmlModel XmlSpec ConfigurationModel SolverModel SolverSpec SolverProofs
  SolverLoadProofs SolverEncodingProofs ValidSpec ValidProofs ValidCloneProofs ValidFinal MergeValidSpec MergeValidProofs MergeValidFinal MergeAgainSpec MergeAgainFinal MergeOrderSpec MergeOrderFinal XmlBelowSpec MergeManyModel MergeManySpec.
Import ListNotations.

(** ** More memory *)
Definition extends (h h' : heap) : Prop := forall i c, h_cells h i = Some c -> h_cells h' i = Some c.
Lemma extends_feature h h' i f : extends h h' -> feature_at h i = Some f -> feature_at h' i = Some f.
Proof. intros E F. unfold feature_at in *. destruct (h_cells h i) as [c|] eqn:C; [|discriminate]. rewrite (E _ _ C). exact F. Qed.
Lemma extends_represents h h' m t : extends h h' -> heap_ok h' -> represents h m t -> represents h' m t.
Proof. intros E O [O1 H D Rt Rs F N G S1]. constructor; try assumption. intros i c I. apply E. apply H. exact I. Qed.
Lemma extends_hangs h h' i p r : extends h h' -> hangs h i p r -> hangs h' i p r.
Proof. intros E (c & C & X). exists c. split; [auto|]. destruct r; [|exact X]. destruct X as (q & cq & P & Cq & X). exists q, cq. auto. Qed.

Lemma above_feature h i p : feature_above h i p -> exists g, feature_at h p = Some g.
Proof. induction 1 as [i c p cp C P Cp D|i c p cp q C P Cp D A IH]; [|exact IH]. unfold feature_at. rewrite Cp. cbn. destruct (n_data cp) as [g|]; [eauto|discriminate]. Qed.

Section One.
Variables (h : heap) (m : fmodel) (t : tree).
Hypothesis R : represents h m t.
Hypothesis B : bare m.
Lemma bare_place s i p r : get_feature m s = Some i -> hangs h i p r -> r = None.
Proof. intros G H. destruct (get_stored h m t R s i G) as (f & Sf & _). exact (bare_hangs h m t R B s i f p r G (proj2 Sf) H). Qed.
Lemma bare_above s i p : get_feature m s = Some i -> feature_above h i p -> hangs h i p None /\ exists u, get_feature m u = Some p.
Proof.
  intros G A. destruct (above_hangs h m t R i p s G A) as (r & H). destruct (get_stored h m t R s i G) as (f & Sf & _). rewrite <- (bare_place s i p r G H).
  split; [exact H|]. exact (hangs_parent h m t R i p r f Sf H (above_feature _ _ _ A)).
Qed.
Lemma bare_below s i f : get_feature m s = Some i -> feature_at h i = Some f -> f_kind f <> FRoot -> exists u p, get_feature m u = Some p /\ hangs h i p None.
Proof.
  intros G F K. destruct (get_stored h m t R s i G) as (f0 & Sf & _). assert (f0 = f) as -> by (destruct Sf; congruence). destruct (hangs_below h m t R i f Sf K) as (p & g & r & H & Sp & _).
  rewrite (bare_place s i p r G H) in H. exists (f_name g), p. split; [exact (stored_get h m t R p g Sp)|exact H].
Qed.
Lemma bare_alone s i : get_feature m s = Some i -> ~ in_group h i.
Proof.
  intros G (c & p & cp & k & C & P & Cp & D). destruct (get_stored h m t R s i G) as (f & Sf & _). destruct (f_kind f) eqn:K.
  3: { apply (hangs_root h m t R i f p None Sf K). exists c. auto. }
  all: destruct (bare_below s i f G (proj2 Sf)) as (u & q & Gq & (c' & C' & Q)); [congruence|]; assert (c' = c) as -> by congruence; assert (q = p) as -> by congruence;
    destruct (get_stored h m t R u p Gq) as (g & (_ & Fg) & _); unfold feature_at in Fg; rewrite Cp in Fg; cbn in Fg; rewrite D in Fg; discriminate.
Qed.
Lemma bare_same_root s i f : get_feature m s = Some i -> feature_at h i = Some f -> f_kind f = FRoot -> m_root m = Some i.
Proof. intros G F K. destruct (get_stored h m t R s i G) as (f0 & (I & _) & _). exact (ts_one_root _ _ (represents_tree_shaped _ _ _ R) i f I F K). Qed.
Lemma root_kind i f : m_root m = Some i -> feature_at h i = Some f -> f_kind f = FRoot.
Proof.
  intros G F. destruct (ts_root _ _ (represents_tree_shaped _ _ _ R)) as (r & c & g & E & _ & C & _ & D & K). assert (r = i) as -> by congruence. unfold feature_at in F. rewrite C in F. cbn in F. rewrite D in F. injection F as <-. exact K.
Qed.
End One.

Lemma valid_extends h h' m t a : extends h h' -> represents h m t -> represents h' m t -> bare m -> (SolverSpec.valid h' m a <-> SolverSpec.valid h m a).
Proof.
  intros E R R' B.
  assert (St : forall i f, stored h m i f <-> stored h' m i f).
  { intros i f. split; intros (I & F); (split; [exact I|]); [exact (extends_feature _ _ _ _ E F)|]. apply in_map_iff in I. destruct I as ((s & j) & X & I). cbn in X. subst j.
    destruct (ts_stored _ _ (represents_tree_shaped _ _ _ R) s i I) as (g & G & _). pose proof (extends_feature _ _ _ _ E G). congruence. }
  assert (Hg : forall i f p g, stored h m i f -> feature_at h' p = Some g -> hangs h' i p None -> hangs h i p None /\ feature_at h p = Some g).
  { intros i f p g S F (c & C & P). destruct (hangs_parent h' m t R' i p None f (proj1 (St i f) S) (ex_intro _ c (conj C P)) (ex_intro _ g F)) as (u & Gu). destruct (get_stored h m t R u p Gu) as (g0 & (_ & G0) & _).
    pose proof (extends_feature _ _ _ _ E G0). split; [|congruence]. destruct S as (_ & Fi). unfold feature_at in Fi. destruct (h_cells h i) as [c0|] eqn:C0; [|discriminate]. exists c0. split; [exact C0|]. rewrite (E _ _ C0) in C. congruence. }
  assert (No : forall h0 i f p r, represents h0 m t -> stored h0 m i f -> hangs h0 i p r -> r = None).
  { intros h0 i f p r R0 S H. exact (bare_place h0 m t R0 B (f_name f) i p r (stored_get h0 m t R0 i f S) H). }
  assert (Gr : forall h0 k n ns, ~ group h0 m k n ns) by (intros h0 k n ns (q & p & e & Q & _); rewrite (proj1 B) in Q; destruct Q).
  assert (Cs : forall c, ~ In c (m_boolean m ++ m_nonboolean m)) by (intros c I; destruct B as (_ & B1 & B2 & _); rewrite B1, B2 in I; destruct I).
  assert (Ms : forall x, ~ In x (m_mixed m)) by (intros c I; destruct B as (_ & _ & _ & B3); rewrite B3 in I; destruct I).
  split; intros V; constructor; try (intros n ns X; destruct (Gr _ _ _ _ X)); try (intros c X; destruct (Cs _ X)); try (intros c X; destruct (Ms _ X)).
  - intros i f S K. exact (v_root _ _ _ V i f (proj1 (St i f) S) K).
  - intros i f p g r S K H F X. exact (v_parent _ _ _ V i f p g r (proj1 (St i f) S) K (extends_hangs _ _ _ _ _ E H) (extends_feature _ _ _ _ E F) X).
  - intros i f p g S K O H F X. exact (v_mandatory _ _ _ V i f p g (proj1 (St i f) S) K O (extends_hangs _ _ _ _ _ E H) (extends_feature _ _ _ _ E F) X).
  - intros i f v st S K. exact (v_values _ _ _ V i f v st (proj1 (St i f) S) K).
  - intros i f S K. exact (v_root _ _ _ V i f (proj2 (St i f) S) K).
  - intros i f p g r S K H F X. assert (r = None) as -> by exact (No h' i f p r R' S H). destruct (Hg i f p g (proj2 (St i f) S) F H) as (H0 & F0). exact (v_parent _ _ _ V i f p g None (proj2 (St i f) S) K H0 F0 X).
  - intros i f p g S K O H F X. destruct (Hg i f p g (proj2 (St i f) S) F H) as (H0 & F0). exact (v_mandatory _ _ _ V i f p g (proj2 (St i f) S) K O H0 F0 X).
  - intros i f v st S K. exact (v_values _ _ _ V i f v st (proj2 (St i f) S) K).
Qed.
