(** Models that differ in the order in which they were put together, independent of how merging
    is carried out. *)
From Coq Require Import List Arith Bool Ascii String Permutation.
From Verif Require Import Text ConstraintModel ConstraintSpec SourceRangeModel FeatureTreeModel FeatureTreeSpec FeatureTransactionModel FeatureEditSpec
  FeatureTransactionSpec FeatureBuildSpec FeatureCloneSpec FeatureMergeSpec.
Import ListNotations.

(** Every source range of the first list is in the second one, revisions aside. *)
Definition ranges_in (ls ls' : list source_range) : Prop := forall l, In l ls -> exists l', In l' ls' /\ range_eqb l l' = true.

(** The models have the same features with the same values and marks in the same places.
    Features other than the root have the same source ranges, in any order. *)
Record same_features (h : heap) (m : fmodel) (h' : heap) (m' : fmodel) : Prop := SameFeatures {
  sf_names : Permutation (map fst (m_features m')) (map fst (m_features m));
  sf_root : exists s r r', get_feature m s = Some r /\ m_root m = Some r /\ get_feature m' s = Some r' /\ m_root m' = Some r';
  sf_features : forall s i f, get_feature m s = Some i -> feature_at h i = Some f ->
    exists i' f', get_feature m' s = Some i' /\ feature_at h' i' = Some f' /\ f_name f' = f_name f /\ f_kind f' = f_kind f /\ f_optional f' = f_optional f /\
      (f_kind f <> FRoot -> ranges_in (f_locations f) (f_locations f') /\ ranges_in (f_locations f') (f_locations f));
  sf_hangs : forall s i u p g, get_feature m s = Some i -> get_feature m u = Some p -> hangs h i p g ->
    g = None /\ exists i' p', get_feature m' s = Some i' /\ get_feature m' u = Some p' /\ hangs h' i' p' None
}.
