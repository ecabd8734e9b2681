(** What a model gathered from many models consists of, independent of how and in which order they
    are merged. *)
From Coq Require Import List Arith Bool Ascii String Permutation.
From Verif Require Import Text ConstraintModel ConstraintSpec SourceRangeModel FeatureTreeModel FeatureTreeSpec FeatureTransactionModel FeatureEditSpec
  FeatureTransactionSpec FeatureBuildSpec FeatureCloneSpec FeatureMergeSpec MergeValidSpec MergeAgainSpec MergeOrderSpec XmlBelowSpec.
Import ListNotations.

(** A model of features only, of known kinds; the root is not optional and no other feature is
    called "root". *)
Record fine (h : heap) (m : fmodel) : Prop := Fine {
  fi_tree : exists t, represents h m t;
  fi_bare : bare m;
  fi_kinds : all_of_known_kind h m;
  fi_free : root_name_free m;
  fi_firm : root_firm h m
}.

(** The second model can be merged into the first one, and names of the two models that differ, differ
    in more than case. *)
Definition agree (h : heap) (m n : fmodel) : Prop := root_shared m n /\ mergeable true h m n /\ names_apart m n.

(** The same kind with the same values, step functions aside. *)
Definition same_kind (k k' : fkind) : Prop :=
  match k, k' with
  | FNumeric v _, FNumeric w _ => w = v
  | _, _ => k' = k
  end.

(** The model has the features of all models, each where it is in every one of them, and the source
    ranges of all of them. *)
Record gathers (h : heap) (ms : list fmodel) (h' : heap) (m' : fmodel) : Prop := Gathers {
  ga_names : forall s, known m' s <-> exists m, In m ms /\ known m s;
  ga_features : forall m s i f, In m ms -> get_feature m s = Some i -> feature_at h i = Some f ->
    exists i' f', get_feature m' s = Some i' /\ feature_at h' i' = Some f' /\ f_name f' = s /\ same_kind (f_kind f) (f_kind f') /\ f_optional f' = f_optional f /\
      (f_kind f <> FRoot -> ranges_in (f_locations f) (f_locations f'));
  ga_ranges : forall s i' f' l, get_feature m' s = Some i' -> feature_at h' i' = Some f' -> f_kind f' <> FRoot -> In l (f_locations f') ->
    exists m i f, In m ms /\ get_feature m s = Some i /\ feature_at h i = Some f /\ In l (f_locations f);
  ga_places : forall m s i u p, In m ms -> get_feature m s = Some i -> get_feature m u = Some p -> hangs h i p None ->
    exists i' p', get_feature m' s = Some i' /\ get_feature m' u = Some p' /\ hangs h' i' p' None
}.

(** The models have the same features with the same values and marks in the same places and, apart
    from the root, the same source ranges, in any order. *)
Record alike_models (h : heap) (m : fmodel) (h' : heap) (m' : fmodel) : Prop := AlikeModels {
  am_names : forall s, known m s <-> known m' s;
  am_features : forall s i f, get_feature m s = Some i -> feature_at h i = Some f ->
    exists i' f', get_feature m' s = Some i' /\ feature_at h' i' = Some f' /\ f_name f' = f_name f /\ same_kind (f_kind f) (f_kind f') /\ f_optional f' = f_optional f /\
      (f_kind f <> FRoot -> ranges_in (f_locations f) (f_locations f') /\ ranges_in (f_locations f') (f_locations f));
  am_places : forall s i u p g, get_feature m s = Some i -> get_feature m u = Some p -> hangs h i p g ->
    g = None /\ exists i' p', get_feature m' s = Some i' /\ get_feature m' u = Some p' /\ hangs h' i' p' None
}.
