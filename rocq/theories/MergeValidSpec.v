(** Which configurations a merged model has. *)
From Coq Require Import List ZArith Arith Bool Ascii String.
From Verif Require Import Text FeatureTreeModel FeatureTreeSpec FeatureEditSpec FeatureTransactionSpec FeatureBuildSpec FeatureCloneSpec FeatureMergeSpec
  ConfigurationModel SolverModel SolverSpec.
Import ListNotations.

(** The rules for the features only the second model has: a binary one comes with its parent
    only, and a mandatory one with it; a numeric one has a value of its list. As the step function
    of a range is lost, no value of a range is left. *)
Definition new_rules (h : heap) (m1 m2 : fmodel) (a : assignment) : Prop :=
  forall s j g, get_feature m1 s = None -> get_feature m2 s = Some j -> feature_at h j = Some g ->
  match f_kind g with
  | FBinary => forall u p, get_feature m2 u = Some p -> feature_above h j p ->
      (selected a s -> selected a u) /\ (f_optional g = false -> selected a u -> selected a s)
  | FNumeric v _ => exists vs, v = VList vs /\ In (a_int a s) vs
  | _ => True
  end.

(** No name of the one model differs from one of the other in case only. *)
Definition names_apart (m1 m2 : fmodel) : Prop :=
  forall s u, FeatureMergeSpec.known m1 s -> FeatureMergeSpec.known m2 u -> lower s = lower u -> s = u.

(** A model with features only. *)
Definition bare (m : fmodel) : Prop := m_relationships m = [] /\ m_boolean m = [] /\ m_nonboolean m = [] /\ m_mixed m = [].
