(** Models of which clones lose nothing. *)
From Coq Require Import List ZArith Arith Bool Ascii String.
From Verif Require Import Text ConstraintModel ConstraintSpec FeatureTreeModel FeatureTreeSpec FeatureTransactionModel FeatureTransactionSpec FeatureEditSpec FeatureBuildSpec FeatureCloneSpec XmlModel XmlSpec.
Import ListNotations.

(** No output string and no step function; a root is mandatory and nowhere in the source. *)
Definition plain_feature (f : feature) : Prop :=
  f_output f = [] /\
  match f_kind f with
  | FNumeric _ g => g = None
  | FBinary => True
  | FRoot | FUnknown => f_optional f = false /\ f_locations f = []
  end.
(** All children of a feature with a group are in the group. *)
Definition all_grouped (h : heap) (m : fmodel) : Prop := forall p k s i, group_of h m p k -> get_feature m s = Some i -> ~ hangs h i p None.
Definition plain (h : heap) (m : fmodel) : Prop :=
  (forall s i f, get_feature m s = Some i -> feature_at h i = Some f -> plain_feature f) /\ all_grouped h m.
(** The root is mandatory and nowhere in the source. *)
Definition bare_root (h : heap) (m : fmodel) : Prop :=
  forall s i f, get_feature m s = Some i -> feature_at h i = Some f -> f_kind f = FRoot -> f_locations f = [] /\ f_optional f = false.
