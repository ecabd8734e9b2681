(** When the iteration over the features of a document misses its end. *)
From Coq Require Import List Arith Bool Ascii String Permutation.
From Verif Require Import Text ConstraintModel SourceRangeModel FeatureTreeModel FeatureTransactionModel FeatureBuildSpec.
Import ListNotations.

(** The root has a parent, and no feature below the root is called like this parent, up to
    case. *)
Definition lost (cs : list bcall) (d : decl) : Prop :=
  (exists p, In (BEdge p (fst d)) cs) /\
  forall s, taken d s -> leads (fun t => last_edge cs t (fst d)) (fst d) s -> lower s <> lower (last_edge cs (fst d) (fst d)).

(** The model has the declared features, each below the parent named by the last edge to
    it, directly or in a group. *)
Record placed_as (cs : list bcall) (d : decl) (h : heap) (m : fmodel) : Prop := PlacedAs {
  pl_consistent : consistent h m = Some true;
  pl_names : Permutation (map fst (m_features m)) (fst d :: map f_name (snd d));
  pl_root : exists r f, m_root m = Some r /\ get_feature m (fst d) = Some r /\ feature_at h r = Some f /\ same_data (root_feature (fst d)) f;
  pl_data : forall f, In f (snd d) -> exists i g, get_feature m (f_name f) = Some i /\ feature_at h i = Some g /\ same_data f g;
  pl_parents : forall f, In f (snd d) -> exists i p, get_feature m (f_name f) = Some i /\
    get_feature m (last_edge cs (f_name f) (fst d)) = Some p /\ parent_feature h i = Some (Some p);
  pl_top : forall r, m_root m = Some r ->
    ((forall p, ~ In (BEdge p (fst d)) cs) -> parent_feature h r = Some None) /\
    ((exists p, In (BEdge p (fst d)) cs) -> exists p, get_feature m (last_edge cs (fst d) (fst d)) = Some p /\ parent_feature h r = Some (Some p))
}.
