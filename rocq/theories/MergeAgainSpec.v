(** What merging again with the same model leaves as it is, independent of how merging is
    carried out. *)
From Coq Require Import List Arith Bool Ascii String Permutation.
From Verif Require Import Text ConstraintModel ConstraintSpec SourceRangeModel FeatureTreeModel FeatureTreeSpec FeatureTransactionModel FeatureEditSpec
  FeatureTransactionSpec FeatureBuildSpec FeatureCloneSpec FeatureMergeSpec.
Import ListNotations.

(** A feature of the second model that the first one lacks is not below a feature that has a
    group in the first model. *)
Definition beside_no_group (h : heap) (m1 m2 : fmodel) : Prop :=
  forall s j u p i k, get_feature m1 s = None -> get_feature m2 s = Some j -> get_feature m2 u = Some p -> feature_above h j p ->
    get_feature m1 u = Some i -> ~ group_of h m1 i k.

(** No feature is of unknown kind. *)
Definition all_of_known_kind (h : heap) (m : fmodel) : Prop :=
  forall s i f, get_feature m s = Some i -> feature_at h i = Some f -> f_kind f <> FUnknown.

(** The same features with the same values, marks and source ranges hang in the same places,
    in the same groups, and the same constraints are stated.  Of the root only the name is
    kept: its source ranges may differ. *)
Record merged_again (h : heap) (m : fmodel) (h' : heap) (m' : fmodel) : Prop := MergedAgain {
  ma_tree : tree_shaped h' m';
  ma_represented : exists t', represents h' m' t';
  ma_consistent : consistent h' m' = Some true;
  ma_name : m_name m' = m_name m;
  ma_commit : m_commit m' = m_commit m;
  ma_path : m_path m' = m_path m;
  ma_names : Permutation (map fst (m_features m')) (map fst (m_features m));
  ma_root : exists s r r', get_feature m s = Some r /\ m_root m = Some r /\ get_feature m' s = Some r' /\ m_root m' = Some r';
  ma_features : forall s i f, get_feature m s = Some i -> feature_at h i = Some f ->
    exists i' f', get_feature m' s = Some i' /\ feature_at h' i' = Some f' /\ f_name f' = f_name f /\
      match f_kind f with FBinary | FNumeric _ _ => kept f f' | k => f_kind f' = k end;
  ma_hangs : forall s i u p g, get_feature m s = Some i -> get_feature m u = Some p -> hangs h i p g ->
    exists i' p', get_feature m' s = Some i' /\ get_feature m' u = Some p' /\ hangs h' i' p' g;
  ma_groups : Forall2 (fun q q' => exists c c' p u, h_cells h q = Some c /\ h_cells h' q' = Some c' /\ n_data c' = n_data c /\
      n_parent c = Some p /\ get_feature m u = Some p /\ n_parent c' = get_feature m' u) (m_relationships m) (m_relationships m');
  ma_boolean : Forall2 (fun c c' => same_constraint h h' m' (c_expr c) (c_expr c')) (m_boolean m) (m_boolean m');
  ma_nonboolean : Forall2 (fun c c' => same_constraint h h' m' (c_expr c) (c_expr c')) (m_nonboolean m) (m_nonboolean m');
  ma_mixed : Forall2 (fun x x' => same_constraint h h' m' (c_expr (x_con x)) (c_expr (x_con x')) /\
      x_req x' = x_req x /\ x_kind x' = x_kind x) (m_mixed m) (m_mixed m')
}.
