(** When two models can be merged and what the merged model consists of, independent of
    how merging is carried out. *)
From Coq Require Import List Arith Bool Ascii String Permutation.
From Verif Require Import Text ConstraintModel ConstraintSpec SourceRangeModel FeatureTreeModel FeatureTreeSpec FeatureTransactionModel FeatureEditSpec
  FeatureTransactionSpec FeatureBuildSpec FeatureCloneSpec.
Import ListNotations.

(** The features hang below features of the same name, case aside; root features hang
    nowhere. *)
Definition parents_alike (h : heap) (i j : nid) (f g : feature) : Prop :=
  f_kind f = FRoot \/ f_kind g = FRoot \/
  exists p q u v, feature_above h i p /\ feature_above h j q /\ name_at h p = Some u /\ name_at h q = Some v /\ lower u = lower v.

(** The node directly above is a group. *)
Definition in_group (h : heap) (i : nid) : Prop :=
  exists c p cp k, h_cells h i = Some c /\ n_parent c = Some p /\ h_cells h p = Some cp /\ n_data cp = NRelationship k.

(** The features have the same kind and values, are both optional or both mandatory,
    and are both members of groups or both not. *)
Definition strictly_alike (h : heap) (i j : nid) (f g : feature) : Prop :=
  f_optional f = f_optional g /\
  match f_kind f, f_kind g with
  | FRoot, FRoot => True
  | FBinary, FBinary => in_group h i <-> in_group h j
  | FNumeric v _, FNumeric w _ => v = w /\ (in_group h i <-> in_group h j)
  | _, _ => False
  end.

(** What is required of one feature of the second model. *)
Definition fits (strict : bool) (h : heap) (m1 : fmodel) (s : text) (j : nid) (g : feature) : Prop :=
  match get_feature m1 s with
  | Some i => exists f, feature_at h i = Some f /\ parents_alike h i j f g /\ (strict = true -> strictly_alike h i j f g)
  | None => f_kind g <> FUnknown
  end.
Definition mergeable (strict : bool) (h : heap) (m1 m2 : fmodel) : Prop :=
  forall s j g, get_feature m2 s = Some j -> feature_at h j = Some g -> fits strict h m1 s j g.

Definition known (m : fmodel) (s : text) : Prop := exists i, get_feature m s = Some i.

(** The root of the second model has the name of a feature of the first one. *)
Definition root_shared (m1 m2 : fmodel) : Prop :=
  exists s r, m_root m2 = Some r /\ get_feature m2 s = Some r /\ known m1 s.

(** The source ranges a feature [f] of the first model gains from the second one. *)
Definition gained_ranges (h : heap) (m2 : fmodel) (s : text) (f : feature) (ls : list source_range) : Prop :=
  match get_feature m2 s with
  | None => ls = []
  | Some j => exists g, feature_at h j = Some g /\
      exists keep : source_range -> bool, ls = filter keep (f_locations g) /\
        forall l, keep l = true <-> ~ exists l', In l' (f_locations f) /\ range_eqb l l' = true
  end.

(** The merged model: what a clone of the first model keeps, with more source ranges,
    and the features that only the second model has, directly below the feature that
    has the name of their parent. *)
Record merged (h : heap) (m1 m2 : fmodel) (h' : heap) (m' : fmodel) : Prop := Merged {
  mg_tree : tree_shaped h' m';
  mg_represented : exists t', represents h' m' t';
  mg_consistent : consistent h' m' = Some true;
  mg_name : m_name m' = m_name m1;
  mg_commit : m_commit m' = m_commit m1;
  mg_path : m_path m' = m_path m1;
  mg_names : forall s, known m' s <-> known m1 s \/ known m2 s;
  mg_root : exists s r r', get_feature m1 s = Some r /\ m_root m1 = Some r /\ get_feature m' s = Some r' /\ m_root m' = Some r';
  mg_first : forall s i f, get_feature m1 s = Some i -> feature_at h i = Some f ->
    exists i' f' f0 ls, get_feature m' s = Some i' /\ feature_at h' i' = Some f' /\ kept f f0 /\ gained_ranges h m2 s f ls /\
      f' = with_locations f0 (f_locations f0 ++ ls);
  mg_second : forall s j g, get_feature m1 s = None -> get_feature m2 s = Some j -> feature_at h j = Some g ->
    exists i' f', get_feature m' s = Some i' /\ feature_at h' i' = Some f' /\ kept g f';
  mg_first_parents : forall s i u p, get_feature m1 s = Some i -> get_feature m1 u = Some p -> feature_above h i p ->
    exists i' p' g, get_feature m' s = Some i' /\ get_feature m' u = Some p' /\ hangs h' i' p' g /\
      match g with Some k => group_of h m1 p k | None => forall k, ~ group_of h m1 p k end;
  mg_second_parents : forall s j u p, get_feature m1 s = None -> get_feature m2 s = Some j -> get_feature m2 u = Some p ->
    feature_above h j p -> exists i' p', get_feature m' s = Some i' /\ get_feature m' u = Some p' /\ hangs h' i' p' None;
  mg_groups : Forall2 (fun q q' => exists c c' p u, h_cells h q = Some c /\ h_cells h' q' = Some c' /\ n_data c' = n_data c /\
      n_parent c = Some p /\ get_feature m1 u = Some p /\ n_parent c' = get_feature m' u) (m_relationships m1) (m_relationships m');
  mg_boolean : Forall2 (fun c c' => same_constraint h h' m' (c_expr c) (c_expr c')) (m_boolean m1) (m_boolean m');
  mg_nonboolean : Forall2 (fun c c' => same_constraint h h' m' (c_expr c) (c_expr c')) (m_nonboolean m1) (m_nonboolean m');
  mg_mixed : Forall2 (fun x x' => same_constraint h h' m' (c_expr (x_con x)) (c_expr (x_con x')) /\
      x_req x' = x_req x /\ x_kind x' = x_kind x) (m_mixed m1) (m_mixed m')
}.
