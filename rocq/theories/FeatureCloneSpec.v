(** What it means that a model is a clone of another one. *)
From Coq Require Import List Arith Bool Ascii String Permutation.
From Verif Require Import Text ConstraintModel ConstraintSpec SourceRangeModel FeatureTreeModel FeatureTreeSpec FeatureTransactionModel FeatureEditSpec
  FeatureTransactionSpec FeatureBuildSpec.
Import ListNotations.

(** The feature [p] has a group of kind [k]. *)
Definition group_of (h : heap) (m : fmodel) (p : nid) (k : rkind) : Prop :=
  exists q c, In q (m_relationships m) /\ h_cells h q = Some c /\ n_data c = NRelationship k /\ n_parent c = Some p.

(** What a cloned feature keeps: its name, its kind and values without step function,
    and for binary and numeric features whether it is optional and the source ranges. *)
Definition kept (f g : feature) : Prop :=
  f_name g = f_name f /\ f_output g = [] /\
  match f_kind f with
  | FNumeric v _ => f_kind g = FNumeric v None /\ f_optional g = f_optional f /\ f_locations g = f_locations f
  | FBinary => f_kind g = FBinary /\ f_optional g = f_optional f /\ f_locations g = f_locations f
  | k => f_kind g = k /\ f_optional g = false /\ f_locations g = []
  end.

(** The expression with the names of the mentioned features. *)
Definition spelled (h : heap) (e : cexpr cref) (x : cexpr text) : Prop := cmap (cref_name h) e = cmap Some x.
(** The same expression, where the mentions of the clone are features of the clone. *)
Definition same_constraint (h : heap) (h' : heap) (m' : fmodel) (e e' : cexpr cref) : Prop :=
  (exists x, spelled h e x /\ spelled h' e' x) /\
  forall r, In r (leaves e') -> exists s i, r = Ref i /\ get_feature m' s = Some i.

(** Every mention in a constraint names a feature of the model. *)
Definition all_connected (h : heap) (m : fmodel) : Prop :=
  forall e, In e (map c_expr (m_boolean m ++ m_nonboolean m ++ map x_con (m_mixed m))) ->
  forall r, In r (leaves e) -> exists s i, cref_name h r = Some s /\ get_feature m s = Some i.

(** No feature but the root is called "root". *)
Definition root_name_free (m : fmodel) : Prop :=
  forall i, get_feature m default_root = Some i -> m_root m = Some i.

Record cloned (h : heap) (m : fmodel) (h' : heap) (m' : fmodel) : Prop := Cloned {
  cl_tree : tree_shaped h' m';
  cl_represented : exists t', represents h' m' t';
  cl_consistent : consistent h' m' = Some true;
  cl_name : m_name m' = m_name m;
  cl_commit : m_commit m' = m_commit m;
  cl_path : m_path m' = m_path m;
  cl_names : Permutation (map fst (m_features m')) (map fst (m_features m));
  cl_root : exists s r r', get_feature m s = Some r /\ m_root m = Some r /\ get_feature m' s = Some r' /\ m_root m' = Some r';
  cl_features : forall s i f, get_feature m s = Some i -> feature_at h i = Some f ->
    exists i' f', get_feature m' s = Some i' /\ feature_at h' i' = Some f' /\ kept f f';
  cl_parents : forall s i u p, get_feature m s = Some i -> get_feature m u = Some p -> feature_above h i p ->
    exists i' p' g, get_feature m' s = Some i' /\ get_feature m' u = Some p' /\ hangs h' i' p' g /\
      match g with Some k => group_of h m p k | None => forall k, ~ group_of h m p k end;
  cl_groups : Forall2 (fun q q' => exists c c' p u, h_cells h q = Some c /\ h_cells h' q' = Some c' /\ n_data c' = n_data c /\
      n_parent c = Some p /\ get_feature m u = Some p /\ n_parent c' = get_feature m' u) (m_relationships m) (m_relationships m');
  cl_boolean : Forall2 (fun c c' => same_constraint h h' m' (c_expr c) (c_expr c')) (m_boolean m) (m_boolean m');
  cl_nonboolean : Forall2 (fun c c' => same_constraint h h' m' (c_expr c) (c_expr c')) (m_nonboolean m) (m_nonboolean m');
  cl_mixed : Forall2 (fun x x' => same_constraint h h' m' (c_expr (x_con x)) (c_expr (x_con x')) /\
      x_req x' = x_req x /\ x_kind x' = x_kind x) (m_mixed m) (m_mixed m')
}.
