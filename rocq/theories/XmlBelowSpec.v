(** What comes back of a model whose root is not called "root" or "base": the document
    does not say which feature is the root, so a new root called "root" is put above it. *)
From Coq Require Import List ZArith NArith Bool Ascii String Permutation.
From Verif Require Import Text ConfigurationModel SolverModel ConstraintModel ConstraintSpec SourceRangeModel FeatureTreeModel FeatureTreeSpec FeatureTransactionModel FeatureEditSpec FeatureCloneSpec FeatureBuildSpec XmlSpec XmlTripSpec.
Import ListNotations.
Local Open Scope string_scope.

(** Models that can be written, with nobody called root or base. *)
Record writable_below (h : heap) (m : fmodel) : Prop := WritableBelow {
  wb_features : forall s i f, get_feature m s = Some i -> feature_at h i = Some f -> writable_feature f;
  wb_names : forall s i, get_feature m s = Some i -> s <> T "root" /\ s <> T "base";
  wb_kind : forall s i f, get_feature m s = Some i -> feature_at h i = Some f -> (f_kind f = FRoot <-> m_root m = Some i);
  wb_name : tidy (m_name m);
  wb_path : tidy (m_path m);
  wb_commit : tidy (m_commit m);
  wb_boolean : forall c, In c (m_boolean m) -> pair (c_expr c) \/ exists e, spelled h (c_expr c) e /\ expressible e;
  wb_nonboolean : forall c, In c (m_nonboolean m) -> exists e, spelled h (c_expr c) e /\ expressible e;
  wb_mixed : forall x, In x (m_mixed m) -> exists e, spelled h (c_expr (x_con x)) e /\ expressible e
}.

(** The feature, a binary one if it was the root. *)
Definition demoted (f : feature) : feature :=
  match f_kind f with
  | FRoot => Feature FBinary (f_name f) (f_output f) (f_locations f) (f_constraints f) (f_excludes f) (f_implications f) (f_optional f)
  | _ => f
  end.

(** The model read back: below a new root called "root" the features are as they were,
    the root an ordinary feature. *)
Record model_below (h : heap) (m : fmodel) (h' : heap) (m' : fmodel) : Prop := ModelBelow {
  bl_tree : tree_shaped h' m';
  bl_represented : exists t', represents h' m' t';
  bl_consistent : consistent h' m' = Some true;
  bl_name : m_name m' = m_name m;
  bl_path : m_path m' = m_path m;
  bl_commit : m_commit m' = m_commit m;
  bl_names : Permutation (map fst (m_features m')) (T "root" :: map fst (m_features m));
  bl_root : exists r f, m_root m' = Some r /\ get_feature m' (T "root") = Some r /\ feature_at h' r = Some f /\
    f_kind f = FRoot /\ f_output f = [] /\ f_locations f = [] /\ f_optional f = false;
  bl_features : forall s i f, get_feature m s = Some i -> feature_at h i = Some f ->
    exists i' g, get_feature m' s = Some i' /\ feature_at h' i' = Some g /\ back (demoted f) g;
  bl_parents : forall s p, parent_named h' m' s p <-> parent_named h m s p \/ (get_feature m s <> None /\ get_feature m s = m_root m /\ p = T "root");
  bl_groups : forall s p p', get_feature m s = Some p -> get_feature m' s = Some p' ->
    (group_of h' m' p' RAlternative <-> apart h m p) /\ ~ group_of h' m' p' ROr /\
    forall i, child_in h' m' p' i -> (apart h m p -> hangs h' i p' (Some RAlternative)) /\ (~ apart h m p -> hangs h' i p' None);
  bl_top_groups : forall r, m_root m' = Some r -> (forall k, ~ group_of h' m' r k) /\ forall i, child_in h' m' r i -> hangs h' i r None;
  bl_one_group : forall p q q' c c', In q (m_relationships m') -> In q' (m_relationships m') -> h_cells h' q = Some c -> h_cells h' q' = Some c' ->
    n_parent c = Some p -> n_parent c' = Some p -> q = q';
  bl_boolean : forall e, stated h' (m_boolean m') e <-> boolean_back h m e;
  bl_nonboolean : Forall2 (constraint_back h h') (m_nonboolean m) (m_nonboolean m');
  bl_mixed : Forall2 (fun x x' => constraint_back h h' (x_con x) (x_con x') /\ x_req x' = x_req x /\ x_kind x' = x_kind x) (m_mixed m) (m_mixed m')
}.

(** The configuration [d] is the configuration [c] with the new root selected. *)
Definition with_root (c d : config) : Prop :=
  option_value c (T "root") = None /\ option_value d (T "root") = Some (T "true") /\ forall n, n <> T "root" -> option_value d n = option_value c n.
(** Two enumerations: there is no valid configuration, or the second lists what the first
    lists, each with the new root selected, and equally many. *)
Definition answer_with_root (r r' : option (outcome (list config))) : Prop :=
  (r = Some (inr Unsat) /\ r' = Some (inr Unsat)) \/
  exists l l', r = Some (inl l) /\ r' = Some (inl l') /\ l <> [] /\
    (forall c, In c l -> exists d, In d l' /\ with_root c d) /\ (forall d, In d l' -> exists c, In c l /\ with_root c d) /\ List.length l = List.length l'.
(** The root is not marked optional (RootFeature, Feature.h:282-283, never is). *)
Definition root_firm (h : heap) (m : fmodel) : Prop := forall i f, m_root m = Some i -> feature_at h i = Some f -> f_optional f = false.
