(** Saving a model and loading it again, several times. *)
From Coq Require Import List ZArith Arith Bool Ascii String Permutation.
From Verif Require Import Text ConstraintModel ConstraintParserModel ConstraintSpec FeatureTreeModel FeatureTreeSpec FeatureTransactionModel
  FeatureTransactionSpec FeatureEditSpec FeatureCloneSpec FeatureBuildSpec SxfmModel XmlModel XmlWriterModel XmlSpec XmlTripSpec ConstraintRoundTrip.
Import ListNotations.

(** [cycles n h m h' m']: the model was saved and loaded [n] times. Every time is another
    run of a program, with its own memory, iteration order and working directory. *)
Inductive cycles : nat -> heap -> fmodel -> heap -> fmodel -> Prop :=
| cycles_none h m : cycles 0 h m h m
| cycles_more n h m h1 m1 ord ord' sci step cwd h0 doc h2 m2 :
    cycles n h m h1 m1 -> is_order ord -> is_order ord' -> sci_nonneg sci -> heap_ok h0 ->
    write_xml ord h1 m1 = Some doc -> read_xml ord' sci step cwd h0 doc = SxDone (h2, Some m2) ->
    cycles (S n) h m h2 m2.

(** What a feature is besides the constraints it knows. *)
Definition same_data (f g : feature) : Prop :=
  f_name g = f_name f /\ f_kind g = f_kind f /\ f_optional g = f_optional f /\ f_locations g = f_locations f /\ f_output g = f_output f.
Definition same_text (h h' : heap) (c c' : mconstraint) : Prop := exists e, spelled h (c_expr c) e /\ spelled h' (c_expr c') e.

(** Two models that no user can tell apart by names, features, tree, groups and constraints. *)
Record same_model (h : heap) (m : fmodel) (h' : heap) (m' : fmodel) : Prop := SameModel {
  sm_name : m_name m' = m_name m;
  sm_path : m_path m' = m_path m;
  sm_commit : m_commit m' = m_commit m;
  sm_names : Permutation (map fst (m_features m')) (map fst (m_features m));
  sm_root : exists s, get_feature m s = m_root m /\ get_feature m' s = m_root m' /\ m_root m <> None /\ m_root m' <> None;
  sm_features : forall s i i' f g, get_feature m s = Some i -> get_feature m' s = Some i' -> feature_at h i = Some f -> feature_at h' i' = Some g -> same_data f g;
  sm_hangs : forall s u i i' p p' g, get_feature m s = Some i -> get_feature m' s = Some i' -> get_feature m u = Some p -> get_feature m' u = Some p' ->
    (hangs h i p g <-> hangs h' i' p' g);
  sm_groups : forall u p p' k, get_feature m u = Some p -> get_feature m' u = Some p' -> (group_of h m p k <-> group_of h' m' p' k);
  sm_boolean : forall e, stated h (m_boolean m) e <-> stated h' (m_boolean m') e;
  sm_nonboolean : Forall2 (same_text h h') (m_nonboolean m) (m_nonboolean m');
  sm_mixed : Forall2 (fun x x' => same_text h h' (x_con x) (x_con x') /\ x_req x' = x_req x /\ x_kind x' = x_kind x) (m_mixed m) (m_mixed m')
}.
