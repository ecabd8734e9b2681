(** Calling a model builder in another order. *)
From Coq Require Import List ZArith Arith Bool Ascii String Permutation.
From Verif Require Import Text ConstraintModel ConstraintSpec FeatureTreeModel FeatureTreeSpec FeatureTransactionModel FeatureEditSpec FeatureCloneSpec FeatureBuildSpec
  XmlTripSpec XmlCycleSpec.
Import ListNotations.

(** The same calls in another order, where no two calls set the same thing to different
    values: the parent of a feature, or the name, commit, path or root of the model. No
    feature has the name that the root has before it is given another. *)
Record reordered (cs cs' : list bcall) : Prop := Reordered {
  ro_calls : Permutation cs cs';
  ro_parents : forall p q s, In (BEdge p s) cs -> In (BEdge q s) cs -> p = q;
  ro_names : forall s t, In (BName s) cs -> In (BName t) cs -> s = t;
  ro_commits : forall s t, In (BCommit s) cs -> In (BCommit t) cs -> s = t;
  ro_paths : forall s t, In (BPath s) cs -> In (BPath t) cs -> s = t;
  ro_roots : forall s t, In (BRoot s) cs -> In (BRoot t) cs -> s = t;
  ro_free : forall f, In (BFeature f) cs -> f_name f <> default_root
}.

(** The lists correspond one to one, not necessarily in order. *)
Definition in_some_order {A} (R : A -> A -> Prop) (l l' : list A) : Prop := exists k, Permutation k l' /\ Forall2 R l k.

(** Models with the same names, features, tree, groups and constraints; the features are
    registered and the constraints listed in any order. *)
Record same_unordered (h : heap) (m : fmodel) (h' : heap) (m' : fmodel) : Prop := SameUnordered {
  su_name : m_name m' = m_name m;
  su_path : m_path m' = m_path m;
  su_commit : m_commit m' = m_commit m;
  su_names : Permutation (map fst (m_features m')) (map fst (m_features m));
  su_root : exists s, get_feature m s = m_root m /\ get_feature m' s = m_root m' /\ m_root m <> None /\ m_root m' <> None;
  su_features : forall s i i' f g, get_feature m s = Some i -> get_feature m' s = Some i' -> feature_at h i = Some f -> feature_at h' i' = Some g -> same_data f g;
  su_hangs : forall s u i i' p p' g, get_feature m s = Some i -> get_feature m' s = Some i' -> get_feature m u = Some p -> get_feature m' u = Some p' ->
    (hangs h i p g <-> hangs h' i' p' g);
  su_groups : forall u p p' k, get_feature m u = Some p -> get_feature m' u = Some p' -> (group_of h m p k <-> group_of h' m' p' k);
  su_group_count : List.length (m_relationships m') = List.length (m_relationships m);
  su_boolean : in_some_order (same_text h h') (m_boolean m) (m_boolean m');
  su_nonboolean : in_some_order (same_text h h') (m_nonboolean m) (m_nonboolean m');
  su_mixed : in_some_order (fun x x' => same_text h h' (x_con x) (x_con x') /\ x_req x' = x_req x /\ x_kind x' = x_kind x) (m_mixed m) (m_mixed m')
}.
