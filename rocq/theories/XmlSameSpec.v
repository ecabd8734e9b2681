(** When saved documents are the same. *)
From Coq Require Import List ZArith Arith Bool Ascii String.
From Verif Require Import Text ConstraintModel ConstraintSpec SourceRangeModel FeatureTreeModel FeatureTreeSpec FeatureTransactionModel FeatureCloneSpec SxfmModel XmlModel XmlSpec XmlTripSpec XmlCycleSpec XmlCountSpec.
Import ListNotations.

(** The names of siblings differ in more than the case of letters. *)
Definition siblings_differ (h : heap) (m : fmodel) : Prop :=
  forall s u p, parent_named h m s p -> parent_named h m u p -> lower s = lower u -> s = u.
(** The model excludes [b] from [a]: by a constraint or as members of a group. *)
Definition excludes_named (h : heap) (m : fmodel) (a b : string) : Prop :=
  stated h (all_constraints m) (excluding_text a b) \/
  exists i j, get_feature m (T a) = Some i /\ get_feature m (T b) = Some j /\ j <> i /\ together h i j.
(** Features of which the document tells the same. *)
Definition same_saved (f g : feature) : Prop :=
  same_data f g \/ (back f g /\ (f_kind f = FRoot -> f_locations f = [] /\ f_optional f = false)) \/
  (kept f g /\ (f_kind f = FRoot \/ f_kind f = FUnknown -> f_locations f = [] /\ f_optional f = false)).
Definition same_print (h h' : heap) (c c' : mconstraint) : Prop := same_text h h' c c' \/ constraint_back h h' c c'.

(** Two models, each in its own memory, with the same named features in the same tree, the
    same implications as often, the same exclusions, and the same other constraints. *)
Record looks_same (h : heap) (m : fmodel) (h' : heap) (m' : fmodel) : Prop := LooksSame {
  ls_name : m_name m' = m_name m;
  ls_path : m_path m' = m_path m;
  ls_commit : m_commit m' = m_commit m;
  ls_names : forall s, (exists i, get_feature m s = Some i) <-> (exists i, get_feature m' s = Some i);
  ls_features : forall s i i' f g, get_feature m s = Some i -> get_feature m' s = Some i' -> feature_at h i = Some f -> feature_at h' i' = Some g -> same_saved f g;
  ls_parents : forall s p, parent_named h' m' s p <-> parent_named h m s p;
  ls_implies : forall a b n, times h (all_constraints m) (implying a b) n -> times h' (all_constraints m') (implying a b) n;
  ls_excludes : forall a b, excludes_named h m a b <-> excludes_named h' m' a b;
  ls_empty : m_boolean m = [] <-> m_boolean m' = [];
  ls_boolean : forall l l', unpaired (m_boolean m) l -> unpaired (m_boolean m') l' -> Forall2 (same_print h h') l l';
  ls_nonboolean : Forall2 (same_print h h') (m_nonboolean m) (m_nonboolean m');
  ls_mixed : Forall2 (fun x x' => same_print h h' (x_con x) (x_con x') /\ x_req x' = x_req x /\ x_kind x' = x_kind x) (m_mixed m) (m_mixed m')
}.

(** No feature implies itself and implications are stored as boolean constraints. *)
Record settled_implications (h : heap) (m : fmodel) : Prop := SettledImplications {
  si_self : forall a, ~ stated h (all_constraints m) (implying a a);
  si_stored : forall a b, ~ stated h (not_boolean m) (implying a b)
}.
(** Nothing is lost or added by the first time: the root has no locations, and there are
    boolean constraints if anything excludes anything. *)
Record plain_root (h : heap) (m : fmodel) : Prop := PlainRoot {
  pr_root : forall s i f, get_feature m s = Some i -> feature_at h i = Some f -> f_kind f = FRoot -> f_locations f = [] /\ f_optional f = false;
  pr_empty : m_boolean m = [] -> forall a b, ~ excludes_named h m a b
}.
