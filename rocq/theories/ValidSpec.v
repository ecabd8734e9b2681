(** Conditions under which a changed representation of a model keeps its valid
    configurations. *)
From Coq Require Import List ZArith Arith Bool Ascii String.
From Verif Require Import Text ConstraintModel ConstraintSpec FeatureTreeModel FeatureTreeSpec FeatureTransactionModel FeatureTransactionSpec FeatureEditSpec
  FeatureBuildSpec FeatureCloneSpec SxfmModel XmlModel XmlSpec XmlTripSpec ConfigurationModel SolverModel SolverSpec.
Import ListNotations.

(** A feature with a group has one group only, and all of its children are in it. *)
Definition neat (h : heap) (m : fmodel) : Prop :=
  (forall p q q' c c', In q (m_relationships m) -> In q' (m_relationships m) -> h_cells h q = Some c -> h_cells h q' = Some c' ->
    n_parent c = Some p -> n_parent c' = Some p -> q = q') /\
  (forall p k s i, group_of h m p k -> get_feature m s = Some i -> ~ hangs h i p None).

(** All numeric features have lists of values. *)
Definition listed (h : heap) (m : fmodel) : Prop :=
  forall s i f v g, get_feature m s = Some i -> feature_at h i = Some f -> f_kind f = FNumeric v g -> exists vs, v = VList vs.

(** Of the values of a list all but the last are 32-bit integers. *)
Definition narrow_values (h : heap) (m : fmodel) : Prop :=
  forall s i f vs z g, get_feature m s = Some i -> feature_at h i = Some f -> f_kind f = FNumeric (VList (vs ++ [z])) g ->
    Forall (fun v => - 2 ^ 31 <= v < 2 ^ 31)%Z vs.

(** Groups are alternatives of at least two mandatory binary features. *)
Definition proper_groups (h : heap) (m : fmodel) : Prop :=
  forall p k, group_of h m p k -> k = RAlternative /\
    (exists a b, child_in h m p a /\ child_in h m p b /\ a <> b) /\
    forall i, child_in h m p i -> exists f, feature_at h i = Some f /\ f_kind f = FBinary /\ f_optional f = false.
(** A feature whose mandatory children all exclude each other has a group. *)
Definition exclusive_grouped (h : heap) (m : fmodel) : Prop :=
  forall s p, get_feature m s = Some p -> exclusive_children h m p -> exists k, group_of h m p k.

(** Two enumerations show the same configurations. *)
Definition same_options (c d : config) : Prop := forall n, option_value c n = option_value d n.
Definition same_configurations (l k : list config) : Prop :=
  (forall c, In c l -> exists d, In d k /\ same_options c d) /\ (forall d, In d k -> exists c, In c l /\ same_options c d).
(** Two enumerations have the same outcome: there is no valid configuration, or both list
    the same configurations, equally many. *)
Definition same_answer (r r' : option (outcome (list config))) : Prop :=
  (r = Some (inr Unsat) /\ r' = Some (inr Unsat)) \/
  exists l l', r = Some (inl l) /\ r' = Some (inl l') /\ l <> [] /\ same_configurations l l' /\ List.length l = List.length l'.
