(** Which modifications are defined, and which keep constraints intact. *)
From Coq Require Import List ZArith Arith Bool Ascii String.
From Verif Require Import Text ConstraintModel ConstraintSpec SourceRangeModel SourceRangeSpec FeatureTreeModel FeatureTreeSpec FeatureTransactionModel FeatureEditSpec XmlModel XmlSpec RegisterSpec.
Import ListNotations.

(** Locations that are equal (C15). *)
Definition same_range (a b : source_range) : Prop :=
  sr_category a = sr_category b /\ same_path (sr_path a) (sr_path b) /\ sr_start a = sr_start b /\ sr_end a = sr_end b /\ sr_member a = sr_member b.
(** There is a feature below [i]. *)
Definition has_feature_below (h : heap) (i : nid) : Prop := exists k x, nearest h is_feature i k x.
(** A constraint of the model points to [i]. *)
Definition in_constraint (m : fmodel) (i : nid) : Prop := exists c, In c (all_constraints m) /\ In (Ref i) (leaves (c_expr c)).
(** The feature is one that would be removed. *)
Definition goes (h : heap) (b : bool) (i : nid) : Prop := b = true \/ ~ has_feature_below h i.

(** What the caller has to see to: the root is not removed, groups and locations are put on
    features that exist, what is ungrouped is grouped, what is taken away is there, and
    constraints do not point to features that were deleted. *)
Definition defined_op (w : world) (o : op) : Prop :=
  let (h, m) := w in
  match o with
  | ORemoveFeature r b => forall i, resolve m r = Some i -> m_root m = Some i -> ~ goes h b i
  | OAddRelationship _ r | OAddLocation r _ => exists i, resolve m r = Some i
  | ORemoveRelationship r => forall i, resolve m r = Some i -> has_relationship h i
  | ORemoveLocation r l => exists i f x, resolve m r = Some i /\ feature_at h i = Some f /\ In x (f_locations f) /\ same_range x l
  | OAddConstraint _ c => forall i, In (Ref i) (leaves c) -> exists f, feature_at h i = Some f
  | _ => True
  end.
(** What keeps the constraints of a model about its own features: no removed feature is
    mentioned, and new constraints mention features that are there. *)
Definition spares (w : world) (o : op) : Prop :=
  let (h, m) := w in
  match o with
  | ORemoveFeature r b => forall i j, resolve m r = Some i -> goes h b i -> in_constraint m j -> ~ reaches h j i
  | OAddConstraint _ c => forall r s, In r (leaves c) -> cref_name h r = Some s -> exists i, get_feature m s = Some i
  | OSetRoot s => get_feature m s = None -> forall i, m_root m = Some i -> ~ in_constraint m i
  | _ => True
  end.

(** A model in good condition: a tree, with features that know their constraints, which
    mention features of the model. *)
Definition sound (h : heap) (m : fmodel) : Prop := (exists t, represents h m t) /\ registered h m /\ all_resolved m.
(** A queue every modification of which is in order at its turn. *)
Inductive careful (ord : list nid -> list nid) : world -> list op -> Prop :=
| careful_end w : careful ord w []
| careful_next w o os : allowed w o -> defined_op w o -> spares w o -> fresh_op o -> (forall w', exec ord o w = Some (w', None) -> careful ord w' os) -> careful ord w (o :: os).
