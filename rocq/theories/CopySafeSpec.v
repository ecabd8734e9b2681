(** What the calls of a copy transaction mean for the copy. *)
From Coq Require Import List ZArith Arith Bool Ascii String.
From Verif Require Import Text ConstraintModel ConstraintSpec SourceRangeModel FeatureTreeModel FeatureTreeSpec FeatureTransactionModel FeatureTransactionSpec FeatureEditSpec XmlModel XmlSpec RegisterSpec SafeSpec.
Import ListNotations.

(** The caller names a feature, or points to one in whatever model, that is called [s]. *)
Definition called (w : world) (r : nref) (s : text) : Prop := exists i, resolve (snd w) r = Some i /\ name_at (fst w) i = Some s.
(** [j] is the feature of the copy that is called so. *)
Definition in_copy (w : world) (r : nref) (j : nid) : Prop := exists s, called w r s /\ get_feature (snd w) s = Some j.

(** The call [o] means the modification [o'] of the copy. *)
Inductive meant (w : world) : op -> op -> Prop :=
| meant_add f p s : name_at (fst w) p = Some s -> meant w (OAddFeature f (Some p)) (OAddFeature f (get_feature (snd w) s))
| meant_add_top f : meant w (OAddFeature f None) (OAddFeature f None)
| meant_remove r b j : in_copy w r j -> meant w (ORemoveFeature r b) (ORemoveFeature (ByPtr j) b)
| meant_group k r j : in_copy w r j -> meant w (OAddRelationship k r) (OAddRelationship k (ByPtr j))
| meant_ungroup r j : in_copy w r j -> meant w (ORemoveRelationship r) (ORemoveRelationship (ByPtr j))
| meant_locate r l j : in_copy w r j -> meant w (OAddLocation r l) (OAddLocation (ByPtr j) l)
| meant_unlocate r l j : in_copy w r j -> meant w (ORemoveLocation r l) (ORemoveLocation (ByPtr j) l)
| meant_constraint k c : meant w (OAddConstraint k c) (OAddConstraint k c)
| meant_name s : meant w (OSetName s) (OSetName s)
| meant_commit s : meant w (OSetCommit s) (OSetCommit s)
| meant_path s : meant w (OSetPath s) (OSetPath s)
| meant_root s : meant w (OSetRoot s) (OSetRoot s).
(** The call [o] means nothing. *)
Inductive idle (w : world) : op -> Prop :=
| idle_child p c : idle w (OAddChild p c)
| idle_remove r b s : called w r s -> get_feature (snd w) s = None -> idle w (ORemoveFeature r b)
| idle_ungroup r s : called w r s -> get_feature (snd w) s = None -> idle w (ORemoveRelationship r).

(** Calls with a result. *)
Definition tells (o : op) : Prop :=
  match o with OAddFeature _ _ | OAddRelationship _ _ | OAddConstraint _ _ | OSetRoot _ => True | _ => False end.

(** Calls that all mean modifications which succeed, one after the other. *)
Inductive all_meant (ord : list nid -> list nid) : world -> list op -> list op -> world -> Prop :=
| all_meant_end w : all_meant ord w [] [] w
| all_meant_next w o o' os os' w1 w2 : meant w o o' -> exec ord o' w = Some (w1, None) -> all_meant ord w1 os os' w2 -> all_meant ord w (o :: os) (o' :: os') w2.

(** Calls every one of which is in order at its turn. *)
Inductive careful_copy (ord : list nid -> list nid) : world -> list op -> Prop :=
| careful_copy_end w : careful_copy ord w []
| careful_copy_next w o o' os : meant w o o' -> allowed w o' -> defined_op w o' -> spares w o' -> fresh_op o' ->
    (forall w' e, exec ord o' w = Some (w', e) -> careful_copy ord w' os) -> careful_copy ord w (o :: os)
| careful_copy_idle w o os : idle w o -> careful_copy ord w os -> careful_copy ord w (o :: os).
