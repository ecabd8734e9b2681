(** Which modifications undo which, independent of how they are carried out. *)
From Coq Require Import List Arith Bool Ascii Permutation.
From Verif Require Import Text ConstraintModel SourceRangeModel FeatureTreeModel FeatureTreeSpec FeatureTransactionModel FeatureEditSpec.
Import ListNotations.

(** All nodes are as before. *)
Definition same_cells (h h' : heap) : Prop := forall i, h_cells h' i = h_cells h i.

(** In a model, the second modification undoes the first one: removing undoes adding a feature
    and adding a source range that the feature does not have yet; moving the last child back
    undoes moving it; setting a text to what it was undoes setting it. *)
Inductive undone_by (h : heap) (m : fmodel) : op -> op -> Prop :=
| undo_add f p b :
    f_kind f <> FRoot -> get_feature m (f_name f) = None -> (forall q, p = Some q -> In q (map snd (m_features m))) ->
    undone_by h m (OAddFeature f p) (ORemoveFeature (ByName (f_name f)) b)
| undo_location r l i f :
    resolve m r = Some i -> In i (map snd (m_features m)) -> feature_at h i = Some f -> Forall (fun y => range_eqb y l = false) (f_locations f) ->
    undone_by h m (OAddLocation r l) (ORemoveLocation r l)
| undo_move rp rc rq p c q cc cq l :
    resolve m rp = Some p -> In p (nodes m) -> resolve m rc = Some c -> In c (map snd (m_features m)) -> ~ reaches h p c -> resolve m rq = Some q ->
    h_cells h c = Some cc -> n_parent cc = Some q -> h_cells h q = Some cq -> n_edges cq = l ++ [c] ->
    undone_by h m (OAddChild rp rc) (OAddChild rq rc)
| undo_name s : undone_by h m (OSetName s) (OSetName (m_name m))
| undo_commit s : undone_by h m (OSetCommit s) (OSetCommit (m_commit m))
| undo_path s : undone_by h m (OSetPath s) (OSetPath (m_path m)).

(** Modifications carried out one after the other, and those that undo them, the last one first. *)
Inductive undoable (ord : list nid -> list nid) : world -> list op -> list op -> Prop :=
| undoable_nil w : undoable ord w [] []
| undoable_step h m o o' w1 os us :
    undone_by h m o o' -> exec ord o (h, m) = Some (w1, None) -> undoable ord w1 os us -> undoable ord (h, m) (o :: os) (us ++ [o']).
