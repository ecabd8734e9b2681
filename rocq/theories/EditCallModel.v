(** Model of the functions that edit a model in one call
    (lib/Feature/FeatureModelTransaction.cpp:17-39, 141-160). *)
From Coq Require Import List Arith Bool Ascii.
From Verif Require Import Text ConstraintModel SourceRangeModel FeatureTreeModel FeatureTransactionModel.
Import ListNotations.

Section Order.
Variable ord : list nid -> list nid.

(** Opening a transaction, queueing modifications and committing.  What [commit] returns
    is dropped, and the destructor finds the transaction closed. *)
Definition edit_call (os : list op) (w : world) : option world :=
  let* t := open_modify w in
  let* t1 := fold_left (fun o x => let* t := o in enqueue t x) os (Some t) in
  let* (t2, w1, _) := commit_modify ord t1 w in
  destroy_modify ord t2 w1.

(** [addFeature] (17-22); no parent is a null pointer. *)
Definition call_add_feature (f : feature) (p : option nid) (w : world) : option world := edit_call [OAddFeature f p] w.
(** [addFeatures] (24-32). *)
Definition call_add_features (l : list (feature * option nid)) (w : world) : option world :=
  edit_call (map (fun x => OAddFeature (fst x) (snd x)) l) w.
(** [removeFeature] (34-40). *)
Definition call_remove_feature (r : nref) (recursive : bool) (w : world) : option world := edit_call [ORemoveFeature r recursive] w.
(** [addRelationship] (141-147) and [removeRelationship] (149-154). *)
Definition call_add_relationship (r : nref) (k : rkind) (w : world) : option world := edit_call [OAddRelationship k r] w.
Definition call_remove_relationship (r : nref) (w : world) : option world := edit_call [ORemoveRelationship r] w.
(** [setCommit] (156-160). *)
Definition call_set_commit (s : text) (w : world) : option world := edit_call [OSetCommit s] w.
End Order.
