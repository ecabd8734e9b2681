(** Property C86: undoing modifications. *)
From Coq Require Import List ZArith Arith Bool Ascii String Permutation.
From Verif Require Import Text SourceRangeModel FeatureTreeModel FeatureTreeSpec FeatureTreeExamples FeatureTransactionModel FeatureEditSpec FeatureTransactionExamples FeatureMergeExamples UndoSpec UndoFinal UndoExamples.
Import ListNotations.
Local Open Scope string_scope.
Local Open Scope list_scope.

(** ** C86 *)
(** Each of the modifications of [undone_by] is accepted, and so is the one that undoes it;
    then the model and all nodes are as before. *)
Theorem C86_one_modification_is_undone :
  forall ord, is_order ord -> forall h m t o o', represents h m t -> undone_by h m o o' ->
  exists h1 m1 h2, exec ord o (h, m) = Some ((h1, m1), None) /\ exec ord o' (h1, m1) = Some ((h2, m), None) /\ same_cells h h2 /\ represents h2 m t.
Proof. exact modification_undone. Qed.
Print Assumptions C86_one_modification_is_undone.

(** Whole transactions are undone the last modification first, in a transaction of their own
    or at the end of the same one. *)
Theorem C86_transactions_are_undone :
  forall ord, is_order ord -> forall h m t os us, represents h m t -> undoable ord (h, m) os us ->
  exists w1 h2, commit_modify ord (Mtx true os) (h, m) = Some (Mtx false os, w1, None) /\ commit_modify ord (Mtx true us) w1 = Some (Mtx false us, (h2, m), None) /\
    commit_modify ord (Mtx true (os ++ us)) (h, m) = Some (Mtx false (os ++ us), (h2, m), None) /\ same_cells h h2 /\ represents h2 m t.
Proof. exact transaction_undone. Qed.
Print Assumptions C86_transactions_are_undone.

(** Replacing the root and replacing it again by one of the old name gives the old tree below a
    new, empty root. *)
Theorem C86_replaced_roots_come_back_empty :
  forall ord h m t s, represents h m t -> get_feature m s = None -> exists h1 m1 h2 m2,
  exec ord (OSetRoot s) (h, m) = Some ((h1, m1), None) /\ exec ord (OSetRoot (tname t)) (h1, m1) = Some ((h2, m2), None) /\
  represents h2 m2 (Node (S (h_next h)) (NFeature (root_feature (tname t))) (kids t)) /\ same_rest m m2 /\ m_relationships m2 = m_relationships m /\
  Permutation (map fst (m_features m2)) (map fst (m_features m)).
Proof. exact root_replaced_twice. Qed.
Print Assumptions C86_replaced_roots_come_back_empty.

(** Removing does not undo adding a source range that equals another one up to its revisions. *)
Theorem C86_equal_ranges_are_undone_refuted : exists ord h m t s i f l w1 h2 f2, is_order ord /\ represents h m t /\ get_feature m s = Some i /\ feature_at h i = Some f /\
  exec ord (OAddLocation (ByName s) l) (h, m) = Some (w1, None) /\ exec ord (ORemoveLocation (ByName s) l) w1 = Some ((h2, m), None) /\ feature_at h2 i = Some f2 /\ f_locations f2 <> f_locations f.
Proof. exact range_exchanged. Qed.
Print Assumptions C86_equal_ranges_are_undone_refuted.

(** A child that was not the last one is not put back to where it was. *)
Theorem C86_moves_are_undone_refuted : exists ord h m t p c q h1 h2 cq cq2, is_order ord /\ represents h m t /\ ~ reaches h p c /\ (exists cc, h_cells h c = Some cc /\ n_parent cc = Some q) /\
  exec ord (OAddChild (ByPtr p) (ByPtr c)) (h, m) = Some ((h1, m), None) /\ exec ord (OAddChild (ByPtr q) (ByPtr c)) (h1, m) = Some ((h2, m), None) /\
  h_cells h q = Some cq /\ h_cells h2 q = Some cq2 /\ n_edges cq2 <> n_edges cq.
Proof. exact child_last. Qed.
Print Assumptions C86_moves_are_undone_refuted.

(** The source ranges of a root are lost with it. *)
Theorem C86_replaced_roots_keep_their_ranges_refuted : exists ord h m t s u r f w1 h2 m2 r2 f2, is_order ord /\ represents h m t /\ get_feature m s = None /\ m_root m = Some r /\ feature_at h r = Some f /\ f_name f = u /\
  exec ord (OSetRoot s) (h, m) = Some (w1, None) /\ exec ord (OSetRoot u) w1 = Some ((h2, m2), None) /\ m_root m2 = Some r2 /\ feature_at h2 r2 = Some f2 /\ f_locations f2 <> f_locations f.
Proof. exact root_emptied. Qed.
Print Assumptions C86_replaced_roots_keep_their_ranges_refuted.

(** A new feature x with a source range and a feature taken out of its group, and back. *)
Example C86_example_hypotheses : represents heap1 model1 tree1 /\ undoable order (heap1, model1) done88 undone88.
Proof. exact undo_example. Qed.
Example C86_example_done :
  (let* (w, e) := run order done88 (heap1, model1) in let* a := h_cells (fst w) 1 in Some (map fst (m_features (snd w)), n_parent a, m_commit (snd w), e)) =
    Some ([T "root"; T "B"; T "c"; T "a"; T "D"; T "x"], Some 3, T "c9", None).
Proof. exact undo_shown. Qed.
Example C86_example_root : get_feature model91 (T "n") = None /\ represents heap91 model91 tree91.
Proof. exact (conj eq_refl represents91). Qed.
