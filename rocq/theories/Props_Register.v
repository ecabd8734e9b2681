(** C61: what features know about the constraints of their model. *)
From Coq Require Import List ZArith NArith Arith Bool Ascii String Permutation.
From Verif Require Import Text ConstraintModel ConstraintSpec FeatureTreeModel FeatureTreeSpec FeatureEditSpec FeatureTransactionModel FeatureTransactionExamples XmlModel XmlSpec
  GraphvizModel GraphvizSpec RegisterSpec RegisterFinal RegisterDrawProofs RegisterExamples.
Import ListNotations.
Local Open Scope string_scope.
Local Open Scope list_scope.

(** However a model was obtained: its features list the constraints that mention them, each
    mention once, and no others. *)
Theorem C61_features_know_their_constraints : forall ord h m, obtained ord h m -> informed h m.
Proof. exact obtained_informed. Qed.
Print Assumptions C61_features_know_their_constraints.

(** Besides, constraints are different objects, and features are found by their names. *)
Theorem C61_models_are_registered : forall ord h m, obtained ord h m -> RegisterSpec.registered h m.
Proof. exact obtained_registered. Qed.
Print Assumptions C61_models_are_registered.

(** No modification removes a constraint. *)
Theorem C61_edits_keep_constraints : forall ord h m t t' w e, obtained ord h m -> (forall o, In o (t_queue t) -> fresh_op o) -> (forall k c, ~ In (OAddConstraint k c) (t_queue t)) ->
  commit_modify ord t (h, m) = Some (t', w, e) -> all_constraints (snd w) = all_constraints m.
Proof. exact edits_keep_constraints. Qed.
Print Assumptions C61_edits_keep_constraints.

(** So removed features stay mentioned, and then cloning and drawing read freed memory. *)
Theorem C61_constraints_mention_features_of_the_model_refuted : exists ord h m r t w, obtained ord h m /\ all_resolved m /\ commit_modify ord (Mtx true [ORemoveFeature r false]) (h, m) = Some (t, w, None) /\
  (exists c i, In c (all_constraints (snd w)) /\ In (Ref i) (leaves (c_expr c)) /\ feature_at (fst w) i = None) /\
  clone_model ord (fun l => l) (fst w) (snd w) = None /\ write_graph (fun _ => []) [] (fst w) (snd w) [] = None.
Proof. exact removed_features_stay_mentioned. Qed.
Print Assumptions C61_constraints_mention_features_of_the_model_refuted.

(** Models whose constraints mention features of the model can be drawn. *)
Theorem C61_obtained_models_are_drawn : forall ord ptr this h m t title, obtained ord h m -> represents h m t -> all_resolved m ->
  exists start items text, write_graph ptr this h m title = Some text /\ graph_head this title (m_name m) start /\ graph_text ptr start items text /\ draws h m t items.
Proof. exact obtained_drawn. Qed.
Print Assumptions C61_obtained_models_are_drawn.

(** Hypotheses are met: the option a of a document is mentioned four times. *)
Example C61_example : exists h m, obtained order h m /\ all_resolved m /\ (exists t, represents h m t) /\
  (exists i f, get_feature m (T "a") = Some i /\ feature_at h i = Some f /\ List.length (f_constraints f) = 4 /\ List.length (f_excludes f) = 2 /\ List.length (f_implications f) = 1) /\
  (exists i f, get_feature m (T "n") = Some i /\ feature_at h i = Some f /\ List.length (f_constraints f) = 2 /\ List.length (f_excludes f) = 0 /\ List.length (f_implications f) = 1) /\
  (forall o, In o (t_queue drop) -> fresh_op o) /\ (forall k c, ~ In (OAddConstraint k c) (t_queue drop)) /\ exists t w, commit_modify order drop (h, m) = Some (t, w, None).
Proof. exact example61. Qed.
