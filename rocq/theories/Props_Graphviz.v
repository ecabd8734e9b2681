(** Property C59: the drawing of a feature model in the DOT language. *)
From Coq Require Import List ZArith NArith Arith Bool Ascii String.
From Verif Require Import Text ConstraintModel ConstraintSpec ConstraintHeapSpec SourceRangeModel FeatureTreeModel FeatureTreeSpec FeatureEditSpec
  GraphvizModel GraphvizSpec GraphvizFinal GraphvizReadProofs GraphvizLabelProofs GraphvizExamples.
Import ListNotations.
Local Open Scope string_scope.
Local Open Scope list_scope.

(** ** C59 *)
(** The text consists of a head for title and name and of statements that draw the tree. *)
Theorem C59_graphs_draw_the_tree : forall ptr this h m t title, represents h m t -> registered_ok h m t ->
  exists start items text, write_graph ptr this h m title = Some text /\ graph_head this title (m_name m) start /\ graph_text ptr start items text /\ draws h m t items.
Proof. exact graphs_draw_the_tree. Qed.
Print Assumptions C59_graphs_draw_the_tree.

(** Models with the same text have the same drawing, if output strings are on one line. *)
Theorem C59_graphs_tell_the_tree : forall ptr this h m t title this' h' m' t' title' text, prints_pointers ptr ->
  (forall c, In c this -> hex_digit c) -> (forall c, In c this' -> hex_digit c) ->
  represents h m t -> registered_ok h m t -> one_line t -> represents h' m' t' -> registered_ok h' m' t' -> one_line t' ->
  write_graph ptr this h m title = Some text -> write_graph ptr this' h' m' title' = Some text ->
  exists items, draws h m t items /\ draws h' m' t' items.
Proof. exact graphs_tell_the_tree. Qed.
Print Assumptions C59_graphs_tell_the_tree.

(** Labels of features are well-formed if nothing in them has to be escaped but the outermost
    operators of constraints. *)
Theorem C59_labels_are_well_formed : forall h m t items, represents h m t -> without_markup h m t -> draws h m t items ->
  forall i l, In (i, Box, l) (flat_map nodes_in items) -> html_string l /\ exists rows, label_of rows l /\ Forall well_escaped rows.
Proof. exact labels_are_well_formed. Qed.
Print Assumptions C59_labels_are_well_formed.

(** They are not in general: not with an operator below the outermost one, *)
Theorem C59_nested_operators_refuted : exists h m t items i l, represents h m t /\ registered_ok h m t /\
  (forall u f, subtree u t -> rdata u = NFeature f -> Forall (fun c => ~ markup c) (f_name f) /\ f_output f = [] /\ f_locations f = []) /\
  (forall ptr this title, exists start text, write_graph ptr this h m title = Some text /\ graph_head this title (m_name m) start /\ graph_text ptr start items text) /\
  draws h m t items /\ In (i, Box, l) (flat_map nodes_in items) /\ ~ html_string l.
Proof. exact nested_label. Qed.
Print Assumptions C59_nested_operators_refuted.
(** and not with an angle bracket in an output string. *)
Theorem C59_output_strings_refuted : exists h m t items i l, represents h m t /\ registered_ok h m t /\ m_boolean m = [] /\ m_nonboolean m = [] /\ m_mixed m = [] /\
  (forall u f, subtree u t -> rdata u = NFeature f -> Forall (fun c => ~ markup c) (f_name f) /\ f_locations f = []) /\
  (forall ptr this title, exists start text, write_graph ptr this h m title = Some text /\ graph_head this title (m_name m) start /\ graph_text ptr start items text) /\
  draws h m t items /\ In (i, Box, l) (flat_map nodes_in items) /\ ~ html_string l.
Proof. exact output_label. Qed.
Print Assumptions C59_output_strings_refuted.

(** Hypotheses are met. *)
Example C59_example : represents heap30 model30 tree30 /\ registered_ok heap30 model30 tree30 /\ one_line tree30 /\ without_markup heap30 model30 tree30 /\ prints_pointers ptr30.
Proof. destruct graph_example as (A & B & C & D & E & _). exact (conj A (conj B (conj C (conj D E)))). Qed.
