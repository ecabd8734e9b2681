(** * C76: Saved documents are reproducible *)
From Coq Require Import List ZArith Arith Bool Ascii String.
From Verif Require Import Text ConstraintModel FeatureTreeModel FeatureTreeSpec FeatureTransactionModel FeatureEditSpec FeatureBuildSpec FeatureBuildExamples FeatureTransactionExamples SxfmModel XmlModel XmlWriterModel XmlSpec XmlTripSpec RegisterSpec XmlCycleSpec XmlCycleFinal XmlCountSpec XmlSameSpec XmlSameProofs XmlSameFinal XmlSameExamples.
Import ListNotations.
Local Open Scope nat_scope.

(** The document does not depend on the memory a model lies in nor on the orders in which
    its sets are visited. *)
Theorem C76_documents_do_not_depend_on_memory :
  forall ord ord' h m t h' m' t', is_order ord -> is_order ord' -> represents h m t -> registered h m -> all_resolved m -> writable h m -> siblings_differ h m ->
  represents h' m' t' -> registered h' m' -> all_resolved m' -> writable h' m' -> looks_same h m h' m' -> write_xml ord h m = write_xml ord' h' m'.
Proof. exact saved_alike. Qed.
Print Assumptions C76_documents_do_not_depend_on_memory.
(** One model saved twice. *)
Theorem C76_saving_twice_gives_the_same_document :
  forall ord ord' h m t, is_order ord -> is_order ord' -> represents h m t -> registered h m -> all_resolved m -> writable h m -> siblings_differ h m -> write_xml ord h m = write_xml ord' h m.
Proof. exact saved_once. Qed.
Print Assumptions C76_saving_twice_gives_the_same_document.
(** Whatever is loaded from saved documents is saved as the same document. *)
Theorem C76_loaded_models_are_saved_the_same :
  forall h m t, represents h m t -> registered h m -> all_resolved m -> writable h m -> settled_implications h m -> siblings_differ h m ->
  forall n k h1 m1 h2 m2 ord ord', is_order ord -> is_order ord' -> cycles (S n) h m h1 m1 -> cycles (S k) h m h2 m2 -> write_xml ord h1 m1 = write_xml ord' h2 m2.
Proof. exact loaded_saved. Qed.
Print Assumptions C76_loaded_models_are_saved_the_same.
(** Loading a saved document and saving it again gives the document back. *)
Theorem C76_saving_what_was_loaded_gives_the_document_back :
  forall h m t, represents h m t -> registered h m -> all_resolved m -> writable h m -> settled_implications h m -> siblings_differ h m ->
  forall n h1 m1 ord ord', is_order ord -> is_order ord' -> plain_root h m -> cycles n h m h1 m1 -> write_xml ord h m = write_xml ord' h1 m1.
Proof. exact first_saved. Qed.
Print Assumptions C76_saving_what_was_loaded_gives_the_document_back.
Example C76_example :
  represents heap76 model76 tree76 /\ registered heap76 model76 /\ all_resolved model76 /\ writable heap76 model76 /\
  siblings_differ heap76 model76 /\ settled_implications heap76 model76 /\ plain_root heap76 model76 /\
  (exists doc, write_xml order heap76 model76 = Some doc) /\ (exists h m, cycles 1 heap76 model76 h m) /\ (exists h m, cycles 2 heap76 model76 h m).
Proof. exact same_example. Qed.
(** Options next to each other whose names differ in case only are written in any order. *)
Theorem C76_documents_are_reproducible_refuted :
  exists h m t ord ord' doc doc', represents h m t /\ registered h m /\ all_resolved m /\ writable h m /\ is_order ord /\ is_order ord' /\
  write_xml ord h m = Some doc /\ write_xml ord' h m = Some doc' /\ doc <> doc'.
Proof. exact case_refuted. Qed.
Print Assumptions C76_documents_are_reproducible_refuted.
