(** C80: what clones are the same as. *)
From Coq Require Import List ZArith Arith Bool Ascii String Permutation.
From Verif Require Import Text ConstraintModel FeatureTreeModel FeatureTreeSpec FeatureTransactionModel FeatureTransactionSpec FeatureEditSpec FeatureBuildSpec FeatureCloneSpec FeatureTransactionExamples SxfmModel XmlModel XmlWriterModel XmlSpec XmlTripSpec RegisterSpec XmlCycleSpec XmlSameSpec XmlSameExamples
  ConfigurationModel SolverModel SolverSpec SafeSpec CloneSameSpec CloneSameFinal CloneSameExamples.
Import ListNotations.

(** Nothing tells a clone from the original exactly if the original has nothing clones lose. *)
Theorem C80_clones_of_plain_models_are_the_same :
  forall ord map_order, is_order ord -> (forall l, Permutation (map_order l) l) -> forall h m, sound h m -> root_name_free m ->
  exists h' m', clone_model ord map_order h m = Some (h', m') /\ (same_model h m h' m' <-> plain h m).
Proof. exact clones_same. Qed.
Print Assumptions C80_clones_of_plain_models_are_the_same.
(** A clone of a clone is the same as the clone. *)
Theorem C80_clones_of_clones_are_the_same :
  forall ord map_order, is_order ord -> (forall l, Permutation (map_order l) l) -> forall ord2 map_order2 h m, is_order ord2 -> (forall l, Permutation (map_order2 l) l) -> sound h m -> root_name_free m ->
  exists h1 m1 h2 m2, clone_model ord map_order h m = Some (h1, m1) /\ clone_model ord2 map_order2 h1 m1 = Some (h2, m2) /\ same_model h1 m1 h2 m2.
Proof. exact clones_of_clones. Qed.
Print Assumptions C80_clones_of_clones_are_the_same.
(** Clones of plain models have the same valid configurations, also with ranges of values. *)
Theorem C80_clones_of_plain_models_have_the_same_configurations :
  forall ord map_order, is_order ord -> (forall l, Permutation (map_order l) l) -> forall h m, sound h m -> root_name_free m -> plain h m ->
  exists h' m', clone_model ord map_order h m = Some (h', m') /\ forall a, SolverSpec.valid h' m' a <-> SolverSpec.valid h m a.
Proof. exact plain_clones_valid. Qed.
Print Assumptions C80_clones_of_plain_models_have_the_same_configurations.
(** The clone is saved as the same document. *)
Theorem C80_clones_are_saved_as_the_same_document :
  forall ord map_order, is_order ord -> (forall l, Permutation (map_order l) l) -> forall ord1 ord2 h m, is_order ord1 -> is_order ord2 -> sound h m -> writable h m -> siblings_differ h m -> bare_root h m -> all_grouped h m ->
  exists h' m' doc, clone_model ord map_order h m = Some (h', m') /\ write_xml ord1 h m = Some doc /\ write_xml ord2 h' m' = Some doc.
Proof. exact clones_saved. Qed.
Print Assumptions C80_clones_are_saved_as_the_same_document.
Example C80_example :
  sound heap76 model76 /\ root_name_free model76 /\ plain heap76 model76 /\ writable heap76 model76 /\ siblings_differ heap76 model76 /\ bare_root heap76 model76 /\ all_grouped heap76 model76 /\
  (exists w, clone_model order (fun l => l) heap76 model76 = Some w).
Proof. exact clone_example. Qed.
(** Every clone is saved as the same document: false, children beside a group are moved into it. *)
Theorem C80_all_clones_are_saved_as_the_same_document_refuted :
  exists ord map_order h m h' m' doc doc', is_order ord /\ (forall l, Permutation (map_order l) l) /\ sound h m /\ writable h m /\ siblings_differ h m /\ bare_root h m /\
  clone_model ord map_order h m = Some (h', m') /\ write_xml ord h m = Some doc /\ write_xml ord h' m' = Some doc' /\ doc <> doc'.
Proof. exact beside_lost. Qed.
Print Assumptions C80_all_clones_are_saved_as_the_same_document_refuted.
