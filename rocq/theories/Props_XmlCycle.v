(** Property C73: saving and loading a model several times. *)
From Coq Require Import List ZArith Arith Bool Ascii String Permutation.
From Verif Require Import Text ConstraintModel ConstraintParserModel ConstraintSpec ConstraintRoundTrip FeatureTreeModel FeatureTreeSpec FeatureTreeExamples FeatureTransactionModel FeatureTransactionSpec FeatureEditSpec
  SxfmModel SxfmExamples XmlModel XmlWriterModel XmlSpec XmlTripSpec XmlTripExamples XmlCycleSpec XmlCycleFinal XmlCycleExamples.
Import ListNotations.
Local Open Scope string_scope.
Local Open Scope list_scope.

(** A model that can be written can be saved and loaded as often as one likes. *)
Theorem C73_saving_and_loading_goes_on :
  forall h m t n h1 m1 ord ord' sci step cwd h0, represents h m t -> enrolled h m -> all_resolved m -> writable h m -> cycles n h m h1 m1 ->
  is_order ord -> is_order ord' -> sci_nonneg sci -> heap_ok h0 ->
  exists doc h2 m2, write_xml ord h1 m1 = Some doc /\ read_xml ord' sci step cwd h0 doc = SxDone (h2, Some m2).
Proof. exact cycles_go_on. Qed.
Print Assumptions C73_saving_and_loading_goes_on.
(** Many times lose no more than one time. *)
Theorem C73_nothing_more_is_lost :
  forall h m t n h1 m1, represents h m t -> enrolled h m -> all_resolved m -> writable h m -> cycles (S n) h m h1 m1 -> model_back h m h1 m1.
Proof. exact cycles_back. Qed.
Print Assumptions C73_nothing_more_is_lost.
(** From the first time on all loaded models are the same. *)
Theorem C73_loaded_models_are_the_same :
  forall h m t n k h1 m1 h2 m2, represents h m t -> enrolled h m -> all_resolved m -> writable h m ->
  cycles (S n) h m h1 m1 -> cycles (S k) h m h2 m2 -> same_model h1 m1 h2 m2.
Proof. exact cycles_same. Qed.
Print Assumptions C73_loaded_models_are_the_same.
Example C73_example :
  represents heap11 model11 tree11 /\ enrolled heap11 model11 /\ all_resolved model11 /\ writable heap11 model11 /\
  (exists h m, times 1 = Some (h, m) /\ cycles 1 heap11 model11 h m) /\ (exists h m, times 3 = Some (h, m) /\ cycles 3 heap11 model11 h m) /\
  seen 0 = Some (NRelationship ROr, FNumeric (VList [1; 4294967301; 4294967302]%Z) None, ["(n => a)"; "(a | b)"], ["(b => !(n > 2))"]) /\
  seen 1 = Some (NRelationship RAlternative, FNumeric (VList [1; 5; 4294967302]%Z) None, ["(a => !b)"; "(b => !a)"; "(n => a)"; "(a | b)"], ["(b => !(n > 2))"]) /\
  seen 3 = seen 1.
Proof. exact cycle_example. Qed.
