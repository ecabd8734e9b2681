(** Property C75: how often constraints are stated after saving and loading. *)
From Coq Require Import List ZArith Arith Bool Ascii String.
From Verif Require Import Text ConstraintModel ConstraintParserModel ConstraintSpec ConstraintRoundTrip FeatureTreeModel FeatureTreeSpec FeatureTransactionModel FeatureEditSpec
  SxfmModel XmlModel XmlWriterModel XmlSpec XmlTripSpec RegisterSpec XmlCycleSpec XmlCountSpec XmlCountFinal XmlCountExamples.
Import ListNotations.
Local Open Scope string_scope.
Local Open Scope list_scope.
Local Open Scope nat_scope.

(** Saving and loading once. *)
Theorem C75_numbers_after_saving_and_loading :
  forall ord ord' sci step cwd h m t h0 doc h' m', is_order ord -> is_order ord' -> sci_nonneg sci -> represents h m t -> registered h m -> all_resolved m -> writable h m -> heap_ok h0 ->
  write_xml ord h m = Some doc -> read_xml ord' sci step cwd h0 doc = SxDone (h', Some m') -> counts_back h m h' m'.
Proof. exact saved_counts. Qed.
Print Assumptions C75_numbers_after_saving_and_loading.
(** Saving and loading any number of times. *)
Theorem C75_numbers_after_many_times :
  forall n h m t h' m', represents h m t -> registered h m -> all_resolved m -> writable h m -> cycles n h m h' m' -> counts_after n h m h' m'.
Proof. exact cycles_counts. Qed.
Print Assumptions C75_numbers_after_many_times.
Example C75_example :
  represents heap75 model75 tree75 /\ registered heap75 model75 /\ all_resolved model75 /\ writable heap75 model75 /\
  times heap75 (m_boolean model75) (implying "a" "a") 1 /\ times heap75 (not_boolean model75) (implying "a" "a") 0 /\
  times heap75 (m_boolean model75) (implying "b" "a") 0 /\ times heap75 (not_boolean model75) (implying "b" "a") 1 /\
  times heap75 (m_boolean model75) (excluding_text "a" "b") 2 /\ (exists h m, cycles 1 heap75 model75 h m).
Proof. exact counts_example. Qed.
(** Models do not keep their size: implications of a feature with itself double every time,
    implications among the non-boolean constraints are added every time. *)
Theorem C75_saving_and_loading_keeps_the_number_of_constraints_refuted :
  exists h m t, represents h m t /\ registered h m /\ all_resolved m /\ writable h m /\
  times h (m_boolean m) (implying "a" "a") 1 /\ times h (m_boolean m) (implying "b" "a") 0 /\
  (forall n, exists h' m', cycles n h m h' m') /\
  (forall n h' m', cycles n h m h' m' -> times h' (m_boolean m') (implying "a" "a") (2 ^ n) /\ times h' (m_boolean m') (implying "b" "a") n).
Proof. exact counts_refuted. Qed.
Print Assumptions C75_saving_and_loading_keeps_the_number_of_constraints_refuted.
