(** Property C96: saving models to files. *)
From Coq Require Import List ZArith Bool Ascii String.
From Verif Require Import Text ConstraintModel ConstraintParserModel ConstraintSpec ConstraintRoundTrip FeatureTreeModel FeatureTreeSpec FeatureTreeExamples FeatureTransactionModel FeatureTransactionSpec FeatureEditSpec FeatureTransactionExamples FeatureBuildSpec FeatureBuildExamples SxfmModel SxfmExamples XmlModel XmlWriterModel XmlSpec XmlTripSpec XmlTripExamples
  GeneratorModel SaveModel SaveSpec SaveProofs.
Import ListNotations.
Local Open Scope list_scope.

(** ** C96 *)
(** After any number of models were saved, a file is what the last saving that could open it left
    there, and as before if none could. *)
Theorem C96_the_last_saving_counts :
  forall ss d d' cs path, save_all ss d = Some (d', cs) -> (never_opened ss path /\ d' path = d path) \/ exists s, last_opened ss path s /\ leaves_file s (d' path).
Proof. exact last_save. Qed.
Print Assumptions C96_the_last_saving_counts.
(** If nothing failed then, the file is valid and is loaded as the model as it was then. *)
Theorem C96_saved_models_are_loaded :
  forall ss d d' cs path s n t ord sci step cwd h0, save_all ss d = Some (d', cs) -> last_opened ss path s -> s_luck s = Works n ->
  is_order (s_order s) -> represents (s_heap s) (s_saved s) t -> enrolled (s_heap s) (s_saved s) -> all_resolved (s_saved s) -> writable (s_heap s) (s_saved s) -> is_order ord -> sci_nonneg sci -> heap_ok h0 ->
  exists h' m', verify_model (reading d') path = true /\ load_model ord sci step cwd (reading d') h0 path = SxDone (h', Some m') /\ model_back (s_heap s) (s_saved s) h' m'.
Proof. exact saved_loaded. Qed.
Print Assumptions C96_saved_models_are_loaded.
(** A positive number means that the model was saved, a negative one that writing failed; zero can
    mean that nothing happened.  Other files are not touched. *)
Theorem C96_codes :
  forall ord h m path l d d' c, save ord h m path l d = Some (d', c) ->
  (forall q, q <> path -> d' q = d q) /\
  ((0 < c)%Z -> exists e, write_xml ord h m = Some e /\ d' path = Document e) /\
  ((c < 0)%Z <-> exists rest, l = Broken rest) /\
  (c = 0%Z -> d' path = d path \/ exists e, write_xml ord h m = Some e /\ d' path = Document e).
Proof. exact save_code. Qed.
Print Assumptions C96_codes.
(** That only negative numbers mean failure is false: a file that cannot be opened yields zero. *)
Theorem C96_only_negative_numbers_are_failures_refuted : exists ord h m t path l d d' c, is_order ord /\ represents h m t /\ enrolled h m /\ all_resolved m /\ writable h m /\ save ord h m path l d = Some (d', c) /\ (0 <= c)%Z /\
  verify_model (reading d') path = false /\ forall ord' sci step cwd h0, load_model ord' sci step cwd (reading d') h0 path = SxRefused.
Proof. exact not_saved. Qed.
Print Assumptions C96_only_negative_numbers_are_failures_refuted.
Example C96_example :
  is_order order /\ sci_nonneg no_sci /\ heap_ok heap0 /\ represents heap11 model11 tree11 /\ enrolled heap11 model11 /\ all_resolved model11 /\ writable heap11 model11 /\
  last_opened savings96 (T "f.xml"%string) (Saving order heap11 model11 (T "f.xml"%string) (Works 40)) /\ never_opened savings96 (T "h.xml"%string) /\
  (let* (d, cs) := save_all savings96 (fun _ => Missing) in Some (map (fun p => verify_model (reading d) (T p)) ["f.xml"; "g.xml"; "h.xml"]%string, cs)) = Some ([true; false; false], [40; -1; 0; 0]%Z).
Proof. exact save_example. Qed.
