(** Properties of the outcome of reading XML documents (C68). *)
From Coq Require Import List ZArith NArith Arith Bool Ascii String Permutation Lia.
From Verif Require Import Text LlvmInt ConstraintModel ConstraintParserModel ConstraintSpec SourceRangeModel StepFunctionModel FeatureTreeModel FeatureTreeSpec FeatureTransactionModel
  FeatureEditSpec FeatureTransactionExamples FeatureBuildSpec FeatureBuildExamples SxfmModel SxfmExamples XmlModel XmlSpec XmlFinal XmlExamples
  OutcomeSpec XmlOutcomeSpec XmlOutcomeProofs XmlOutcomeExamples StepFunctionSpec XmlStepProofs XmlLostSpec XmlLostProofs XmlLostExamples.
Import ListNotations.
Local Open Scope string_scope.
Local Open Scope list_scope.

(** C68: a valid and well-written document whose acceptable calls are rooted is refused,
    or yields null, or yields a tree. *)
Theorem C68_outcomes :
  forall ord sci step cwd h e, is_order ord -> heap_ok h -> valid e = true -> well_written step e ->
  (forall cs d, stands sci step cwd e cs -> acceptable cs d -> rooted cs d) ->
  (read_xml ord sci step cwd h e = SxRefused /\ forall cs, ~ stands sci step cwd e cs) \/
  exists cs, stands sci step cwd e cs /\
    (((exists h', read_xml ord sci step cwd h e = SxDone (h', None)) /\ forall d, ~ acceptable cs d) \/
     exists d h' m', describes cs d /\ read_xml ord sci step cwd h e = SxDone (h', Some m') /\ tree_shaped h' m').
Proof. exact (fun ord sci step cwd h e ord_ok => outcomes sci step ord ord_ok cwd h e). Qed.
Print Assumptions C68_outcomes.

(** Well-written documents are refused exactly if they stand for no calls, and documents
    that stand for calls yield null exactly if these are not acceptable. *)
Theorem C68_refused_exactly :
  forall ord sci step cwd h e, valid e = true -> well_written step e ->
  (read_xml ord sci step cwd h e = SxRefused <-> forall cs, ~ stands sci step cwd e cs).
Proof. exact (fun ord sci step cwd h e => refused_exactly sci step ord cwd h e). Qed.
Print Assumptions C68_refused_exactly.
Theorem C68_null_exactly :
  forall ord sci step cwd h e cs, is_order ord -> heap_ok h -> valid e = true -> stands sci step cwd e cs ->
  ((forall d, ~ acceptable cs d) <-> exists h', read_xml ord sci step cwd h e = SxDone (h', None)).
Proof. exact (fun ord sci step cwd h e cs ord_ok => null_exactly sci step ord ord_ok cwd h e cs). Qed.
Print Assumptions C68_null_exactly.

Example C68_example :
  valid doc1 = true /\ well_written no_step doc1 /\ (exists h' m', read_xml order no_sci no_step (T "/tmp") heap0 doc1 = SxDone (h', Some m')) /\
  valid doc_two = true /\ well_written no_step doc_two /\ read_xml order no_sci no_step (T "/tmp") heap0 doc_two = SxRefused /\
  valid doc_unknown = true /\ well_written no_step doc_unknown /\ (exists h', read_xml order no_sci no_step (T "/tmp") heap0 doc_unknown = SxDone (h', None)).
Proof. exact outcome_examples. Qed.

(** Nothing is read from other documents. *)
Theorem C68_only_well_written_documents_are_read :
  forall ord sci step cwd h e, ~ well_written step e -> forall r, read_xml ord sci step cwd h e <> SxDone r.
Proof. exact (fun ord sci step cwd h e => ill_written sci step ord cwd h e). Qed.
Print Assumptions C68_only_well_written_documents_are_read.
Example C68_ill_written_example : ~ well_written no_step doc_empty /\ ~ well_written no_step doc_line /\ ~ well_written no_step doc5.
Proof. exact ill_example. Qed.

(** That valid documents are refused instead of running into undefined behaviour is
    false: of an empty constraint, and of a line that is no [int]. *)
Theorem C68_bad_texts_are_refused_refuted :
  (exists e, valid e = true /\ (exists s c, In s (elems e) /\ In c (elems s) /\ tag c = T "constraint" /\ content c = []) /\
     forall ord sci step cwd h, read_xml ord sci step cwd h e = SxUndefined) /\
  (exists e, valid e = true /\ (exists s o, In s (elems e) /\ In o (elems s) /\ filled "locations" (elems o) <> []) /\
     forall ord sci step cwd h, read_xml ord sci step cwd h e = SxUndefined).
Proof. exact bad_texts. Qed.
Print Assumptions C68_bad_texts_are_refused_refuted.

(** That a model that is read is a tree is false of parents in a circle. *)
Theorem C68_documents_give_trees_refuted :
  exists e cs d h' m', valid e = true /\ well_written no_step e /\ stands no_sci no_step (T "/tmp") e cs /\ acceptable cs d /\
    read_xml order no_sci no_step (T "/tmp") heap0 e = SxDone (h', Some m') /\ consistent h' m' = Some true /\
    exists i, get_feature m' (T "a") = Some i /\ forall j, m_root m' = Some j -> ~ reaches h' i j.
Proof. exact document_ring. Qed.
Print Assumptions C68_documents_give_trees_refuted.

(** If the root is below such a circle, the iteration for the alternatives never meets its
    end and dereferences a null pointer. *)
Theorem C68_well_written_documents_are_defined_refuted :
  exists e cs d, valid e = true /\ well_written no_step e /\ stands no_sci no_step (T "/tmp") e cs /\ acceptable cs d /\
    read_xml order no_sci no_step (T "/tmp") heap0 e = SxUndefined.
Proof. exact document_above. Qed.
Print Assumptions C68_well_written_documents_are_defined_refuted.

(** It is the only way: reading a document whose calls are acceptable is undefined exactly
    if the root has a parent and no feature below the root is called like this parent.
    Otherwise there is a model with the declared features below the parents they name. *)
Theorem C68_undefined_exactly :
  forall ord sci step cwd h e cs d, is_order ord -> heap_ok h -> valid e = true -> stands sci step cwd e cs -> acceptable cs d ->
  (read_xml ord sci step cwd h e = SxUndefined <-> lost cs d).
Proof. exact (fun ord sci step cwd h e cs d ord_ok => undefined_exactly ord ord_ok sci step cwd h e cs d). Qed.
Print Assumptions C68_undefined_exactly.
Theorem C68_read_otherwise :
  forall ord sci step cwd h e cs d, is_order ord -> heap_ok h -> valid e = true -> stands sci step cwd e cs -> acceptable cs d -> ~ lost cs d ->
  exists h' m', read_xml ord sci step cwd h e = SxDone (h', Some m') /\ placed_as cs d h' m'.
Proof. exact (fun ord sci step cwd h e cs d ord_ok => placed_otherwise ord ord_ok sci step cwd h e cs d). Qed.
Print Assumptions C68_read_otherwise.
Example C68_lost_example :
  (valid doc_above = true /\ stands no_sci no_step (T "/tmp") doc_above above_calls /\ acceptable above_calls (T "root", [two "x"; two "y"]) /\ lost above_calls (T "root", [two "x"; two "y"])) /\
  (valid doc_loop = true /\ stands no_sci no_step (T "/tmp") doc_loop loop_calls /\ acceptable loop_calls (T "root", [two "a"; two "b"]) /\ ~ lost loop_calls (T "root", [two "a"; two "b"]) /\
   exists h' m', read_xml order no_sci no_step (T "/tmp") heap0 doc_loop = SxDone (h', Some m')).
Proof. exact lost_examples. Qed.

(** The step function of an option: what the text denotes, a null pointer if it denotes
    nothing, undefined for an empty text and at stray operands. *)
Theorem C68_step_functions :
  forall D (A : arith D) value t,
    (forall f, denotes value t f -> XmlModel.read_step A value t = SxDone (Some (next_int A f))) /\
    (XmlModel.read_step A value t = SxUndefined <-> t = [] \/ misread t) /\
    ((forall f, ~ denotes value t f) -> t <> [] -> ~ misread t -> XmlModel.read_step A value t = SxDone None).
Proof. exact @read_step_exact. Qed.
Print Assumptions C68_step_functions.
Example C68_step_example : exists (A : arith Z) value g, XmlModel.read_step A value (T "x + 3") = SxDone (Some g) /\ g 4%Z = Some 7%Z /\
  XmlModel.read_step A value (T "x + y") = SxDone None /\ XmlModel.read_step A value [] = SxUndefined.
Proof. exact step_examples. Qed.
