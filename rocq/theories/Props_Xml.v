(** Properties C45, C46 and C52: the XML reader and writer. *)
From Coq Require Import List ZArith NArith Arith Bool Ascii String Permutation.
From Verif Require Import Text ConstraintModel ConstraintSpec ConstraintRoundTrip SourceRangeModel FeatureTreeModel FeatureTreeSpec FeatureTransactionModel FeatureEditSpec FeatureTransactionExamples FeatureCloneSpec
  FeatureBuildSpec FeatureBuildExamples SxfmModel SxfmExamples XmlModel XmlWriterModel XmlSpec XmlDetectFinal XmlReadProofs XmlFinal XmlExamples XmlTripSpec XmlTripFinal XmlTripExamples XmlTextSpec XmlTextProofs DtdModel DtdSpec DtdProofs.
Import ListNotations.
Local Open Scope string_scope.
Local Open Scope list_scope.
Local Open Scope nat_scope.

(** ** C45 *)
(** Whatever valid document is read: exactly the features whose children, at least two,
    are all mandatory and exclude each other have an alternative group, their children
    are in it, and the children of other features are in no group. *)
Theorem C45_alternatives_are_found :
  forall ord sci step, is_order ord -> forall cwd h e cs d,
  heap_ok h -> valid e = true -> stands sci step cwd e cs -> describes cs d ->
  exists h' m', read_xml ord sci step cwd h e = SxDone (h', Some m') /\
    forall s p, get_feature m' s = Some p ->
      (group_of h' m' p RAlternative <-> exclusive_children h' m' p) /\ ~ group_of h' m' p ROr /\
      forall i, child_in h' m' p i ->
        (exclusive_children h' m' p -> hangs h' i p (Some RAlternative)) /\ (~ exclusive_children h' m' p -> hangs h' i p None).
Proof. exact alternatives_found. Qed.
Print Assumptions C45_alternatives_are_found.

(** ** C46 *)
(** A model whose root, and no other feature, is called root or base and has the kind of
    a root, with names, paths and attributes without blanks at the ends, without features
    of unknown kind, with values, positions and constraints in the range of the format:
    it can be written, the document is valid and is read, and what comes back is
    [model_back]. *)
Theorem C46_written_models_are_read_back :
  forall ord ord' sci step cwd h m t h0, is_order ord -> is_order ord' -> sci_nonneg sci ->
  represents h m t -> enrolled h m -> all_resolved m -> writable h m -> heap_ok h0 ->
  exists doc h' m', write_xml ord h m = Some doc /\ valid doc = true /\
    read_xml ord' sci step cwd h0 doc = SxDone (h', Some m') /\ model_back h m h' m' /\ enrolled h' m' /\ all_resolved m'.
Proof. exact written_and_read. Qed.
Print Assumptions C46_written_models_are_read_back.
Example C46_example :
  is_order order /\ sci_nonneg no_sci /\ represents heap11 model11 tree11 /\ enrolled heap11 model11 /\ all_resolved model11 /\ writable heap11 model11 /\ heap_ok heap0 /\
  (let* (h, m) := again in
   let* a := get_feature m (T "a") in let* n := get_feature m (T "n") in let* f := feature_at h a in let* g := feature_at h n in
   let* c := h_cells h a in let* q := n_parent c in let* d := h_cells h q in let* p := n_parent d in let* s := name_at h p in
   Some (s, n_data d, f_locations f, f_output f, f_optional g, f_kind g, (m_path m, m_commit m)))
  = Some (T "base", NRelationship RAlternative, [SourceRange (T "a.c") (Some (Loc 3 4)) (Some (Loc 3 9)) Inessential None None], [], true, FNumeric (VList [1; 5; 4294967302]%Z) None, (T "p", T "c0")) /\
  (let* (h, m) := again in let* c := map_option (fun x => constraint_text h (x_con x)) (m_mixed m) in let* b := map_option (constraint_text h) (m_boolean m) in Some (map U b, map U c)) =
  Some (["(a => !b)"; "(b => !a)"; "(n => a)"; "(a | b)"], ["(b => !(n > 2))"]).
Proof. exact trip_example. Qed.
(** Or-groups and values are not always kept. *)
Theorem C46_groups_and_values_are_kept_refuted :
  exists h m t, represents h m t /\ enrolled h m /\ all_resolved m /\ writable h m /\
  (exists s p, get_feature m s = Some p /\ group_of h m p ROr /\
    forall ord ord' sci step cwd h0 doc h' m', is_order ord -> is_order ord' -> sci_nonneg sci -> heap_ok h0 -> write_xml ord h m = Some doc -> read_xml ord' sci step cwd h0 doc = SxDone (h', Some m') ->
      exists p', get_feature m' s = Some p' /\ ~ group_of h' m' p' ROr) /\
  (exists s i f, get_feature m s = Some i /\ feature_at h i = Some f /\
    forall ord ord' sci step cwd h0 doc h' m', is_order ord -> is_order ord' -> sci_nonneg sci -> heap_ok h0 -> write_xml ord h m = Some doc -> read_xml ord' sci step cwd h0 doc = SxDone (h', Some m') ->
      exists i' g, get_feature m' s = Some i' /\ feature_at h' i' = Some g /\ f_kind g <> f_kind f).
Proof. exact not_kept. Qed.
Print Assumptions C46_groups_and_values_are_kept_refuted.

(** ** C52 *)
(** Documents are checked against the document type of the library: the declarations
    used here are the ones written in its text. *)
Theorem C52_document_type :
  words [] xml_dtd = type_words XmlModel.declarations attribute_declarations /\
  forall n, ~ In n (map (fun d => T (fst d)) XmlModel.declarations) -> attribute_declarations n = [].
Proof. exact (conj xml_declared others_bare). Qed.
Print Assumptions C52_document_type.
(** The calls on the builder are those the document stands for; other documents are not
    read. *)
Theorem C52_calls_of_a_document :
  forall sci step cwd e cs, valid e = true -> (read_vm sci step cwd e = SxDone cs <-> stands sci step cwd e cs).
Proof. exact read_vm_iff. Qed.
Print Assumptions C52_calls_of_a_document.
Theorem C52_only_valid_documents_are_read :
  forall ord sci step cwd h e r, read_xml ord sci step cwd h e = SxDone r -> valid e = true /\ exists cs, stands sci step cwd e cs.
Proof. exact document_needed. Qed.
Print Assumptions C52_only_valid_documents_are_read.
(** The model is as described by these calls, with the alternatives found. *)
Theorem C52_documents_are_read :
  forall ord sci step, is_order ord -> forall cwd h e cs d,
  heap_ok h -> valid e = true -> stands sci step cwd e cs -> describes cs d ->
  exists h' m' ps, read_xml ord sci step cwd h e = SxDone (h', Some m') /\ heap_ok h' /\ NoDup ps /\ (forall s, In s ps <-> taken d s /\ alternatives cs d s) /\
    as_described (cs ++ groups_at ps) d h' m' /\ describes (cs ++ groups_at ps) d /\ enrolled h' m' /\ all_resolved m'.
Proof. exact document_means. Qed.
Print Assumptions C52_documents_are_read.
Example C45_C52_example :
  is_order order /\ heap_ok heap0 /\ valid doc1 = true /\ stands no_sci no_step (T "/tmp") doc1 calls1 /\ describes calls1 decl1 /\
  (let* (h, m) := outcome (read_xml order no_sci no_step (T "/tmp") heap0 doc1) in
   let* a := get_feature m (T "a") in let* n := get_feature m (T "n") in let* f := feature_at h a in
   let* c := h_cells h a in let* q := n_parent c in let* d := h_cells h q in let* p := n_parent d in let* s := name_at h p in
   let* c' := h_cells h n in
   Some (s, n_data d, f_locations f, match n_parent c' with Some x => x =? a | None => false end, m_path m, List.length (m_boolean m), map x_req (m_mixed m)))
  = Some (T "root", NRelationship RAlternative, [here1], true, T "/tmp", 4, [ReqNone]).
Proof. exact read_example. Qed.
(** Two different parents for one option, or an option without name element: refused. *)
Example C52_refused_example :
  valid doc2 = true /\ (forall cs, ~ stands no_sci no_step (T "/tmp") doc2 cs) /\ valid doc3 = false /\
  read_xml order no_sci no_step (T "/tmp") heap0 doc2 = SxRefused /\ read_xml order no_sci no_step (T "/tmp") heap0 doc3 = SxRefused.
Proof. exact refused_examples. Qed.
(** Surprises: an option with an empty name becomes the root, and a valid mixed
    constraint can be undefined. *)
Theorem C52_nameless_options_become_the_root :
  exists e c, valid e = true /\ In c (flat_map elems (elems e)) /\ trim (content (hd c (elems c))) = [] /\
  stands no_sci no_step (T "/tmp") e [BName (T "m"); BPath (T "/tmp"); BCommit []; BRoot (T "root"); BFeature (new_feature FBinary (T "a") false [] [])].
Proof. exact nameless. Qed.
Print Assumptions C52_nameless_options_become_the_root.
Theorem C52_valid_documents_are_defined_refuted :
  exists e, valid e = true /\ forall ord sci step cwd h, read_xml ord sci step cwd h e = SxUndefined.
Proof. exact attributes_missing. Qed.
Print Assumptions C52_valid_documents_are_defined_refuted.

(** Texts in the document: blanks at the ends are removed, the values of a text are its
    runs of digits, and a position is the number a text begins with if it is an [int]. *)
Theorem C52_texts_are_read :
  forall t, trimmed_to t (trim t) /\ runs t (numerals false [] t) /\
    (forall z, atoi t = Some z <-> leading_number t z /\ (- 2 ^ 31 <= z < 2 ^ 31)%Z).
Proof. exact texts_read. Qed.
Print Assumptions C52_texts_are_read.
Theorem C52_readings_are_unique :
  forall t, (forall u, trimmed_to t u -> u = trim t) /\ (forall l, runs t l -> l = numerals false [] t).
Proof. exact readings_unique. Qed.
Print Assumptions C52_readings_are_unique.
Theorem C52_positions_are_unsigned : forall z, Z.of_N (to_unsigned z) = (z mod 2 ^ 32)%Z.
Proof. exact unsigned_is. Qed.
Print Assumptions C52_positions_are_unsigned.
Example C52_text_example :
  trim (T "  a b ") = T "a b" /\ map U (numerals false [] (T "1; -2,30--4 - 5")) = ["1"; "-2"; "30"; "-4"; "5"] /\
  atoi (T " -12x") = Some (-12)%Z /\ atoi (T "x") = Some 0%Z /\ atoi (T "3000000000") = None /\ to_unsigned (-1) = 4294967295%N.
Proof. exact text_example. Qed.
