(** Property C64: whole documents in the SXFM format. *)
From Coq Require Import List ZArith NArith Arith Bool Ascii String Permutation.
From Verif Require Import Text ConstraintModel ConstraintSpec FeatureTreeModel FeatureTreeSpec FeatureTransactionModel FeatureEditSpec FeatureTransactionExamples FeatureBuildSpec FeatureBuildExamples
  XmlModel SxfmModel SxfmSpec SxfmFormulaSpec SxfmExamples ConfigurationModel SolverModel SolverSpec SxfmConfigSpec SxfmConfigExamples SxfmDocModel SxfmDocSpec SxfmDocProofs SxfmDocFinal DtdModel DtdSpec DtdProofs.
Import ListNotations.
Local Open Scope string_scope.
Local Open Scope list_scope.
Local Open Scope nat_scope.

(** ** C64 *)
(** The declarations are those of the document type of the library. *)
Theorem C64_document_type :
  words [] sxfm_dtd = type_words sxfm_declarations free_attributes /\
  forall n, ~ In n (map (fun d => T (fst d)) sxfm_declarations) -> free_attributes n = [].
Proof. exact (conj sxfm_declared sxfm_others_bare). Qed.
Print Assumptions C64_document_type.
(** Which documents are verified, and that it is determined what they say. *)
Theorem C64_verified_documents :
  forall e, well_formed e -> (verify_sxfm e = true <-> (exists n i t c, sxfm_document n i t c e) \/ exists o, sxfm_fragment o e).
Proof. exact valid_iff. Qed.
Print Assumptions C64_verified_documents.
Theorem C64_documents_say_one_thing :
  forall e n i t c n' i' t' c', sxfm_document n i t c e -> sxfm_document n' i' t' c' e -> n = n' /\ i = i' /\ t = t' /\ c = c'.
Proof. exact document_unique. Qed.
Print Assumptions C64_documents_say_one_thing.

(** The model of a document with a name is as indented, with the constraints of the
    formulas. *)
Theorem C64_documents_are_read :
  forall ord sci order or_first h e n i ind t c es cs,
  is_order ord -> (forall l, Permutation (order l) l) -> heap_ok h -> sxfm_document (Some n) i t c e ->
  ind = match i with Some x => x | None => [ascii_of_nat 9] end -> indentation_ok ind ->
  (forall x, In x es -> entry_ok x /\ id_apart x) -> tree_ok es -> tree_text ind es t ->
  match c with Some x => constraints_text es cs x | None => cs = [] end -> names_known es cs ->
  verify_sxfm e = true /\ exists k, forall fuel, k <= fuel -> exists h' m, read_document sci order fuel or_first ord h e = SxDone (h', Some m) /\ heap_ok h' /\
    m_name m = n /\ as_indented es h' m /\
    Forall2 (fun c x => c_expr x = cmap (fun s => pointing m (Own (T s))) c) cs (m_boolean m) /\ m_nonboolean m = [] /\ m_mixed m = [].
Proof. exact whole_document_read. Qed.
Print Assumptions C64_documents_are_read.
(** Its configurations are the stated ones, each enumerated once. *)
Theorem C64_documents_are_enumerated :
  forall ord ord' check sci order or_first h e n i ind t c es cs,
  is_order ord -> is_order ord' -> (forall l, Permutation (order l) l) -> heap_ok h -> sxfm_document (Some n) i t c e ->
  ind = match i with Some x => x | None => [ascii_of_nat 9] end -> indentation_ok ind ->
  (forall x, In x es -> entry_ok x /\ id_apart x) -> tree_ok es -> tree_text ind es t ->
  match c with Some x => constraints_text es cs x | None => cs = [] end -> names_known es cs ->
  inhabited_groups es -> (forall c, In c cs -> ~ negates c) ->
  exists k, forall fuel, k <= fuel -> exists h' m, read_document sci order fuel or_first ord h e = SxDone (h', Some m) /\
    exists N, forall fuel', N <= fuel' -> exists s, SolverModel.load ord' fuel' h' m = Some s /\
      (decides check (s_vars s) (s_asserted s) -> exists M, forall fuel'', M <= fuel'' -> answers_stated es cs (get_all check fuel'' s)).
Proof. exact whole_document_enumerated. Qed.
Print Assumptions C64_documents_are_enumerated.
(** With meta data, and without; see C58 for the other hypotheses. *)
Example C64_example :
  well_formed (document21 (Some (T "cars")) [meta21]) /\ sxfm_document (Some (T "cars")) None text1 (Some constraints20) (document21 (Some (T "cars")) [meta21]) /\
  sxfm_document (Some (T "cars")) None text1 (Some constraints20) (document21 (Some (T "cars")) []) /\
  (let* (h, m) := SxfmExamples.outcome (read_document no_sci (@rev _) 9 true order heap0 (document21 (Some (T "cars")) [meta21])) in
   let* a := get_feature m (T "AM") in let* c := h_cells h a in let* q := n_parent c in let* d := h_cells h q in let* p := n_parent d in let* n := name_at h p in
   Some (n, n_data d, m_name m, List.length (m_boolean m))) = Some (T "group_1", NRelationship RAlternative, T "cars", 1).
Proof. exact document21_example. Qed.
Example C64_hypotheses_example :
  is_order order /\ (forall l : list (nat * (text * rkind)), Permutation (rev l) l) /\ heap_ok heap0 /\ indentation_ok [ascii_of_nat 9] /\
  (forall e, In e entries1 -> entry_ok e /\ id_apart e) /\ tree_ok entries1 /\ tree_text [ascii_of_nat 9] entries1 text1 /\ constraints_text entries1 [formula20] constraints20 /\
  names_known entries1 [formula20] /\ inhabited_groups entries1 /\ (forall c, In c [formula20] -> ~ negates c).
Proof. pose proof stated_example as E. decompose [and] E. repeat (split; [assumption|]). assumption. Qed.

(** Meta data make no difference. *)
Theorem C64_meta_data_make_no_difference :
  forall sci order fuel or_first ord h e e' n i t c, sxfm_document n i t c e -> sxfm_document n i t c e' ->
  read_document sci order fuel or_first ord h e = read_document sci order fuel or_first ord h e'.
Proof. exact meta_ignored. Qed.
Print Assumptions C64_meta_data_make_no_difference.

(** Other documents are refused, and a model needs a name. *)
Theorem C64_other_documents_are_refused :
  forall sci order fuel or_first ord h e, well_formed e -> (forall n i t c, ~ sxfm_document n i t c e) -> (forall o, ~ sxfm_fragment o e) ->
  verify_sxfm e = false /\ read_document sci order fuel or_first ord h e = SxRefused.
Proof. exact invalid_refused. Qed.
Print Assumptions C64_other_documents_are_refused.
Example C64_refused_example : well_formed document22 /\ (forall n i t c, ~ sxfm_document n i t c document22) /\ (forall o, ~ sxfm_fragment o document22).
Proof. exact document22_example. Qed.
Theorem C64_models_come_from_named_documents :
  forall sci order fuel or_first ord h e r, well_formed e -> read_document sci order fuel or_first ord h e = SxDone r ->
  verify_sxfm e = true /\ ((exists n i t c, sxfm_document (Some n) i t c e) \/ exists n, sxfm_fragment (Some n) e).
Proof. exact documents_needed. Qed.
Print Assumptions C64_models_come_from_named_documents.

(** Without a name, which the document type allows, the behaviour is undefined. *)
Theorem C64_nameless_documents_are_undefined :
  forall sci order fuel or_first ord h e, (exists i t c, sxfm_document None i t c e) \/ sxfm_fragment None e ->
  verify_sxfm e = true /\ read_document sci order fuel or_first ord h e = SxUndefined.
Proof. exact nameless_undefined. Qed.
Print Assumptions C64_nameless_documents_are_undefined.
Theorem C64_verified_documents_are_defined_refuted : exists e, well_formed e /\ verify_sxfm e = true /\
  forall sci order fuel or_first ord h, read_document sci order fuel or_first ord h e = SxUndefined.
Proof. exact verified_defined_refuted. Qed.
Print Assumptions C64_verified_documents_are_defined_refuted.
(** Verification does not look at the tree. *)
Theorem C64_verified_documents_are_read_refuted : exists e, well_formed e /\ verify_sxfm e = true /\
  forall sci order fuel or_first ord h, read_document sci order fuel or_first ord h e = SxRefused.
Proof. exact verified_read_refuted. Qed.
Print Assumptions C64_verified_documents_are_read_refuted.
(** A document that is not a feature model at all can be read as one. *)
Theorem C64_only_feature_models_are_read_refuted : exists e, well_formed e /\ (forall n i t c, ~ sxfm_document n i t c e) /\
  forall sci order fuel or_first ord h, is_order ord -> heap_ok h ->
    exists h' m, read_document sci order fuel or_first ord h e = SxDone (h', Some m) /\ m_name m = T "creator" /\ map fst (m_features m) = [T "root"].
Proof. exact only_models_refuted. Qed.
Print Assumptions C64_only_feature_models_are_read_refuted.
