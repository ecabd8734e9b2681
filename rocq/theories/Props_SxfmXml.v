(** Property C81: documents in the SXFM format saved as XML. *)
From Coq Require Import List ZArith NArith Arith Bool Ascii String Permutation.
From Verif Require Import Text ConstraintModel ConstraintSpec ConstraintRoundTrip FeatureTreeModel FeatureTreeSpec FeatureTransactionModel FeatureEditSpec FeatureTransactionExamples FeatureBuildSpec FeatureBuildExamples
  SxfmModel SxfmSpec SxfmFormulaSpec SxfmExamples XmlModel XmlWriterModel XmlSpec XmlTripSpec ConfigurationModel SolverModel SolverSpec SxfmConfigSpec SxfmConfigExamples SxfmXmlSpec SxfmXmlFinal SxfmXmlExamples.
Import ListNotations.
Local Open Scope string_scope.
Local Open Scope list_scope.
Local Open Scope nat_scope.

(** ** C81 *)
(** The model that is read from the saved document is indented like the text, with every
    group turned into an alternative, and states the formulas and the exclusions of
    members of the same group. *)
Theorem C81_texts_are_converted :
  forall ord ord1 ord2 sci order or_first h h0 step cwd d n ind es cs,
  is_order ord -> is_order ord1 -> is_order ord2 -> sci_nonneg sci -> (forall l, Permutation (order l) l) -> heap_ok h -> heap_ok h0 -> d_name d = Some n -> tidy n ->
  ind = match d_indentation d with Some i => i | None => [ascii_of_nat 9] end -> indentation_ok ind ->
  (forall e, In e es -> entry_ok e /\ id_apart e) -> tree_ok es -> labels_savable es -> groups_savable es -> tree_text ind es (d_tree d) ->
  match d_constraints d with Some t => constraints_text es cs t | None => cs = [] end -> names_known es cs ->
  exists k, forall fuel, k <= fuel -> exists h1 m1 doc h2 m2, read_sxfm ord sci order fuel or_first h d = SxDone (h1, Some m1) /\
    write_xml ord1 h1 m1 = Some doc /\ XmlModel.valid doc = true /\ read_xml ord2 sci step cwd h0 doc = SxDone (h2, Some m2) /\
    m_name m2 = n /\ as_indented (alternated es) h2 m2 /\ (forall e, stated h2 (m_boolean m2) e <-> said es cs e) /\ m_nonboolean m2 = [] /\ m_mixed m2 = [].
Proof. exact document_converted. Qed.
Print Assumptions C81_texts_are_converted.

(** Its configurations are those of the text with every group turned into an alternative,
    and they are enumerated, each once. *)
Theorem C81_converted_texts_have_the_configurations_of_alternatives :
  forall ord ord1 ord2 ord3 sci order or_first h h0 step cwd d n ind es cs check,
  is_order ord -> is_order ord1 -> is_order ord2 -> is_order ord3 -> sci_nonneg sci -> (forall l, Permutation (order l) l) -> heap_ok h -> heap_ok h0 -> d_name d = Some n -> tidy n ->
  ind = match d_indentation d with Some i => i | None => [ascii_of_nat 9] end -> indentation_ok ind ->
  (forall e, In e es -> entry_ok e /\ id_apart e) -> tree_ok es -> labels_savable es -> groups_savable es -> tree_text ind es (d_tree d) ->
  match d_constraints d with Some t => constraints_text es cs t | None => cs = [] end -> names_known es cs ->
  exists k, forall fuel, k <= fuel -> exists h1 m1 doc h2 m2, read_sxfm ord sci order fuel or_first h d = SxDone (h1, Some m1) /\
    write_xml ord1 h1 m1 = Some doc /\ read_xml ord2 sci step cwd h0 doc = SxDone (h2, Some m2) /\
    (forall a, SolverSpec.valid h2 m2 a <-> stated_configuration (alternated es) cs (a_bool a) /\ forall c, In c cs -> ~ negates c) /\
    ((forall c, In c cs -> ~ negates c) ->
     exists N, forall fuel', N <= fuel' -> exists s, SolverModel.load ord3 fuel' h2 m2 = Some s /\
       (decides check (s_vars s) (s_asserted s) -> exists M, forall fuel'', M <= fuel'' -> answers_stated (alternated es) cs (get_all check fuel'' s))).
Proof. exact document_kept. Qed.
Print Assumptions C81_converted_texts_have_the_configurations_of_alternatives.

(** Texts without or-groups are not changed by turning groups into alternatives. *)
Theorem C81_alternatives_are_kept : forall es, only_alternatives es -> alternated es = es.
Proof. exact SxfmXmlProofs.alternated_same. Qed.
Print Assumptions C81_alternatives_are_kept.

(** An or-group loses configurations. *)
Theorem C81_or_groups_keep_their_configurations_refuted : exists ord sci order' or_first h step cwd d n ind es cs sel,
  is_order ord /\ sci_nonneg sci /\ (forall l, Permutation (order' l) l) /\ heap_ok h /\ d_name d = Some n /\ tidy n /\
  ind = match d_indentation d with Some i => i | None => [ascii_of_nat 9] end /\ indentation_ok ind /\
  (forall e, In e es -> entry_ok e /\ id_apart e) /\ tree_ok es /\ labels_savable es /\ groups_savable es /\ tree_text ind es (d_tree d) /\
  match d_constraints d with Some t => constraints_text es cs t | None => cs = [] end /\ names_known es cs /\ stated_configuration es cs sel /\
  exists k, forall fuel, k <= fuel -> exists h1 m1 doc h2 m2, read_sxfm ord sci order' fuel or_first h d = SxDone (h1, Some m1) /\
    (exists a, SolverSpec.valid h1 m1 a /\ forall s, a_bool a s = sel s) /\
    write_xml ord h1 m1 = Some doc /\ read_xml ord sci step cwd h doc = SxDone (h2, Some m2) /\
    forall a, SolverSpec.valid h2 m2 a -> exists s, a_bool a s <> sel s.
Proof. exact or_refuted. Qed.
Print Assumptions C81_or_groups_keep_their_configurations_refuted.

(** A root that is called neither root nor base is not the root afterwards. *)
Theorem C81_roots_are_kept_refuted : exists ord sci order' or_first h step cwd d n ind es cs,
  is_order ord /\ sci_nonneg sci /\ (forall l, Permutation (order' l) l) /\ heap_ok h /\ d_name d = Some n /\ tidy n /\
  ind = match d_indentation d with Some i => i | None => [ascii_of_nat 9] end /\ indentation_ok ind /\
  (forall e, In e es -> entry_ok e /\ id_apart e) /\ tree_ok es /\ tree_text ind es (d_tree d) /\
  match d_constraints d with Some t => constraints_text es cs t | None => cs = [] end /\ names_known es cs /\
  exists fuel h1 m1 doc h2 m2 r s, read_sxfm ord sci order' fuel or_first h d = SxDone (h1, Some m1) /\
    write_xml ord h1 m1 = Some doc /\ read_xml ord sci step cwd h doc = SxDone (h2, Some m2) /\
    m_root m2 = Some r /\ get_feature m2 s = Some r /\ ~ In s (labels es).
Proof. exact root_refuted. Qed.
Print Assumptions C81_roots_are_kept_refuted.

(** Hypotheses are met. *)
Example C81_example :
  is_order order /\ sci_nonneg no_sci /\ (forall l : list (nat * (text * rkind)), Permutation (rev l) l) /\ heap_ok heap0 /\ tidy (T "cars") /\ indentation_ok tab /\
  (forall e, In e entries81 -> entry_ok e /\ id_apart e) /\ tree_ok entries81 /\ labels_savable entries81 /\ groups_savable entries81 /\ tree_text tab entries81 text81 /\
  constraints_text entries81 [formula20] constraints20 /\ names_known entries81 [formula20] /\ (forall c, In c [formula20] -> ~ negates c) /\
  stated_configuration (alternated entries81) [formula20] sel81.
Proof. exact converted_example. Qed.
Example C81_enumerated_example :
  let row a f r b := map Some ["true"; a; f; r; b] in
  listing81 = Some [row "false" "true" "false" "true"; row "false" "true" "true" "false"; row "true" "false" "true" "false"].
Proof. exact listed81. Qed.
Example C81_alternatives_example : only_alternatives (alternated entries81) /\ marked (alternated entries81) 5 (Group RAlternative).
Proof. exact alternatives_example. Qed.
