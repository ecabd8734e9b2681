(** Property C83: documents in the SXFM format with other roots saved as XML. *)
From Coq Require Import List ZArith NArith Arith Bool Ascii String Permutation.
From Verif Require Import Text ConstraintModel ConstraintSpec ConstraintRoundTrip FeatureTreeModel FeatureTreeSpec FeatureTransactionModel FeatureEditSpec FeatureTransactionExamples FeatureBuildSpec FeatureBuildExamples
  SxfmModel SxfmSpec SxfmFormulaSpec SxfmExamples XmlModel XmlWriterModel XmlSpec XmlTripSpec ConfigurationModel SolverModel SolverSpec SxfmConfigSpec SxfmConfigExamples SxfmXmlSpec SxfmXmlFinal SxfmXmlExamples SxfmBelowSpec SxfmBelowProofs SxfmBelowFinal SxfmBelowExamples.
Import ListNotations.
Local Open Scope string_scope.
Local Open Scope list_scope.
Local Open Scope nat_scope.

(** ** C83 *)
(** The model that is read from the saved document is indented like the text below a new
    root, with every group turned into an alternative, and states the formulas and the
    exclusions of members of the same group. *)
Theorem C83_texts_are_converted_below_a_new_root :
  forall ord ord1 ord2 sci order or_first h h0 step cwd d n ind es cs,
  is_order ord -> is_order ord1 -> is_order ord2 -> sci_nonneg sci -> (forall l, Permutation (order l) l) -> heap_ok h -> heap_ok h0 -> d_name d = Some n -> tidy n ->
  ind = match d_indentation d with Some i => i | None => [ascii_of_nat 9] end -> indentation_ok ind ->
  (forall e, In e es -> entry_ok e /\ id_apart e) -> tree_ok es -> labels_other es -> groups_savable es -> tree_text ind es (d_tree d) ->
  match d_constraints d with Some t => constraints_text es cs t | None => cs = [] end -> names_known es cs ->
  exists k, forall fuel, k <= fuel -> exists h1 m1 doc h2 m2, read_sxfm ord sci order fuel or_first h d = SxDone (h1, Some m1) /\
    write_xml ord1 h1 m1 = Some doc /\ XmlModel.valid doc = true /\ read_xml ord2 sci step cwd h0 doc = SxDone (h2, Some m2) /\
    m_name m2 = n /\ as_indented (below (alternated es)) h2 m2 /\ (forall e, stated h2 (m_boolean m2) e <-> said es cs e) /\ m_nonboolean m2 = [] /\ m_mixed m2 = [].
Proof. exact below_document_converted. Qed.
Print Assumptions C83_texts_are_converted_below_a_new_root.

(** Its configurations are those of the text with every group turned into an alternative
    and the new root selected, and they are enumerated, each once. *)
Theorem C83_converted_texts_have_the_configurations_with_the_new_root :
  forall ord ord1 ord2 ord3 sci order or_first h h0 step cwd d n ind es cs check,
  is_order ord -> is_order ord1 -> is_order ord2 -> is_order ord3 -> sci_nonneg sci -> (forall l, Permutation (order l) l) -> heap_ok h -> heap_ok h0 -> d_name d = Some n -> tidy n ->
  ind = match d_indentation d with Some i => i | None => [ascii_of_nat 9] end -> indentation_ok ind ->
  (forall e, In e es -> entry_ok e /\ id_apart e) -> tree_ok es -> labels_other es -> groups_savable es -> tree_text ind es (d_tree d) ->
  match d_constraints d with Some t => constraints_text es cs t | None => cs = [] end -> names_known es cs ->
  exists k, forall fuel, k <= fuel -> exists h1 m1 doc h2 m2, read_sxfm ord sci order fuel or_first h d = SxDone (h1, Some m1) /\
    write_xml ord1 h1 m1 = Some doc /\ read_xml ord2 sci step cwd h0 doc = SxDone (h2, Some m2) /\
    (forall a, SolverSpec.valid h2 m2 a <-> selected a (T "root") /\ stated_configuration (alternated es) cs (a_bool a) /\ forall c, In c cs -> ~ negates c) /\
    ((forall c, In c cs -> ~ negates c) ->
     exists N, forall fuel', N <= fuel' -> exists s, SolverModel.load ord3 fuel' h2 m2 = Some s /\
       (decides check (s_vars s) (s_asserted s) -> exists M, forall fuel'', M <= fuel'' -> answers_stated (below (alternated es)) cs (get_all check fuel'' s))).
Proof. exact below_document_kept. Qed.
Print Assumptions C83_converted_texts_have_the_configurations_with_the_new_root.

(** What a text says below a new root is what it says, and that the new root is selected. *)
Theorem C83_the_new_root_adds_nothing_else : forall es cs sel, tree_ok es ->
  (stated_configuration (below es) cs sel <-> sel (T "root") = true /\ stated_configuration es cs sel).
Proof. exact below_configuration. Qed.
Print Assumptions C83_the_new_root_adds_nothing_else.

(** Hypotheses are met. *)
Example C83_example :
  is_order order /\ sci_nonneg no_sci /\ (forall l : list (nat * (text * rkind)), Permutation (rev l) l) /\ heap_ok heap0 /\ tidy (T "cars") /\ indentation_ok tab /\
  (forall e, In e entries83 -> entry_ok e /\ id_apart e) /\ tree_ok entries83 /\ labels_other entries83 /\ groups_savable entries83 /\ tree_text tab entries83 text83 /\
  constraints_text entries83 [formula20] constraints20 /\ names_known entries83 [formula20] /\ (forall c, In c [formula20] -> ~ negates c) /\
  stated_configuration (alternated entries83) [formula20] sel83.
Proof. exact below_example. Qed.
Example C83_enumerated_example : (let row a f r b := map Some ["true"; "true"; "true"; a; f; r; b] in listing83 = Some [row "false" "true" "false" "true"; row "false" "true" "true" "false"; row "true" "false" "true" "false"]).
Proof. exact listed83. Qed.
