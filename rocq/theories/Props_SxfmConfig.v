(** Property C58: the configurations of documents in the SXFM format. *)
From Coq Require Import List ZArith NArith Arith Bool Ascii String Permutation.
From Verif Require Import Text ConstraintModel ConstraintSpec FeatureTreeModel FeatureTreeSpec FeatureTransactionModel FeatureEditSpec FeatureTransactionExamples FeatureBuildSpec FeatureBuildExamples
  SxfmModel SxfmSpec SxfmFormulaSpec SxfmExamples ConfigurationModel SolverModel SolverSpec SxfmConfigSpec SxfmConfigFinal SxfmConfigExamples.
Import ListNotations.
Local Open Scope string_scope.
Local Open Scope list_scope.
Local Open Scope nat_scope.

(** ** C58 *)
(** The valid configurations of the model that is read are the stated ones, and there are
    none if a "~" occurs. *)
Theorem C58_models_have_the_stated_configurations :
  forall ord sci order or_first h d n ind es cs,
  is_order ord -> (forall l, Permutation (order l) l) -> heap_ok h -> d_name d = Some n ->
  ind = match d_indentation d with Some i => i | None => [ascii_of_nat 9] end -> indentation_ok ind ->
  (forall e, In e es -> entry_ok e /\ id_apart e) -> tree_ok es -> tree_text ind es (d_tree d) ->
  match d_constraints d with Some t => constraints_text es cs t | None => cs = [] end -> names_known es cs ->
  exists k, forall fuel, k <= fuel -> exists h' m, read_sxfm ord sci order fuel or_first h d = SxDone (h', Some m) /\
    forall a, SolverSpec.valid h' m a <-> stated_configuration es cs (a_bool a) /\ forall c, In c cs -> ~ negates c.
Proof. exact document_valid. Qed.
Print Assumptions C58_models_have_the_stated_configurations.

(** Without "~" the stated configurations are enumerated, each once. *)
Theorem C58_stated_configurations_are_enumerated :
  forall ord ord' check sci order or_first h d n ind es cs,
  is_order ord -> is_order ord' -> (forall l, Permutation (order l) l) -> heap_ok h -> d_name d = Some n ->
  ind = match d_indentation d with Some i => i | None => [ascii_of_nat 9] end -> indentation_ok ind ->
  (forall e, In e es -> entry_ok e /\ id_apart e) -> tree_ok es -> tree_text ind es (d_tree d) ->
  match d_constraints d with Some t => constraints_text es cs t | None => cs = [] end -> names_known es cs ->
  inhabited_groups es -> (forall c, In c cs -> ~ negates c) ->
  exists k, forall fuel, k <= fuel -> exists h' m, read_sxfm ord sci order fuel or_first h d = SxDone (h', Some m) /\
    exists N, forall fuel', N <= fuel' -> exists s, SolverModel.load ord' fuel' h' m = Some s /\
      (decides check (s_vars s) (s_asserted s) -> exists M, forall fuel'', M <= fuel'' -> answers_stated es cs (get_all check fuel'' s)).
Proof. exact document_enumerated. Qed.
Print Assumptions C58_stated_configurations_are_enumerated.

(** With "~" anywhere the model cannot be handed to a solver. *)
Theorem C58_negated_formulas_are_not_solved :
  forall ord sci order or_first h d n ind es cs c,
  is_order ord -> (forall l, Permutation (order l) l) -> heap_ok h -> d_name d = Some n ->
  ind = match d_indentation d with Some i => i | None => [ascii_of_nat 9] end -> indentation_ok ind ->
  (forall e, In e es -> entry_ok e /\ id_apart e) -> tree_ok es -> tree_text ind es (d_tree d) ->
  match d_constraints d with Some t => constraints_text es cs t | None => cs = [] end -> names_known es cs ->
  In c cs -> negates c ->
  exists k, forall fuel, k <= fuel -> exists h' m, read_sxfm ord sci order fuel or_first h d = SxDone (h', Some m) /\
    forall ord' fuel', SolverModel.load ord' fuel' h' m = None.
Proof. exact document_negated. Qed.
Print Assumptions C58_negated_formulas_are_not_solved.

(** So a document that states configurations may be read as a model without any. *)
Theorem C58_negation_refuted : exists ord sci order' or_first h d n ind es cs sel,
  is_order ord /\ (forall l, Permutation (order' l) l) /\ heap_ok h /\ d_name d = Some n /\
  ind = match d_indentation d with Some i => i | None => [ascii_of_nat 9] end /\ indentation_ok ind /\
  (forall e, In e es -> entry_ok e /\ id_apart e) /\ tree_ok es /\ tree_text ind es (d_tree d) /\
  match d_constraints d with Some t => constraints_text es cs t | None => cs = [] end /\ names_known es cs /\ inhabited_groups es /\
  stated_configuration es cs sel /\
  exists k, forall fuel, k <= fuel -> exists h' m, read_sxfm ord sci order' fuel or_first h d = SxDone (h', Some m) /\
    (forall a, ~ SolverSpec.valid h' m a) /\ forall ord' fuel', SolverModel.load ord' fuel' h' m = None.
Proof. exact negated_refuted. Qed.
Print Assumptions C58_negation_refuted.

(** Hypotheses are met. *)
Example C58_example :
  is_order order /\ (forall l : list (nat * (text * rkind)), Permutation (rev l) l) /\ heap_ok heap0 /\ indentation_ok tab /\
  (forall e, In e entries1 -> entry_ok e /\ id_apart e) /\ tree_ok entries1 /\ tree_text tab entries1 text1 /\ constraints_text entries1 [formula20] constraints20 /\
  names_known entries1 [formula20] /\ inhabited_groups entries1 /\ (forall c, In c [formula20] -> ~ negates c) /\
  stated_configuration entries1 [formula20] sel20 /\ ~ stated_configuration entries1 [formula20] sel21 /\
  (let row a f := map Some ["true"; "true"; "true"; "true"; a; f; "true"; "true"] in listing20 = Some [row "false" "true"; row "true" "false"]).
Proof. exact stated_example. Qed.
Example C58_negated_example : constraints_text entries1 [formula1] constraints1 /\ names_known entries1 [formula1] /\ negates formula1.
Proof. exact (conj constraints1_ok (conj known1 negates1)). Qed.
