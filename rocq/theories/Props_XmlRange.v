(** Properties of the numeric options of XML documents (C71). *)
From Coq Require Import List ZArith NArith Arith Bool Ascii String Permutation Lia.
From Verif Require Import Text NumSpec ConstraintModel ConstraintSpec StepFunctionModel StepFunctionSpec DoubleModel DoubleSpec FeatureTreeModel FeatureTreeSpec FeatureTransactionModel FeatureTransactionExamples FeatureEditSpec FeatureBuildSpec FeatureBuildExamples
  SxfmModel XmlModel XmlWriterModel XmlSpec ConfigurationModel SolverModel SolverSpec DescribedSpec DoubleFinal XmlRangeSpec XmlRangeProofs XmlRangeExamples.
Import ListNotations.
Local Open Scope string_scope.
Local Open Scope list_scope.
Local Open Scope Z_scope.

(** C71: in every valid configuration a numeric option has one of the values written, and it
    can have each of them if no constraint mentions it. *)
Theorem C71_options_have_the_written_values :
  forall ord pow cwd h e cs d, let step := read_step (double_arith pow) double_value in
  is_order ord -> heap_ok h -> XmlModel.valid e = true -> stands sci_double step cwd e cs -> describes cs d ->
  exists h' m', read_xml ord sci_double step cwd h e = SxDone (h', Some m') /\ forall o P, numeric_option e o -> takes o P ->
    (forall a, SolverSpec.valid h' m' a -> P (a_int a (option_name o))) /\
    (unmentioned cs (option_name o) -> forall a z, SolverSpec.valid h' m' a -> P z -> SolverSpec.valid h' m' (with_number (option_name o) z a)).
Proof. exact (fun ord pow cwd h e cs d ord_ok => document_values pow ord ord_ok cwd h e cs d). Qed.
Print Assumptions C71_options_have_the_written_values.

(** If all numeric options are such, every range is left, as the enumeration of the
    configurations needs it. *)
Theorem C71_ranges_are_left :
  forall pow cwd e cs d, let step := read_step (double_arith pow) double_value in
  stands sci_double step cwd e cs -> describes cs d -> (forall o, numeric_option e o -> exists P, takes o P) ->
  forall f v st, In f (snd d) -> f_kind f = FNumeric v st -> leaves_range v st.
Proof. exact document_ranges. Qed.
Print Assumptions C71_ranges_are_left.

Theorem C71_documents_are_enumerated :
  forall ord ord' check pow cwd h e cs d, let step := read_step (double_arith pow) double_value in
  is_order ord -> is_order ord' -> heap_ok h -> XmlModel.valid e = true -> stands sci_double step cwd e cs -> describes cs d ->
  (forall o, numeric_option e o -> exists P, takes o P) -> plain cs d ->
  exists h' m', read_xml ord sci_double step cwd h e = SxDone (h', Some m') /\ exists N, forall fuel, (N <= fuel)%nat -> exists s, SolverModel.load ord' fuel h' m' = Some s /\
    (decides check (s_vars s) (s_asserted s) -> exists M, forall fuel', (M <= fuel')%nat -> answers d (configures cs d (found cs d)) (get_all check fuel' s)).
Proof. exact (fun ord ord' check pow => document_enumerated pow ord ord' check). Qed.
Print Assumptions C71_documents_are_enumerated.

Example C71_example :
  heap_ok heap0 /\ XmlModel.valid doc71 = true /\ stands sci_double step71 (T "/tmp") doc71 calls71 /\ describes calls71 decl71 /\
  numeric_option doc71 option_n /\ takes option_n (fun v => exists j, 0 <= j /\ v = -10 + j * 20 /\ v <= 45)%Z /\ unmentioned calls71 (T "n") /\
  numeric_option doc71 option_g /\ takes option_g (fun v => exists j, 0 <= j /\ v = 2 * 3 ^ j /\ v <= 100)%Z /\
  numeric_option doc71 option_l /\ takes option_l (fun v => In v [1; -2; 3]%Z) /\ forall o, numeric_option doc71 o -> exists P, takes o P.
Proof. exact range_example. Qed.
Example C71_plain_example : plain calls71 decl71.
Proof. exact plain71. Qed.

(** Decimal places are not refused, but misread: the range from 0.5 to 10 is empty, and the
    values 0.5 and 1.5 are 0, 1 and 5. *)
Theorem C71_decimals_are_refused_refuted :
  exists range list pow, let step := read_step (double_arith pow) double_value in filled "minValue" (elems range) = [leaf_elem "minValue" (T "0.5")] /\ filled "maxValue" (elems range) = [leaf_elem "maxValue" (T "10")] /\
    filled "values" (elems list) = [leaf_elem "values" (T "0.5;1.5")] /\
    (forall ord h, is_order ord -> heap_ok h -> exists h' m', read_xml ord sci_double step (T "/tmp") h (doc72 range) = SxDone (h', Some m') /\ forall a, ~ SolverSpec.valid h' m' a) /\
    (forall ord h, is_order ord -> heap_ok h -> exists h' m', read_xml ord sci_double step (T "/tmp") h (doc72 list) = SxDone (h', Some m') /\ exists a, SolverSpec.valid h' m' a /\ a_int a (T "n") = 5).
Proof. exact (ex_intro _ option_half (ex_intro _ option_split (ex_intro _ exact_pow (conj eq_refl (conj eq_refl (conj eq_refl decimals_misread)))))). Qed.
Print Assumptions C71_decimals_are_refused_refuted.
