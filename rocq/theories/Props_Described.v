(** Property C55: models have the configurations their description has. *)
From Coq Require Import List ZArith NArith Arith Bool Ascii String.
From Verif Require Import Text ConstraintModel ConstraintSpec FeatureTreeModel FeatureTreeSpec FeatureTransactionModel FeatureTransactionSpec FeatureEditSpec FeatureTransactionExamples FeatureBuildSpec FeatureBuildExamples
  SxfmModel SxfmExamples XmlModel XmlSpec XmlExamples ConfigurationModel SolverModel SolverSpec SolverExamples DescribedSpec DescribedFinal DescribedExamples.
Import ListNotations.
Local Open Scope string_scope.
Local Open Scope list_scope.
Local Open Scope nat_scope.

(** The calls build a model; the assignments valid for it are exactly those that satisfy the
    description. *)
Theorem C55_built_models_have_the_described_configurations :
  forall ord h cs d, is_order ord -> heap_ok h -> describes cs d ->
  exists h' m', build_calls ord h cs = Some (h', Some m') /\ forall a, SolverSpec.valid h' m' a <-> configures cs d (requested cs) a.
Proof. exact built_valid. Qed.
Print Assumptions C55_built_models_have_the_described_configurations.

(** The enumeration of the model built lists each configuration of the description once, or
    reports that there is none. *)
Theorem C55_built_models_are_enumerated_as_described :
  forall ord ord' check h cs d, is_order ord -> is_order ord' -> heap_ok h -> describes cs d -> settled cs d (requested cs) ->
  exists h' m', build_calls ord h cs = Some (h', Some m') /\ exists N, forall fuel, N <= fuel -> exists s, SolverModel.load ord' fuel h' m' = Some s /\
    (decides check (s_vars s) (s_asserted s) -> exists M, forall fuel', M <= fuel' -> answers d (configures cs d (requested cs)) (get_all check fuel' s)).
Proof. exact built_enumerated. Qed.
Print Assumptions C55_built_models_are_enumerated_as_described.

(** The document is read; the assignments valid for the model are exactly those that satisfy
    the description, with alternatives where all children are mandatory and exclude each other. *)
Theorem C55_documents_have_the_described_configurations :
  forall ord sci step cwd h e cs d, is_order ord -> heap_ok h -> XmlModel.valid e = true -> stands sci step cwd e cs -> describes cs d ->
  exists h' m', read_xml ord sci step cwd h e = SxDone (h', Some m') /\ forall a, SolverSpec.valid h' m' a <-> configures cs d (found cs d) a.
Proof. exact read_valid. Qed.
Print Assumptions C55_documents_have_the_described_configurations.

(** The enumeration of the model read lists each configuration of the description once, or
    reports that there is none. *)
Theorem C55_documents_are_enumerated_as_described :
  forall ord ord' check sci step cwd h e cs d, is_order ord -> is_order ord' -> heap_ok h -> XmlModel.valid e = true -> stands sci step cwd e cs -> describes cs d -> settled cs d (found cs d) ->
  exists h' m', read_xml ord sci step cwd h e = SxDone (h', Some m') /\ exists N, forall fuel, N <= fuel -> exists s, SolverModel.load ord' fuel h' m' = Some s /\
    (decides check (s_vars s) (s_asserted s) -> exists M, forall fuel', M <= fuel' -> answers d (configures cs d (found cs d)) (get_all check fuel' s)).
Proof. exact read_enumerated. Qed.
Print Assumptions C55_documents_are_enumerated_as_described.

(** The root with p, an optional x and n in 1, -2, 3; p has the alternatives a and b; all kinds
    of constraints; six configurations. *)
Example C55_example :
  is_order order /\ heap_ok heap0 /\ XmlModel.valid doc16 = true /\ stands no_sci no_step (T "/tmp") doc16 calls16 /\ describes calls16 decl16 /\ settled calls16 decl16 (found calls16 decl16) /\
  found calls16 decl16 (T "p") RAlternative /\ describes built16 decl16 /\ settled built16 decl16 (requested built16) /\
  (let row a b x n := [Some "true"; Some a; Some b; Some x; Some n] in
   let l := [row "true" "false" "true" "1"; row "true" "false" "false" "1"; row "true" "false" "false" "(- 2)"; row "false" "true" "true" "1"; row "false" "true" "false" "1"; row "false" "true" "false" "(- 2)"] in
   listing16 read16 = Some l /\ listing16 made16 = Some l).
Proof. exact described_example. Qed.
