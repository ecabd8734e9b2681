(** Properties of the outcome of the model builder (C67). *)
From Coq Require Import List ZArith Arith Bool Ascii String Permutation Lia.
From Verif Require Import Text ConstraintModel ConstraintSpec SourceRangeModel FeatureTreeModel FeatureTreeSpec FeatureTreeExamples
  FeatureTransactionModel FeatureEditSpec FeatureTransactionSpec FeatureTransactionExamples FeatureBuildSpec FeatureBuildExamples
  OutcomeSpec OutcomeProofs OutcomeFinal OutcomeExamples.
Import ListNotations.
Local Open Scope string_scope.
Local Open Scope list_scope.

(** C67: acceptable calls yield a model, and that is linked as the last edges say. *)
Theorem C67_acceptable_calls_are_built :
  forall ord h cs d, is_order ord -> heap_ok h -> regular cs -> acceptable cs d ->
    exists h' m', build_calls ord h cs = Some (h', Some m') /\ linked_as cs d h' m' /\ heap_ok h'.
Proof. exact (fun ord h cs d ord_ok => accepted_builds ord ord_ok h cs d). Qed.
Print Assumptions C67_acceptable_calls_are_built.

Example C67_built_example :
  regular ring /\ acceptable ring ring_decl /\ ~ rooted ring ring_decl /\
  exists h' m', build_calls order heap0 ring = Some (h', Some m') /\ consistent h' m' = Some true /\ ~ tree_shaped h' m' /\
    map fst (m_features m') = [T "root"; T "a"; T "b"; T "c"].
Proof. exact ring_built. Qed.

(** A group of an undeclared feature is undefined behaviour, unless something was wrong
    before it. *)
Theorem C67_groups_of_undeclared_features_are_undefined :
  forall ord h cs, is_order ord -> heap_ok h -> regular cs -> misgrouped cs -> build_calls ord h cs = None.
Proof. exact (fun ord h cs ord_ok => misgrouped_undefined ord ord_ok h cs). Qed.
Print Assumptions C67_groups_of_undeclared_features_are_undefined.

(** Everything else yields null. *)
Theorem C67_all_other_calls_yield_null :
  forall ord h cs, is_order ord -> heap_ok h -> regular cs -> (forall d, ~ acceptable cs d) -> ~ misgrouped cs ->
    exists h', build_calls ord h cs = Some (h', None).
Proof. exact (fun ord h cs ord_ok => otherwise_null ord ord_ok h cs). Qed.
Print Assumptions C67_all_other_calls_yield_null.

Example C67_failure_example :
  regular lost /\ misgrouped lost /\ build_calls order heap0 lost = None /\
  regular lost2 /\ (forall d, ~ acceptable lost2 d) /\ ~ misgrouped lost2 /\ exists h', build_calls order heap0 lost2 = Some (h', None).
Proof. exact lost_outcomes. Qed.

(** The three cases cover all calls, and acceptable calls are not misgrouped. *)
Theorem C67_cases :
  forall cs, regular cs ->
    ((exists d, acceptable cs d) \/ misgrouped cs \/ ((forall d, ~ acceptable cs d) /\ ~ misgrouped cs)) /\
    (forall d, acceptable cs d -> ~ misgrouped cs).
Proof. exact (fun cs R => conj (cases_cover cs R) (acceptable_not_misgrouped cs)). Qed.
Print Assumptions C67_cases.

(** The model is a tree exactly if no edge leads to the root and all features are below
    the root. *)
Theorem C67_trees_exactly_if_rooted :
  forall ord h cs d h' m', is_order ord -> heap_ok h -> regular cs -> acceptable cs d -> build_calls ord h cs = Some (h', Some m') ->
    (tree_shaped h' m' <-> rooted cs d).
Proof. exact (fun ord h cs d h' m' ord_ok => trees_exactly ord ord_ok h cs d h' m'). Qed.
Print Assumptions C67_trees_exactly_if_rooted.

Example C67_root_below_a_child :
  exists h' m' r c, build_calls order heap0 under = Some (h', Some m') /\ m_root m' = Some r /\ h_cells h' r = Some c /\
    n_parent c = get_feature m' (T "a") /\ n_parent c <> None.
Proof. exact under_built. Qed.

(** That it is always a tree is false: the builder and the consistency rules accept edges
    in a circle. *)
Theorem C67_built_models_are_trees_refuted :
  exists h cs d h' m', heap_ok h /\ regular cs /\ acceptable cs d /\ build_calls order h cs = Some (h', Some m') /\
    consistent h' m' = Some true /\ ~ tree_shaped h' m'.
Proof. exact built_not_tree. Qed.
Print Assumptions C67_built_models_are_trees_refuted.
