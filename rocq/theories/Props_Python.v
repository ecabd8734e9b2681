(** Properties of the Python bindings (C70). *)
From Coq Require Import List ZArith Arith Bool Ascii String Permutation Lia.
From Verif Require Import Text ConstraintModel ConstraintSpec SourceRangeModel FeatureTreeModel FeatureTreeSpec FeatureTreeExamples FeatureTransactionModel FeatureEditSpec FeatureTransactionSpec FeatureTransactionExamples
  FeatureBuildSpec FeatureBuildExamples OutcomeSpec SolverModel SolverSpec DescribedSpec EditCallModel EditCallSpec EditCallProofs PyModel PySpec PyProofs PyExamples.
Import ListNotations.
Local Open Scope string_scope.
Local Open Scope list_scope.

(** C70: the builder of the Python bindings builds what is asked for, except that all
    features are mandatory. *)
Theorem C70_built_as_asked_but_mandatory :
  forall ord h ps cs d, is_order ord -> heap_ok h -> Forall2 (wants h) ps cs -> NoDup (map fst (requests cs)) -> acceptable cs d ->
  exists h' m', py_build ord h ps = Some (h', Some m') /\ linked_as (map mandatory_call cs) (mandatory_decl d) h' m' /\
    forall f, In f (snd d) -> exists i g, get_feature m' (f_name f) = Some i /\ feature_at h' i = Some g /\ f_kind g = f_kind f /\ f_optional g = false.
Proof. exact (fun ord h ps cs d ord_ok => python_built ord ord_ok h ps cs d). Qed.
Print Assumptions C70_built_as_asked_but_mandatory.
Theorem C70_configurations :
  forall ord h ps cs d, is_order ord -> heap_ok h -> Forall2 (wants h) ps cs -> describes cs d ->
  exists h' m', py_build ord h ps = Some (h', Some m') /\ forall a, SolverSpec.valid h' m' a <-> configures (map mandatory_call cs) (mandatory_decl d) (requested cs) a.
Proof. exact (fun ord h ps cs d ord_ok => python_configurations ord ord_ok h ps cs d). Qed.
Print Assumptions C70_configurations.
Example C70_example :
  heap_ok heap0 /\ Forall2 (wants heap0) py7 calls7 /\ NoDup (map fst (requests calls7)) /\ acceptable calls7 decl7 /\ describes calls7 decl7 /\
  exists h' m', py_build order heap0 py7 = Some (h', Some m') /\ map fst (m_features m') = [T "a"; T "b"; T "c"; T "r"].
Proof. exact python_example. Qed.

(** That optional features are optional is false: configurations are lost. *)
Theorem C70_optional_features_are_optional_refuted :
  exists ps cs d a h' m', heap_ok heap0 /\ Forall2 (wants heap0) ps cs /\ describes cs d /\ py_build order heap0 ps = Some (h', Some m') /\
    configures cs d (requested cs) a /\ ~ SolverSpec.valid h' m' a.
Proof. exact optional_lost. Qed.
Print Assumptions C70_optional_features_are_optional_refuted.

(** Null, and undefined behaviour: as for the builder, and for relations other than OR
    and XOR. *)
Theorem C70_null :
  forall ord h ps cs, is_order ord -> heap_ok h -> Forall2 (wants h) ps cs -> NoDup (map fst (requests cs)) -> (forall d, ~ acceptable cs d) -> ~ misgrouped cs ->
  exists h', py_build ord h ps = Some (h', None).
Proof. exact (fun ord h ps cs ord_ok => python_null ord ord_ok h ps cs). Qed.
Print Assumptions C70_null.
Theorem C70_undefined :
  forall ord h ps, is_order ord -> heap_ok h ->
  (exists p s, In (PyGroup p s) ps /\ s <> T "OR" /\ s <> T "XOR") \/ (exists cs, Forall2 (wants h) ps cs /\ NoDup (map fst (requests cs)) /\ misgrouped cs) ->
  py_build ord h ps = None.
Proof. exact (fun ord h ps ord_ok => python_undefined ord ord_ok h ps). Qed.
Print Assumptions C70_undefined.
Example C70_undefined_example : In (PyGroup (T "r") (T "AND")) [PyRoot (T "r"); PyGroup (T "r") (T "AND")] /\ T "AND" <> T "OR" /\ T "AND" <> T "XOR".
Proof. exact relation_example. Qed.

(** Features added from Python to a model that exists keep whether they are optional, their
    values and their locations. *)
Theorem C70_features_are_added_as_given :
  forall ord h m t p s k opt locs, represents h m t -> In p (map snd (m_features m)) -> get_feature m s = None ->
  (k = FBinary \/ exists v, k = FNumeric v None) ->
  exists h' m' i g, (match k with FNumeric v _ => py_add_numeric ord p s v opt locs (h, m) | _ => py_add_binary ord p s opt locs (h, m) end) = Some (h', m') /\
    get_feature m' s = Some i /\ feature_at h' i = Some g /\ f_kind g = k /\ f_optional g = opt /\ f_locations g = locs /\ parent_feature h' i = Some (Some p) /\ tree_shaped h' m'.
Proof. exact python_adds. Qed.
Print Assumptions C70_features_are_added_as_given.
Example C70_add_example : represents heap1 model1 tree1 /\ In 2 (map snd (m_features model1)) /\ get_feature model1 (T "x") = None.
Proof. exact (conj represents1 (conj (or_intror (or_introl eq_refl)) eq_refl)). Qed.

(** [remove_feature] and the setter of [commit]. *)
Theorem C70_features_are_removed_as_asked :
  forall ord h m t s f b, is_order ord -> represents h m t -> subtree s t -> rdata s = NFeature f ->
  (b = false -> near (kids s) <> [] -> py_remove ord (rid s) b (h, m) = Some (h, m)) /\
  (b = true \/ near (kids s) = [] -> rid s <> rid t -> exists h' m', py_remove ord (rid s) b (h, m) = Some (h', m') /\ represents h' m' (prune (rid s) t) /\
     forall i, In i (nodes m') <-> In i (nodes m) /\ ~ In i (ids s)) /\
  (b = true \/ near (kids s) = [] -> rid s = rid t -> py_remove ord (rid s) b (h, m) = None).
Proof. exact (fun ord h m t s f b ord_ok => python_removes ord ord_ok h m t s f b). Qed.
Print Assumptions C70_features_are_removed_as_asked.
Theorem C70_the_commit_is_set :
  forall ord h m t s, represents h m t ->
  exists m', py_set_commit ord s (h, m) = Some (h, m') /\ m_commit m' = s /\ m_name m' = m_name m /\ m_path m' = m_path m /\ same_contents m m'.
Proof. exact python_commit. Qed.
Print Assumptions C70_the_commit_is_set.
Example C70_remove_example : represents heap1 model1 tree1 /\ subtree (Node 2 (binary "B") [Node 5 (binary "c") []]) tree1.
Proof. exact (conj represents1 subtree_B). Qed.
