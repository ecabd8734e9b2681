(** Properties of copy transactions, cloning and the model builder (C31, C32, C37). *)
From Coq Require Import List ZArith Arith Bool Ascii String Permutation Lia.
From Verif Require Import Text ConstraintModel ConstraintSpec SourceRangeModel FeatureTreeModel FeatureTreeSpec FeatureTreeExamples
  FeatureTransactionModel FeatureEditSpec FeatureTransactionSpec FeatureTransactionExamples FeatureIsolationProofs FeatureBuildSpec FeatureBuildFinal
  FeatureCloneSpec FeatureCloneProofs FeatureBuildExamples.
Import ListNotations.
Local Open Scope string_scope.
Local Open Scope list_scope.

(** C31: whatever is called in a copy transaction, every cell that existed before it was
    opened stays as it is, and everything the working copy consists of or points to
    is new. *)
Theorem C31_copies_are_apart :
  forall ord map_order h m h1 t1 os h2 t2,
    is_order ord -> heap_ok h -> open_copy ord map_order h m = Some (h1, t1) -> copy_run ord os h1 t1 = Some (h2, t2) ->
    heap_ok h2 /\ (forall i, i < h_next h -> h_cells h2 i = h_cells h i) /\
    (forall m', x_copy t2 = Some m' ->
      (forall i, In i (nodes m') -> h_next h <= i) /\
      (forall i c j, h_next h <= i -> h_cells h2 i = Some c -> n_parent c = Some j \/ In j (n_edges c) -> h_next h <= j)).
Proof. exact copy_isolated. Qed.
Print Assumptions C31_copies_are_apart.

(** The original is the same tree afterwards, with the same content in every node. *)
Theorem C31_the_original_stays :
  forall ord map_order h m t h1 t1 os h2 t2,
    is_order ord -> represents h m t -> open_copy ord map_order h m = Some (h1, t1) -> copy_run ord os h1 t1 = Some (h2, t2) ->
    represents h2 m t /\ forall i, In i (ids t) -> h_cells h2 i = h_cells h i.
Proof. exact copy_keeps_original. Qed.
Print Assumptions C31_the_original_stays.

Example C31_example :
  is_order order /\ represents heap1 model1 tree1 /\
  (let* (h1, t1) := open_copy order (fun l => l) heap1 model1 in
   let* (h2, t2) := copy_run order [OAddFeature feature_x None; ORemoveFeature (ByName (T "B")) true; OSetName (T "other")] h1 t1 in
   let* m := x_copy t2 in
   let* b := name_at h2 2 in
   Some (m_name m, get_feature m (T "B"), get_feature m (T "x"), h_next h1, m_name model1, b))
  = Some (T "other", None, Some 12, 12, T "m", T "B").
Proof. split; [exact order_ok|]. split; [exact represents1|]. vm_compute. reflexivity. Qed.

(** C32: a clone has the same names, attributes, parents, groups and constraints and
    keeps of each feature what [kept] says, for every order in which the hash map of
    features is iterated.  All mentions in constraints must be names of features, and
    no feature but the root may be called "root". *)
Theorem C32_clones :
  forall ord map_order h m t,
    is_order ord -> (forall l, Permutation (map_order l) l) -> represents h m t -> all_connected h m -> root_name_free m ->
    exists h' m', clone_model ord map_order h m = Some (h', m') /\ cloned h m h' m' /\ heap_ok h'.
Proof. exact (fun ord map_order h m t ord_ok map_ok R conn free => model_cloned ord ord_ok map_order map_ok h m t R conn free). Qed.
Print Assumptions C32_clones.

Example C32_example :
  represents heap6 model6 tree6 /\ all_connected heap6 model6 /\ root_name_free model6 /\
  exists h' m', clone_model order (@rev _) heap6 model6 = Some (h', m') /\
    map fst (m_features m') = [T "b"; T "c"; T "n"; T "a"; T "r"] /\ get_feature m' (T "r") = m_root m' /\
    (let* i := get_feature m' (T "n") in let* f := feature_at h' i in Some (f_output f, f_optional f)) = Some ([], true) /\
    (let* i := get_feature model6 (T "n") in let* f := feature_at heap6 i in Some (f_output f, f_optional f)) = Some (T "-n", true).
Proof. exact clone_example. Qed.

(** If a feature other than the root is called "root" it depends on the order of the
    hash map whether the clone is the null pointer. *)
Theorem C32_cloning_depends_on_the_hash_order_refuted :
  exists h m t h' m', represents h m t /\ all_connected h m /\
    clone_model (fun l => l) (fun l => l) h m = Some (h', m') /\ clone_model (fun l => l) (@rev _) h m = None.
Proof. exact clone_order_refuted. Qed.
Print Assumptions C32_cloning_depends_on_the_hash_order_refuted.

(** C37: if the calls describe a tree, the built model is as described. *)
Theorem C37_the_described_model_is_built :
  forall ord h cs d, is_order ord -> heap_ok h -> describes cs d ->
    exists h' m', build_calls ord h cs = Some (h', Some m') /\ as_described cs d h' m' /\ heap_ok h'.
Proof. exact (fun ord h cs d ord_ok => built ord ord_ok h cs d). Qed.
Print Assumptions C37_the_described_model_is_built.

(** A name that is declared twice yields null. *)
Theorem C37_duplicate_names_yield_null :
  forall ord h a c b d, heap_ok h -> declares (default_root, []) a d -> (forall x, In x a -> ordinary x) -> clashes d c ->
    exists h', build_calls ord h (a ++ c :: b) = Some (h', None).
Proof. exact build_clash. Qed.
Print Assumptions C37_duplicate_names_yield_null.

(** An edge from or to an undeclared name, or to the feature itself, yields null. *)
Theorem C37_bad_edges_yield_null :
  forall ord h a p s b d, heap_ok h -> declares (default_root, []) (a ++ BEdge p s :: b) d ->
    (forall x, In x (a ++ BEdge p s :: b) -> ordinary x) -> (forall c, In c a -> edge_ok d c) -> ~ taken d p \/ ~ taken d s \/ p = s ->
    exists h', build_calls ord h (a ++ BEdge p s :: b) = Some (h', None).
Proof. exact build_bad_edge. Qed.
Print Assumptions C37_bad_edges_yield_null.

(** A constraint that mentions an undeclared name yields null. *)
Theorem C37_bad_constraints_yield_null :
  forall ord h a k c d s, is_order ord -> heap_ok h -> describes a d ->
    (forall r, In r (leaves c) -> exists x, r = Own x) -> In (Own s) (leaves c) -> ~ taken d s ->
    exists h', build_calls ord h (a ++ [BConstraint k c]) = Some (h', None).
Proof. exact (fun ord h a k c d s ord_ok => build_bad_constraint ord ord_ok h a k c d s). Qed.
Print Assumptions C37_bad_constraints_yield_null.

(** A group of an undeclared name dereferences a null pointer. *)
Theorem C37_groups_of_undeclared_names_are_undefined :
  forall ord h a k p d, is_order ord -> heap_ok h -> describes a d -> ~ taken d p ->
    build_calls ord h (a ++ [BRelationship k p]) = None.
Proof. exact (fun ord h a k p d ord_ok => build_bad_group ord ord_ok h a k p d). Qed.
Print Assumptions C37_groups_of_undeclared_names_are_undefined.

Example C37_example :
  heap_ok heap0 /\ describes calls7 decl7 /\
  exists h' m', build_calls order heap0 calls7 = Some (h', Some m') /\
    map fst (m_features m') = [T "a"; T "b"; T "c"; T "r"] /\ m_name m' = T "model" /\
    (let* i := get_feature m' (T "b") in let* q := parent_feature h' i in let* p := q in name_at h' p) = Some (T "a").
Proof. exact build_example. Qed.
Example C37_failing_examples :
  clashes decl7 (BFeature (bin7 "b")) /\ ~ taken decl7 (T "z") /\
  (exists h, build_calls order heap0 (calls7 ++ [BFeature (bin7 "b")]) = Some (h, None)) /\
  (exists h, build_calls order heap0 (calls7 ++ [BEdge (T "z") (T "b")]) = Some (h, None)) /\
  (exists h, build_calls order heap0 (calls7 ++ [BConstraint KBoolean (CFeat (Own (T "z")))]) = Some (h, None)) /\
  build_calls order heap0 (calls7 ++ [BRelationship ROr (T "z")]) = None.
Proof. exact build_failing_examples. Qed.
