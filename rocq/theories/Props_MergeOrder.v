(** Property C85: the order of merging. *)
From Coq Require Import List ZArith Arith Bool Ascii String Permutation.
From Verif Require Import Text ConfigurationModel FeatureTreeModel FeatureTreeSpec FeatureTreeExamples FeatureTransactionModel FeatureEditSpec FeatureTransactionSpec FeatureTransactionExamples FeatureCloneSpec FeatureMergeSpec FeatureMergeExamples
  SolverModel SolverSpec XmlModel XmlSpec ValidSpec MergeValidSpec MergeAgainSpec MergeOrderSpec MergeOrderFinal MergeOrderExamples.
Import ListNotations.
Local Open Scope string_scope.
Local Open Scope list_scope.

(** ** C85 *)
(** In strict mode, models without groups and constraints can be merged either way round: both
    merges succeed with the same features in the same places and the same configurations. *)
Theorem C85_strict_merging_either_way :
  forall ord ord' map_order map_order' h m1 m2 t1 t2, is_order ord -> is_order ord' -> (forall l, Permutation (map_order l) l) -> (forall l, Permutation (map_order' l) l) ->
  represents h m1 t1 -> represents h m2 t2 -> root_name_free m1 -> root_name_free m2 -> root_shared m1 m2 -> mergeable true h m1 m2 -> all_of_known_kind h m1 -> names_apart m1 m2 -> bare m1 -> bare m2 ->
  exists h1 n1 h2 n2, merge_models ord map_order h m1 m2 true = Some (h1, Some n1) /\ merge_models ord' map_order' h m2 m1 true = Some (h2, Some n2) /\ same_features h1 n1 h2 n2 /\
    (listed h m1 -> listed h m2 -> forall a, SolverSpec.valid h2 n2 a <-> SolverSpec.valid h1 n1 a).
Proof. exact merge_either_way. Qed.
Print Assumptions C85_strict_merging_either_way.

(** With a group in one of the models, the configurations depend on which model comes first. *)
Theorem C85_groups_either_way_refuted : exists ord map_order h m1 m2 t1 t2 h1 n1 h2 n2 a,
  is_order ord /\ (forall l, Permutation (map_order l) l) /\ represents h m1 t1 /\ represents h m2 t2 /\ root_name_free m1 /\ root_name_free m2 /\ root_shared m1 m2 /\ mergeable true h m1 m2 /\ all_of_known_kind h m1 /\ names_apart m1 m2 /\ bare m1 /\
  merge_models ord map_order h m1 m2 true = Some (h1, Some n1) /\ merge_models ord map_order h m2 m1 true = Some (h2, Some n2) /\
  SolverSpec.valid h2 n2 a /\ ~ SolverSpec.valid h1 n1 a.
Proof. exact groups_ordered. Qed.
Print Assumptions C85_groups_either_way_refuted.

(** Not in strict mode, a feature of both models has the kind it has in the model that comes first. *)
Theorem C85_kinds_either_way_refuted : exists ord map_order h m1 m2 t1 t2 h1 n1 h2 n2 s i f j g,
  is_order ord /\ (forall l, Permutation (map_order l) l) /\ represents h m1 t1 /\ represents h m2 t2 /\ root_name_free m1 /\ root_name_free m2 /\ root_shared m1 m2 /\ mergeable false h m1 m2 /\ all_of_known_kind h m1 /\ names_apart m1 m2 /\ bare m1 /\ bare m2 /\
  merge_models ord map_order h m1 m2 false = Some (h1, Some n1) /\ merge_models ord map_order h m2 m1 false = Some (h2, Some n2) /\
  get_feature n1 s = Some i /\ feature_at h1 i = Some f /\ get_feature n2 s = Some j /\ feature_at h2 j = Some g /\ f_kind f <> f_kind g.
Proof. exact kinds_ordered. Qed.
Print Assumptions C85_kinds_either_way_refuted.

(** Two models that share the root and a feature q with different source ranges, and add a
    feature a, and a numeric feature d and a feature e. *)
Example C85_example_hypotheses :
  represents heap86 model86 tree86 /\ represents heap86 model87 tree87 /\ root_name_free model86 /\ root_name_free model87 /\ root_shared model86 model87 /\ mergeable true heap86 model86 model87 /\
  all_of_known_kind heap86 model86 /\ names_apart model86 model87 /\ bare model86 /\ bare model87 /\ listed heap86 model86 /\ listed heap86 model87.
Proof. exact either_example. Qed.
Example C85_example_merged :
  shown_merge heap86 model86 model87 =
    Some [(T "a", Some (T "q"), []); (T "q", Some (T "r"), [T "l"; T "j"; T "k"]); (T "r", None, []); (T "e", Some (T "r"), []); (T "d", Some (T "q"), [T "w"])] /\
  shown_merge heap86 model87 model86 =
    Some [(T "e", Some (T "r"), []); (T "d", Some (T "q"), [T "w"]); (T "q", Some (T "r"), [T "k"; T "l"; T "j"]); (T "r", None, []); (T "a", Some (T "q"), [])].
Proof. exact shown86. Qed.
