(** Property C72: the configurations of merged models. *)
From Coq Require Import List ZArith Arith Bool Ascii String Permutation.
From Verif Require Import Text ConfigurationModel FeatureTreeModel FeatureTreeSpec FeatureTreeExamples FeatureTransactionModel FeatureEditSpec FeatureTransactionSpec FeatureCloneSpec FeatureMergeSpec
  SolverModel SolverSpec XmlModel XmlSpec ValidSpec MergeValidSpec MergeValidFinal MergeValidExamples.
Import ListNotations.
Local Open Scope string_scope.
Local Open Scope list_scope.

(** The valid configurations of the merged model are those of the first model that obey the
    rules of the new features. *)
Theorem C72_merged_configurations :
  forall ord map_order, is_order ord -> (forall l, Permutation (map_order l) l) ->
  forall h m1 m2 t1 t2 strict, represents h m1 t1 -> represents h m2 t2 -> all_resolved m1 -> root_name_free m1 -> neat h m1 -> listed h m1 -> root_shared m1 m2 -> mergeable strict h m1 m2 ->
  exists h' m', merge_models ord map_order h m1 m2 strict = Some (h', Some m') /\
    forall a, SolverSpec.valid h' m' a <-> SolverSpec.valid h m1 a /\ new_rules h m1 m2 a.
Proof. exact merged_valid. Qed.
Print Assumptions C72_merged_configurations.

(** Each valid configuration of the first model extends to one of the merged model. *)
Theorem C72_configurations_extend :
  forall ord map_order, is_order ord -> (forall l, Permutation (map_order l) l) ->
  forall h m1 m2 t1 t2 strict, represents h m1 t1 -> represents h m2 t2 -> all_resolved m1 -> root_name_free m1 -> neat h m1 -> listed h m1 -> root_shared m1 m2 -> mergeable strict h m1 m2 ->
  (forall s j g v st, get_feature m1 s = None -> get_feature m2 s = Some j -> feature_at h j = Some g -> f_kind g = FNumeric v st -> exists z vs, v = VList (z :: vs)) ->
  exists h' m', merge_models ord map_order h m1 m2 strict = Some (h', Some m') /\
    forall a, SolverSpec.valid h m1 a -> exists b, SolverSpec.valid h' m' b /\ forall s, FeatureMergeSpec.known m1 s -> a_bool b s = a_bool a s /\ a_int b s = a_int a s.
Proof. exact merged_extends. Qed.
Print Assumptions C72_configurations_extend.

(** Merging in strict mode with a model of features only, whose values are listed, gives exactly the
    configurations that are valid in both models. *)
Theorem C72_configurations_of_both_models :
  forall ord map_order, is_order ord -> (forall l, Permutation (map_order l) l) ->
  forall h m1 m2 t1 t2 strict, represents h m1 t1 -> represents h m2 t2 -> all_resolved m1 -> root_name_free m1 -> neat h m1 -> listed h m1 -> root_shared m1 m2 -> mergeable strict h m1 m2 ->
  strict = true -> names_apart m1 m2 -> bare m2 -> listed h m2 ->
  exists h' m', merge_models ord map_order h m1 m2 strict = Some (h', Some m') /\
    forall a, SolverSpec.valid h' m' a <-> SolverSpec.valid h m1 a /\ SolverSpec.valid h m2 a.
Proof. exact merged_both. Qed.
Print Assumptions C72_configurations_of_both_models.
Example C72_example :
  represents heap72 model72 tree72 /\ represents heap72 model73 tree73 /\ all_resolved model72 /\ root_name_free model72 /\ neat heap72 model72 /\ listed heap72 model72 /\ root_shared model72 model73 /\
  mergeable true heap72 model72 model73 /\ names_apart model72 model73 /\ bare model73 /\ listed heap72 model73 /\
  (forall s j g v st, get_feature model72 s = None -> get_feature model73 s = Some j -> feature_at heap72 j = Some g -> f_kind g = FNumeric v st -> exists z vs, v = VList (z :: vs)) /\
  SolverSpec.valid heap72 model72 config72 /\ SolverSpec.valid heap72 model73 config72.
Proof.
  exact (conj (proj1 represents72) (conj (proj2 represents72) (conj resolved72 (conj free72 (conj neat72 (conj listed72 (conj shared72
    (conj mergeable72 (conj apart72 (conj bare73 (conj listed73 (conj full73 valid72)))))))))))).
Qed.

(** With groups in the second model this fails: its alternatives become mandatory features, and
    no valid configuration of the merged model is one of the second model. *)
Theorem C72_alternatives_of_the_second_model_refuted : exists ord map_order h m1 m2 t1 t2 a h' m',
  is_order ord /\ (forall l, Permutation (map_order l) l) /\ represents h m1 t1 /\ represents h m2 t2 /\ all_resolved m1 /\ root_name_free m1 /\ root_shared m1 m2 /\ mergeable true h m1 m2 /\
  SolverSpec.valid h m1 a /\ SolverSpec.valid h m2 a /\
  merge_models ord map_order h m1 m2 true = Some (h', Some m') /\ forall b, SolverSpec.valid h' m' b -> ~ SolverSpec.valid h m2 b.
Proof. exact alternatives_lost. Qed.
Print Assumptions C72_alternatives_of_the_second_model_refuted.
