(** Property C36: merging two models. *)
From Coq Require Import List ZArith Arith Bool Ascii String Permutation.
From Verif Require Import Text FeatureTreeModel FeatureTreeSpec FeatureTreeExamples FeatureTransactionModel FeatureEditSpec FeatureTransactionSpec
  FeatureTransactionExamples FeatureBuildSpec FeatureCloneSpec FeatureMergeSpec FeatureMergeResult FeatureMergeExamples.
Import ListNotations.
Local Open Scope string_scope.
Local Open Scope list_scope.

(** ** C36 *)
Theorem C36_merged_model :
  forall ord, is_order ord -> forall map_order, (forall l, Permutation (map_order l) l) ->
  forall h m1 m2 t1 t2 strict, represents h m1 t1 -> represents h m2 t2 -> all_connected h m1 -> root_name_free m1 ->
  root_shared m1 m2 -> mergeable strict h m1 m2 ->
  exists h' m', merge_models ord map_order h m1 m2 strict = Some (h', Some m') /\ merged h m1 m2 h' m' /\ heap_ok h' /\
    forall i, i < h_next h -> h_cells h' i = h_cells h i.
Proof. exact merge_success. Qed.
Print Assumptions C36_merged_model.
Example C36_example :
  represents heap20 model20 tree20 /\ represents heap20 model21 tree21 /\ all_connected heap20 model20 /\ root_name_free model20 /\
  root_shared model20 model21 /\ mergeable false heap20 model20 model21 /\
  (let* (h', o) := merge_models order (@rev _) heap20 model20 model21 false in
   let* m' := o in let* l := shown h' m' in Some (l, List.length (m_relationships m'))) =
  Some ([(T "b", Some (T "r"), []); (T "n", Some (T "a"), []); (T "a", Some (T "r"), [T "x"; T "z"]); (T "r", None, [T "y"]);
         (T "f", Some (T "r"), []); (T "e", Some (T "r"), []); (T "d", Some (T "a"), [T "w"])], 1).
Proof. exact merge_example. Qed.

(** No model results if a feature does not fit; the given models stay as they are. *)
Theorem C36_unlike_features_are_refused :
  forall ord, is_order ord -> forall map_order, (forall l, Permutation (map_order l) l) ->
  forall h m1 m2 t1 t2 strict, represents h m1 t1 -> represents h m2 t2 -> all_connected h m1 -> root_name_free m1 ->
  ~ mergeable strict h m1 m2 ->
  exists h', merge_models ord map_order h m1 m2 strict = Some (h', None) /\ heap_ok h' /\ forall i, i < h_next h -> h_cells h' i = h_cells h i.
Proof. exact merge_refused. Qed.
Print Assumptions C36_unlike_features_are_refused.
Example C36_refused_example :
  represents heap20 model20 tree20 /\ represents heap20 model21 tree21 /\ all_connected heap20 model20 /\ root_name_free model20 /\
  ~ mergeable true heap20 model20 model21.
Proof. exact refuse_example. Qed.

(** If the second root is no feature of the first model the commit fails and its absent
    result is accessed. *)
Theorem C36_unknown_root_is_undefined :
  forall ord, is_order ord -> forall map_order, (forall l, Permutation (map_order l) l) ->
  forall h m1 m2 t1 t2 strict, represents h m1 t1 -> represents h m2 t2 -> all_connected h m1 -> root_name_free m1 ->
  ~ root_shared m1 m2 -> mergeable strict h m1 m2 ->
  exists h1 c h2 c' r c'', open_copy ord map_order h m1 = Some (h1, c) /\ m_root m2 = Some r /\
    merge_subtree ord (S (h_next h)) strict m1 r h1 c = Some (true, h2, c') /\ commit_copy h2 c' = Some (None, c'') /\
    merge_models ord map_order h m1 m2 strict = None.
Proof. exact merge_undefined. Qed.
Print Assumptions C36_unknown_root_is_undefined.
Example C36_undefined_example :
  represents heap22 model20 tree20 /\ represents heap22 model22 tree22 /\ all_connected heap22 model20 /\ root_name_free model20 /\
  ~ root_shared model20 model22 /\ mergeable true heap22 model20 model22.
Proof. exact undefined_example. Qed.

(** The ranges of a shared root are not united. *)
Theorem C36_root_ranges_refuted : exists ord map_order h m1 m2 t1 t2 s i f j g l h' m' i' f',
  is_order ord /\ (forall l, Permutation (map_order l) l) /\ represents h m1 t1 /\ represents h m2 t2 /\ all_connected h m1 /\ root_name_free m1 /\
  root_shared m1 m2 /\ mergeable false h m1 m2 /\
  get_feature m1 s = Some i /\ feature_at h i = Some f /\ In l (f_locations f) /\
  get_feature m2 s = Some j /\ feature_at h j = Some g /\ In l (f_locations g) /\
  merge_models ord map_order h m1 m2 false = Some (h', Some m') /\
  get_feature m' s = Some i' /\ feature_at h' i' = Some f' /\ ~ In l (f_locations f').
Proof. exact root_ranges_refuted. Qed.
Print Assumptions C36_root_ranges_refuted.
