(** Property C84: merging a model with itself and merging again. *)
From Coq Require Import List ZArith Arith Bool Ascii String Permutation.
From Verif Require Import Text ConfigurationModel FeatureTreeModel FeatureTreeSpec FeatureTreeExamples FeatureTransactionModel FeatureEditSpec FeatureTransactionSpec FeatureTransactionExamples FeatureCloneSpec FeatureMergeSpec FeatureMergeExamples
  SolverModel SolverSpec XmlModel XmlSpec ValidSpec MergeAgainSpec MergeAgainFinal MergeAgainExamples.
Import ListNotations.
Local Open Scope string_scope.
Local Open Scope list_scope.

(** ** C84 *)
(** Merging a model with itself succeeds and gives what cloning the model keeps. *)
Theorem C84_merging_with_itself_clones :
  forall h m t, represents h m t -> forall ord map_order strict, is_order ord -> (forall l, Permutation (map_order l) l) -> all_connected h m -> root_name_free m -> (strict = true -> all_of_known_kind h m) ->
  exists h' m', merge_models ord map_order h m m strict = Some (h', Some m') /\ cloned h m h' m' /\ forall i, i < h_next h -> h_cells h' i = h_cells h i.
Proof. exact merge_self. Qed.
Print Assumptions C84_merging_with_itself_clones.

(** Its configurations are those of the model. *)
Theorem C84_merging_with_itself_keeps_the_configurations :
  forall ord map_order h m t strict, is_order ord -> (forall l, Permutation (map_order l) l) -> represents h m t -> all_resolved m -> root_name_free m -> neat h m -> listed h m ->
  (strict = true -> all_of_known_kind h m) ->
  exists h' m', merge_models ord map_order h m m strict = Some (h', Some m') /\ forall a, SolverSpec.valid h' m' a <-> SolverSpec.valid h m a.
Proof. exact merge_self_valid. Qed.
Print Assumptions C84_merging_with_itself_keeps_the_configurations.

(** Merging again with the same model, not in strict mode, adds nothing. *)
Theorem C84_merging_again_adds_nothing :
  forall ord ord' map_order map_order', is_order ord -> is_order ord' -> (forall l, Permutation (map_order l) l) -> (forall l, Permutation (map_order' l) l) ->
  forall h m1 m2 t1 t2 strict, represents h m1 t1 -> represents h m2 t2 -> root_name_free m1 -> root_name_free m2 -> neat h m1 -> beside_no_group h m1 m2 ->
  root_shared m1 m2 -> mergeable strict h m1 m2 -> all_connected h m1 ->
  exists h' m' h2 n, merge_models ord map_order h m1 m2 strict = Some (h', Some m') /\ merged h m1 m2 h' m' /\
    merge_models ord' map_order' h' m' m2 false = Some (h2, Some n) /\ merged_again h' m' h2 n.
Proof. exact merge_twice. Qed.
Print Assumptions C84_merging_again_adds_nothing.

Theorem C84_merging_again_keeps_the_configurations :
  forall ord ord' map_order map_order', is_order ord -> is_order ord' -> (forall l, Permutation (map_order l) l) -> (forall l, Permutation (map_order' l) l) ->
  forall h m1 m2 t1 t2 strict, represents h m1 t1 -> represents h m2 t2 -> root_name_free m1 -> root_name_free m2 -> neat h m1 -> beside_no_group h m1 m2 ->
  root_shared m1 m2 -> mergeable strict h m1 m2 -> all_resolved m1 -> listed h m1 -> listed h m2 ->
  exists h' m' h2 n, merge_models ord map_order h m1 m2 strict = Some (h', Some m') /\ merge_models ord' map_order' h' m' m2 false = Some (h2, Some n) /\
    forall a, SolverSpec.valid h2 n a <-> SolverSpec.valid h' m' a.
Proof. exact merge_twice_valid. Qed.
Print Assumptions C84_merging_again_keeps_the_configurations.

(** The source ranges of the root change with each merge. *)
Theorem C84_root_ranges_again_refuted : exists ord map_order h m1 m2 t1 t2 h' m' h2 n r' f' r2 f2,
  is_order ord /\ (forall l, Permutation (map_order l) l) /\ represents h m1 t1 /\ represents h m2 t2 /\ all_connected h m1 /\ root_name_free m1 /\ root_name_free m2 /\ neat h m1 /\ beside_no_group h m1 m2 /\
  root_shared m1 m2 /\ mergeable false h m1 m2 /\
  merge_models ord map_order h m1 m2 false = Some (h', Some m') /\ merge_models ord map_order h' m' m2 false = Some (h2, Some n) /\
  m_root m' = Some r' /\ feature_at h' r' = Some f' /\ m_root n = Some r2 /\ feature_at h2 r2 = Some f2 /\
  (exists l, In l (f_locations f') /\ ~ In l (f_locations f2)) /\ exists l, In l (f_locations f2) /\ ~ In l (f_locations f').
Proof. exact ranges_again. Qed.
Print Assumptions C84_root_ranges_again_refuted.

(** In strict mode a merge that succeeded can be refused the second time. *)
Theorem C84_strict_merging_again_refuted : exists ord map_order h m1 m2 t1 t2 h' m' h2,
  is_order ord /\ (forall l, Permutation (map_order l) l) /\ represents h m1 t1 /\ represents h m2 t2 /\ all_connected h m1 /\ root_name_free m1 /\ root_name_free m2 /\ neat h m1 /\ beside_no_group h m1 m2 /\
  root_shared m1 m2 /\ mergeable true h m1 m2 /\
  merge_models ord map_order h m1 m2 true = Some (h', Some m') /\ merge_models ord map_order h' m' m2 true = Some (h2, None).
Proof. exact strict_again. Qed.
Print Assumptions C84_strict_merging_again_refuted.

(** A new feature below a feature with alternatives becomes one of them the second time, and
    configurations are lost. *)
Theorem C84_alternatives_again_refuted : exists ord map_order h m1 m2 t1 t2 h' m' h2 n a,
  is_order ord /\ (forall l, Permutation (map_order l) l) /\ represents h m1 t1 /\ represents h m2 t2 /\ all_resolved m1 /\ root_name_free m1 /\ root_name_free m2 /\ neat h m1 /\
  root_shared m1 m2 /\ mergeable false h m1 m2 /\ listed h m1 /\ listed h m2 /\
  merge_models ord map_order h m1 m2 false = Some (h', Some m') /\ merge_models ord map_order h' m' m2 false = Some (h2, Some n) /\
  SolverSpec.valid h' m' a /\ ~ SolverSpec.valid h2 n a.
Proof. exact groups_again. Qed.
Print Assumptions C84_alternatives_again_refuted.

(** Hypotheses are met. *)
Example C84_example :
  represents heap84 model84 tree84 /\ represents heap84 model85 tree85 /\ all_resolved model84 /\ root_name_free model84 /\ root_name_free model85 /\ neat heap84 model84 /\ beside_no_group heap84 model84 model85 /\
  root_shared model84 model85 /\ mergeable false heap84 model84 model85 /\ listed heap84 model84 /\ listed heap84 model85 /\ all_of_known_kind heap84 model84.
Proof. exact again_example. Qed.
Example C84_shown_example : (let* (x, o) := twice false false heap84 model84 model85 in let (y, h2) := x in let (h', m') := y in let* n := o in let* l := FeatureMergeExamples.shown h' m' in let* l' := FeatureMergeExamples.shown h2 n in Some (l, l')) =
  Some ([(T "q", Some (T "r"), [T "l"; T "k"]); (T "b", Some (T "p"), []); (T "a", Some (T "p"), []); (T "p", Some (T "r"), []); (T "r", None, [T "y"]); (T "d", Some (T "q"), [T "w"])],
        [(T "d", Some (T "q"), [T "w"]); (T "r", None, [T "x"]); (T "p", Some (T "r"), []); (T "a", Some (T "p"), []); (T "b", Some (T "p"), []); (T "q", Some (T "r"), [T "l"; T "k"])]).
Proof. exact shown84. Qed.
