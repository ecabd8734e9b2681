(** Property C57: bulk removal in recursive mode. *)
From Coq Require Import List ZArith Arith Bool Ascii String Permutation.
From Verif Require Import Text FeatureTreeModel FeatureTreeSpec FeatureTreeExamples FeatureTransactionModel FeatureEditSpec FeatureTransactionExamples
  FeatureBulkSpec FeatureBulkExamples FeatureRecursiveModel FeatureRecursiveSpec FeatureRecursiveFinal FeatureRecursiveExamples.
Import ListNotations.
Local Open Scope string_scope.
Local Open Scope list_scope.

(** ** C57 *)
Theorem C57_separate_features_are_removed_with_all_below :
  forall ord part_order addr rs h m t fuel, is_order ord -> any_partition part_order -> distinct_addresses addr -> List.length rs < fuel ->
  represents h m t -> Forall (ref_ok m) rs -> NoDup (listed m rs) -> apart h m rs -> ~ In (rid t) (listed m rs) ->
  exists h' m' rest, remove_listed ord part_order addr true fuel (h, m) rs = Some ((h', m'), rest) /\ cleared h m rs h' m' rest.
Proof. exact recursive_apart. Qed.
Print Assumptions C57_separate_features_are_removed_with_all_below.
Example C57_separate_example :
  any_partition parts /\ distinct_addresses address /\ represents heap19 model19 tree19 /\ Forall (ref_ok model19) refs19 /\ NoDup (listed model19 refs19) /\
  apart heap19 model19 refs19 /\ ~ In (rid tree19) (listed model19 refs19) /\
  (let* (w, rest) := remove_listed order parts address true 6 (heap19, model19) refs19 in Some (nodes (snd w), rest)) =
    Some ([0; 1; 5], [ByName (T "z"); ByName (T "C")]).
Proof. exact apart_example. Qed.

Theorem C57_nested_features_are_removed_with_all_below :
  forall ord part_order addr rs h m t fuel, is_order ord -> any_partition part_order -> distinct_addresses addr -> by_address ord addr ->
  List.length rs < fuel -> represents h m t -> Forall (ref_ok m) rs -> NoDup (listed m rs) -> gapless h m rs -> ~ In (rid t) (listed m rs) ->
  exists h' m' rest, remove_listed ord part_order addr true fuel (h, m) rs = Some ((h', m'), rest) /\ cleared h m rs h' m' rest.
Proof. exact recursive_nested. Qed.
Print Assumptions C57_nested_features_are_removed_with_all_below.
Example C57_nested_example :
  by_address ascending address /\ represents heap19 model19 tree19 /\ Forall (ref_ok model19) refs20 /\ NoDup (listed model19 refs20) /\
  gapless heap19 model19 refs20 /\ ~ In (rid tree19) (listed model19 refs20) /\
  (let* (w, rest) := remove_listed ascending parts address true 6 (heap19, model19) refs20 in Some (nodes (snd w), rest)) = Some ([0], []).
Proof. exact nested_example. Qed.

(** The root cannot be removed. *)
Theorem C57_removing_the_root_is_undefined :
  forall ord part_order addr rs h m t fuel, is_order ord -> any_partition part_order -> distinct_addresses addr -> by_address ord addr ->
  represents h m t -> Forall (ref_ok m) rs -> NoDup (listed m rs) -> gapless h m rs -> In (rid t) (listed m rs) ->
  remove_listed ord part_order addr true fuel (h, m) rs = None.
Proof. exact recursive_root. Qed.
Print Assumptions C57_removing_the_root_is_undefined.
Example C57_root_example :
  by_address ascending address /\ represents heap19 model19 tree19 /\ Forall (ref_ok model19) refs21 /\ NoDup (listed model19 refs21) /\
  gapless heap19 model19 refs21 /\ In (rid tree19) (listed model19 refs21).
Proof. exact root_example. Qed.

(** A listed feature below a group of another listed one: use after free. *)
Theorem C57_features_in_groups_refuted : exists ord part_order addr h m t rs,
  is_order ord /\ any_partition part_order /\ distinct_addresses addr /\ by_address ord addr /\
  represents h m t /\ Forall (ref_ok m) rs /\ NoDup (listed m rs) /\ ~ In (rid t) (listed m rs) /\
  forall fuel, remove_listed ord part_order addr true fuel (h, m) rs = None.
Proof. exact through_group_refuted. Qed.
Print Assumptions C57_features_in_groups_refuted.

(** A listed feature two levels below another one: a third one is neither removed nor
    returned. *)
Theorem C57_everything_is_removed_or_returned_refuted : exists ord part_order addr h m t rs h' m' r i fuel,
  is_order ord /\ any_partition part_order /\ distinct_addresses addr /\ by_address ord addr /\
  represents h m t /\ Forall (ref_ok m) rs /\ NoDup (listed m rs) /\ ~ In (rid t) (listed m rs) /\
  remove_listed ord part_order addr true fuel (h, m) rs = Some ((h', m'), []) /\
  In r rs /\ resolve m r = Some i /\ In i (nodes m').
Proof. exact skipped_refuted. Qed.
Print Assumptions C57_everything_is_removed_or_returned_refuted.

(** A feature and its child, with children that are not sorted by address. *)
Theorem C57_unsorted_children_refuted : exists ord part_order addr h m t rs,
  is_order ord /\ any_partition part_order /\ distinct_addresses addr /\
  represents h m t /\ Forall (ref_ok m) rs /\ NoDup (listed m rs) /\ ~ In (rid t) (listed m rs) /\ gapless h m rs /\
  forall fuel, remove_listed ord part_order addr true fuel (h, m) rs = None.
Proof. exact unsorted_refuted. Qed.
Print Assumptions C57_unsorted_children_refuted.
