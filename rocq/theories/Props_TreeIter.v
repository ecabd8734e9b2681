(** C98: iterators over the features of a model. *)
From Coq Require Import List Bool Arith.
From Verif Require Import Text FeatureTreeModel FeatureTreeSpec FeatureTreeExamples FeatureTreeFinal TreeIterModel TreeIterSpec
  TreeIterProofs TreeIterSlices TreeIterFinal.
Import ListNotations.
Local Open Scope list_scope.

(** What any program sees of its iterators: each is a place of its own in the features below the
    one it started at, parents first and siblings by name, and these features are a part without
    gaps of those below any feature above; comparisons look at names only. *)
Theorem C98_iterators_are_places : forall ord h t,
  is_order ord -> heap_ok h -> holds h None t -> NoDup (ids t) -> is_feature (rdata t) = true ->
  exists from low,
    (forall u, subtree u t -> is_feature (rdata u) = true -> preorder u (from (rid u)) /\ low (rid u) = lname u) /\
    (forall u f, subtree u t -> is_feature (rdata u) = true -> In f (feature_ids u) -> exists a b, from (rid u) = a ++ from f ++ b) /\
    forall os, proper t 0 os ->
      (exists gs, place_run ord h (Some (rid t)) os [] = Some gs) /\
      forall gs, place_run ord h (Some (rid t)) os [] = Some gs <-> views from low (rid t) [] os gs.
Proof. exact places_in_one_list. Qed.
Print Assumptions C98_iterators_are_places.
Example C98_places_example : heap_ok heap1 /\ holds heap1 None tree1 /\ NoDup (ids tree1) /\ proper tree1 0 program98 /\
  place_run (@rev nid) heap1 (Some 0) program98 [] =
    Some [GNothing; GNothing; GNothing; GTruth true; GNothing; GNothing; GTruth false; GFeature (Some 2); GFeature None].
Proof.
  exact (conj (proj1 example_tree1) (conj (proj1 (proj2 example_tree1)) (conj (proj1 (proj2 (proj2 example_tree1)))
    (conj program98_proper program98_sees)))).
Qed.

(** If names differ in more than case, iterators are equal exactly at the same feature. *)
Theorem C98_equal_at_the_same_feature : forall ord h t,
  is_order ord -> heap_ok h -> holds h None t -> NoDup (ids t) -> is_feature (rdata t) = true -> distinct_names t ->
  forall os i j gs a b e, proper t 0 (os ++ [PGet i; PGet j; PSame i j]) -> length gs = length os ->
    place_run ord h (Some (rid t)) (os ++ [PGet i; PGet j; PSame i j]) [] = Some (gs ++ [GFeature a; GFeature b; GTruth e]) ->
    (e = true <-> a = b).
Proof. exact compared. Qed.
Print Assumptions C98_equal_at_the_same_feature.
Example C98_distinct_example : distinct_names tree1.
Proof. exact distinct1. Qed.
Theorem C98_equal_at_the_same_feature_whatever_the_names_refuted : exists ord h t os f g,
  is_order ord /\ heap_ok h /\ holds h None t /\ NoDup (ids t) /\ proper t 0 os /\ f <> g /\
  place_run ord h (Some (rid t)) (os ++ [PGet 0; PGet 1; PSame 0 1]) [] =
    Some [GNothing; GNothing; GFeature (Some f); GFeature (Some g); GTruth true].
Proof. exact different_features. Qed.
Print Assumptions C98_equal_at_the_same_feature_whatever_the_names_refuted.

(** Then equal iterators that come from the model itself are still equal after a step of both,
    as is required of forward iterators. *)
Theorem C98_equal_iterators_stay_equal : forall ord h t,
  is_order ord -> heap_ok h -> holds h None t -> NoDup (ids t) -> is_feature (rdata t) = true -> distinct_names t ->
  forall os i j gs g2 g3 e, only_begin_end os -> proper t 0 (os ++ [PSame i j; PStep i; PStep j; PSame i j]) ->
    i <> j -> length gs = length os ->
    place_run ord h (Some (rid t)) (os ++ [PSame i j; PStep i; PStep j; PSame i j]) [] =
      Some (gs ++ [GTruth true; g2; g3; GTruth e]) ->
    e = true.
Proof. exact together. Qed.
Print Assumptions C98_equal_iterators_stay_equal.
Example C98_stay_equal_example : only_begin_end program98b /\
  proper tree1 0 (program98b ++ [PSame 0 1; PStep 0; PStep 1; PSame 0 1]) /\
  place_run (@rev nid) heap1 (Some 0) (program98b ++ [PStep 1; PSame 0 1; PStep 0; PStep 1; PSame 0 1]) [] =
    Some [GNothing; GNothing; GNothing; GNothing; GFeature (Some 0); GFeature (Some 1); GTruth true; GNothing; GTruth true;
          GNothing; GNothing; GTruth true].
Proof. exact program98b_proper. Qed.
Theorem C98_equal_iterators_from_anywhere_stay_equal_refuted : exists ord h t os gs,
  is_order ord /\ heap_ok h /\ holds h None t /\ NoDup (ids t) /\ distinct_names t /\ proper t 0 os /\
  place_run ord h (Some (rid t)) (os ++ [PSame 0 2; PStep 0; PStep 2; PSame 0 2]) [] =
    Some (gs ++ [GTruth true; GNothing; GNothing; GTruth false]).
Proof. exact apart. Qed.
Print Assumptions C98_equal_iterators_from_anywhere_stay_equal_refuted.

(** Equal iterators from anywhere part only where one of them is at its end. *)
Theorem C98_equal_iterators_part_at_an_end : forall ord h t,
  is_order ord -> heap_ok h -> holds h None t -> NoDup (ids t) -> is_feature (rdata t) = true -> distinct_names t ->
  forall os i j gs g2 g3 a b, proper t 0 (os ++ [PSame i j; PStep i; PStep j; PGet i; PGet j]) ->
    i <> j -> length gs = length os ->
    place_run ord h (Some (rid t)) (os ++ [PSame i j; PStep i; PStep j; PGet i; PGet j]) [] =
      Some (gs ++ [GTruth true; g2; g3; GFeature a; GFeature b]) ->
    a = b \/ a = None \/ b = None.
Proof. exact part_at_an_end. Qed.
Print Assumptions C98_equal_iterators_part_at_an_end.
Example C98_part_example : proper tree1 0 (program98d ++ [PSame 0 2; PStep 0; PStep 2; PGet 0; PGet 2]) /\
  place_run (@rev nid) heap1 (Some 0) (program98d ++ [PSame 0 2; PStep 0; PStep 2; PGet 0; PGet 2]) [] =
    Some ([GNothing; GNothing; GNothing] ++ [GTruth true; GNothing; GNothing; GFeature (Some 2); GFeature None]).
Proof. exact program98d_parts. Qed.

(** An iterator is at the end after exactly as many steps as there are features at and below the
    one it started at, and stays there. *)
Theorem C98_steps_to_the_end : forall ord h t,
  is_order ord -> heap_ok h -> holds h None t -> NoDup (ids t) -> is_feature (rdata t) = true ->
  forall u n, subtree u t -> is_feature (rdata u) = true ->
  exists gs e, place_run ord h (Some (rid t)) ([PFrom (rid u); PEnd] ++ repeat (PStep 0) n ++ [PSame 0 1]) [] =
      Some (gs ++ [GTruth e]) /\
    (e = true <-> length (feature_ids u) <= n).
Proof. exact distance. Qed.
Print Assumptions C98_steps_to_the_end.
Example C98_steps_example : exists u, subtree u tree1 /\ is_feature (rdata u) = true /\ length (feature_ids u) = 2 /\
  place_run (@rev nid) heap1 (Some 0) [PFrom (rid u); PEnd; PStep 0; PSame 0 1] [] =
    Some [GNothing; GNothing; GNothing; GTruth false] /\
  place_run (@rev nid) heap1 (Some 0) [PFrom (rid u); PEnd; PStep 0; PStep 0; PSame 0 1] [] =
    Some [GNothing; GNothing; GNothing; GNothing; GTruth true].
Proof. exact distances1. Qed.
