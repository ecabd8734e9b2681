(** Properties of feature trees: iteration, comparison, ordered vectors and child
    queries (C19 to C22). *)
From Coq Require Import List ZArith Arith Bool Ascii String Sorted Permutation Lia.
From Verif Require Import Text FeatureTreeModel FeatureTreeSpec FeatureTreeProofs FeatureOrderProofs FeatureTreeExamples
  FeatureTreeFinal.
Import ListNotations.
Local Open Scope string_scope.
Local Open Scope list_scope.

(** C19: on every heap that contains a feature tree, iterating from its root
    terminates (with any number of steps above the number of addresses) and lists
    exactly the features of the tree, each once, in preorder with siblings in
    ascending order of their lower-case names. *)
Theorem C19_iteration_is_preorder :
  forall ord h t,
    is_order ord -> heap_ok h -> holds h None t -> NoDup (ids t) -> is_feature (rdata t) = true ->
    exists l, (forall fuel, h_next h < fuel -> iterate ord fuel h (Some (rid t)) = Some l) /\
      preorder t l /\ Permutation l (feature_ids t) /\ NoDup l.
Proof. exact iterate_features. Qed.
Print Assumptions C19_iteration_is_preorder.

(** The root comes first and every feature after its parent feature. *)
Theorem C19_parents_first :
  forall ord h t l f p,
    is_order ord -> heap_ok h -> holds h None t -> NoDup (ids t) -> is_feature (rdata t) = true ->
    iterate ord (S (h_next h)) h (Some (rid t)) = Some l ->
    In f (feature_ids t) ->
    (f = rid t -> exists r, l = f :: r) /\
    (parent_feature h f = Some (Some p) -> before l p f).
Proof. exact iterate_parents_first. Qed.
Print Assumptions C19_parents_first.

Example C19_example :
  heap_ok heap1 /\ holds heap1 None tree1 /\ NoDup (ids tree1) /\
  iterate (@rev nid) 7 heap1 (Some 0) = Some [0; 1; 2; 5; 3] /\
  parent_feature heap1 1 = Some (Some 0).
Proof. exact example_tree1. Qed.

(** C20: if siblings have different lower-case names, the comparison is defined for
    all features of the tree and holds exactly for the pairs iteration visits in
    this order; so it is a strict total order. *)
Theorem C20_comparison_is_iteration_order :
  forall ord h t l a b,
    is_order ord -> heap_ok h -> holds h None t -> NoDup (ids t) -> is_feature (rdata t) = true ->
    distinct_siblings t ->
    iterate ord (S (h_next h)) h (Some (rid t)) = Some l ->
    In a (feature_ids t) -> In b (feature_ids t) ->
    exists r, feature_less h a b = Some r /\ (r = true <-> before l a b).
Proof. exact comparison_is_iteration_order. Qed.
Print Assumptions C20_comparison_is_iteration_order.

Theorem C20_strict_total_order :
  forall h t a b c,
    heap_ok h -> holds h None t -> NoDup (ids t) -> is_feature (rdata t) = true -> distinct_siblings t ->
    In a (feature_ids t) -> In b (feature_ids t) -> In c (feature_ids t) ->
    feature_less h a a = Some false /\
    (feature_less h a b = Some true -> feature_less h b c = Some true -> feature_less h a c = Some true) /\
    (a = b \/ feature_less h a b = Some true \/ feature_less h b a = Some true).
Proof. exact comparison_strict_total. Qed.
Print Assumptions C20_strict_total_order.

(** With siblings X and x, being incomparable is not transitive: X and x are
    incomparable, x and the child c of X are incomparable, but X < c. *)
Theorem C20_equal_names_refuted :
  exists h t, heap_ok h /\ holds h None t /\ NoDup (ids t) /\ is_feature (rdata t) = true /\
    exists a b c, In a (feature_ids t) /\ In b (feature_ids t) /\ In c (feature_ids t) /\
      feature_less h a b = Some false /\ feature_less h b a = Some false /\
      feature_less h b c = Some false /\ feature_less h c b = Some false /\
      feature_less h a c = Some true.
Proof. exact comparison_equal_names. Qed.
Print Assumptions C20_equal_names_refuted.

(** Across different trees the comparison has cycles. *)
Theorem C20_other_trees_refuted :
  exists h a b c, heap_ok h /\
    feature_less h a b = Some true /\ feature_less h b c = Some true /\ feature_less h c a = Some true.
Proof. exact comparison_other_trees. Qed.
Print Assumptions C20_other_trees_refuted.

Example C20_example :
  distinct_siblings tree1 /\ feature_less heap1 1 5 = Some true /\ feature_less heap1 5 3 = Some true /\
  feature_less heap1 5 2 = Some false.
Proof. exact example_less1. Qed.

(** C21: inserting any sequence of features of a tree into an empty ordered vector
    yields exactly these features with multiplicity in iteration order. *)
Theorem C21_vector_sorted :
  forall ord h t l vs,
    is_order ord -> heap_ok h -> holds h None t -> NoDup (ids t) -> is_feature (rdata t) = true ->
    distinct_siblings t ->
    iterate ord (S (h_next h)) h (Some (rid t)) = Some l ->
    incl vs (feature_ids t) ->
    exists r, fold_left (fun o v => let* x := o in vector_insert h x v) vs (Some []) = Some r /\
      Permutation r vs /\ StronglySorted (fun x y => x = y \/ before l x y) r.
Proof. exact vector_in_iteration_order. Qed.
Print Assumptions C21_vector_sorted.

Example C21_example :
  fold_left (fun o v => let* x := o in vector_insert heap1 x v) [3; 5; 0; 2; 1; 5] (Some []) = Some [0; 1; 2; 5; 5; 3].
Proof. vm_compute. reflexivity. Qed.

(** C22: whenever a child query answers, it returns, without duplicates, exactly the
    nodes of the wanted type that are reached over at most [depth] edges without
    passing a node of that type. *)
Theorem C22_children_are_nearest :
  forall ord is_t h depth n l,
    is_order ord -> get_children ord is_t h depth n = Some l ->
    NoDup l /\
    forall x, In x l <-> exists k, nearest h is_t n k x /\ match depth with Some d => k <= d | None => True end.
Proof. exact children_are_nearest. Qed.
Print Assumptions C22_children_are_nearest.

(** On a tree it always answers. *)
Theorem C22_children_defined :
  forall ord is_t h depth t p s,
    is_order ord -> heap_ok h -> holds h p t -> NoDup (ids t) -> subtree s t ->
    exists l, get_children ord is_t h depth (rid s) = Some l.
Proof. exact children_defined. Qed.
Print Assumptions C22_children_defined.

(** A query for relationships also reports those of descendant features. *)
Theorem C22_relationships_of_descendants :
  exists h t, heap_ok h /\ holds h None t /\ NoDup (ids t) /\
    child_relationships (fun l => l) h (rid t) = Some [2] /\
    (forall k, In k (kids t) -> is_feature (rdata k) = true).
Proof. exact relationships_of_descendants. Qed.
Print Assumptions C22_relationships_of_descendants.

Example C22_example :
  child_features (@rev nid) heap1 0 = Some [3; 1; 2] /\
  get_children (@rev nid) is_feature heap1 (Some 1) 0 = Some [3] /\
  child_relationships (@rev nid) heap1 0 = Some [4].
Proof. vm_compute. repeat split. Qed.
