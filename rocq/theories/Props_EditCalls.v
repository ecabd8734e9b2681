(** Properties of the functions that edit a model in one call (C69). *)
From Coq Require Import List Arith Bool Ascii String Permutation Lia.
From Verif Require Import Text ConstraintModel SourceRangeModel FeatureTreeModel FeatureTreeSpec FeatureTreeExamples FeatureTransactionModel FeatureEditSpec FeatureTransactionSpec FeatureTransactionExamples FeatureBuildExamples
  EditCallModel EditCallSpec EditCallProofs PyExamples.
Import ListNotations.
Local Open Scope string_scope.
Local Open Scope list_scope.

(** C69: [addFeatures] adds the features before the first one whose name is taken, and
    nothing after it; nothing is reported. *)
Theorem C69_features_are_added_up_to_the_first_clash :
  forall ord h m t l, represents h m t -> plantable m l ->
  exists before h' m' t', fresh_start m l before /\ call_add_features ord l (h, m) = Some (h', m') /\ represents h' m' t' /\ planted t before t' /\ same_rest m m' /\
    m_relationships m' = m_relationships m /\ map fst (m_features m') = map fst (m_features m) ++ map (fun x => f_name (fst x)) before.
Proof. exact add_features_exact. Qed.
Print Assumptions C69_features_are_added_up_to_the_first_clash.
Theorem C69_the_beginning_is_unique :
  forall m l a b, fresh_start m l a -> fresh_start m l b -> a = b.
Proof. exact fresh_start_unique. Qed.
Print Assumptions C69_the_beginning_is_unique.
Example C69_add_example : represents heap1 model1 tree1 /\ plantable model1 wanted1 /\ fresh_start model1 wanted1 [(bin7 "x", Some 2); (bin7 "y", None)] /\
  exists h' m', call_add_features order wanted1 (heap1, model1) = Some (h', m') /\ map fst (m_features m') = map fst (m_features model1) ++ [T "x"; T "y"].
Proof. exact add_example. Qed.

(** [addFeature] makes the feature the last child of the parent, or changes nothing. *)
Theorem C69_one_feature_is_added :
  forall ord h m t f p, represents h m t -> f_kind f <> FRoot -> (forall q, p = Some q -> In q (map snd (m_features m))) ->
  (forall i, get_feature m (f_name f) = Some i -> call_add_feature ord f p (h, m) = Some (h, m)) /\
  (get_feature m (f_name f) = None -> exists h' m' i, call_add_feature ord f p (h, m) = Some (h', m') /\ ~ In i (ids t) /\
     represents h' m' (edit (match p with Some q => q | None => rid t end) (add_kid (Node i (NFeature f) [])) t) /\ same_rest m m' /\ m_relationships m' = m_relationships m /\
     m_features m' = m_features m ++ [(f_name f, i)]).
Proof. exact add_feature_call. Qed.
Print Assumptions C69_one_feature_is_added.

(** [removeFeature] does nothing for unknown names and, unless recursive, for features with
    children; it removes the subtree of other features, and is undefined for the root. *)
Theorem C69_one_feature_is_removed :
  forall ord h m t r b, is_order ord -> represents h m t -> ref_ok m r ->
  (resolve m r = None -> call_remove_feature ord r b (h, m) = Some (h, m)) /\
  (forall s, subtree s t -> resolve m r = Some (rid s) ->
     (b = false -> near (kids s) <> [] -> call_remove_feature ord r b (h, m) = Some (h, m)) /\
     (b = true \/ near (kids s) = [] -> rid s <> rid t -> exists h' m', call_remove_feature ord r b (h, m) = Some (h', m') /\ represents h' m' (prune (rid s) t) /\ same_rest m m' /\
        forall i, In i (nodes m') <-> In i (nodes m) /\ ~ In i (ids s)) /\
     (b = true \/ near (kids s) = [] -> rid s = rid t -> call_remove_feature ord r b (h, m) = None)).
Proof. exact (fun ord h m t r b ord_ok => remove_feature_call ord ord_ok h m t r b). Qed.
Print Assumptions C69_one_feature_is_removed.

(** [addRelationship] groups the children of a feature that has no group, and
    [removeRelationship] undoes it. *)
Theorem C69_groups_come_and_go :
  forall ord h m t k r s, is_order ord -> represents h m t -> resolve m r = Some (rid s) -> subtree s t -> is_feature (rdata s) = true -> own_groups (kids s) = [] ->
  exists h1 m1 i us, call_add_relationship ord r k (h, m) = Some (h1, m1) /\ ~ In i (ids t) /\ Permutation us (kids s) /\
    represents h1 m1 (edit (rid s) (with_kids [Node i (NRelationship k) us]) t) /\ m_features m1 = m_features m /\ same_rest m m1 /\
    exists h2 us2, call_remove_relationship ord r (h1, m1) = Some (h2, m) /\ Permutation us2 (kids s) /\ represents h2 m (edit (rid s) (with_kids us2) t).
Proof. exact (fun ord h m t k r s ord_ok => group_calls ord ord_ok h m t k r s). Qed.
Print Assumptions C69_groups_come_and_go.
(** Unlike the other functions, [addRelationship] is undefined for unknown names. *)
Theorem C69_unknown_names_are_ignored_refuted :
  (forall ord h m t k r, represents h m t -> resolve m r = None -> call_add_relationship ord r k (h, m) = None) /\
  exists h m t r, represents h m t /\ resolve m r = None.
Proof. exact (conj (fun ord h m t k r => group_unknown ord h m t k r) (ex_intro _ heap1 (ex_intro _ model1 (ex_intro _ tree1 (ex_intro _ (ByName (T "q")) (conj represents1 eq_refl)))))). Qed.
Print Assumptions C69_unknown_names_are_ignored_refuted.

Theorem C69_the_commit_is_set :
  forall ord h m t s, represents h m t ->
  exists m', call_set_commit ord s (h, m) = Some (h, m') /\ m_commit m' = s /\ m_name m' = m_name m /\ m_path m' = m_path m /\ same_contents m m' /\ represents h m' t.
Proof. exact set_commit_call. Qed.
Print Assumptions C69_the_commit_is_set.
Example C69_example :
  get_feature model1 (T "a") = Some 1 /\ call_add_feature order (bin7 "a") None (heap1, model1) = Some (heap1, model1) /\
  (exists h' m', call_remove_feature order (ByName (T "B")) true (heap1, model1) = Some (h', m') /\ get_feature m' (T "B") = None /\ get_feature m' (T "c") = None) /\
  call_remove_feature order (ByName (T "B")) false (heap1, model1) = Some (heap1, model1) /\
  call_remove_feature order (ByName (T "root")) true (heap1, model1) = None /\
  (exists m', call_set_commit order (T "v1") (heap1, model1) = Some (heap1, m') /\ m_commit m' = T "v1").
Proof. exact edit_examples. Qed.
Example C69_group_example :
  represents heap1 model1 tree1 /\ resolve model1 (ByName (T "B")) = Some 2 /\
  subtree (Node 2 (binary "B") [Node 5 (binary "c") []]) tree1 /\ own_groups [Node 5 (binary "c") []] = [].
Proof. exact (conj represents1 (conj eq_refl (conj subtree_B eq_refl))). Qed.
