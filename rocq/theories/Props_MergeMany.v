(** Property C95: merging any number of models. *)
From Coq Require Import List ZArith Arith Bool Ascii String Permutation.
From Verif Require Import Text ConfigurationModel FeatureTreeModel FeatureTreeSpec FeatureTransactionModel FeatureEditSpec FeatureTransactionSpec FeatureTransactionExamples FeatureCloneSpec FeatureMergeSpec FeatureMergeExamples
  SolverModel SolverSpec ValidSpec MergeValidSpec MergeAgainSpec MergeOrderSpec MergeManyModel MergeManySpec MergeManyExamples.
Import ListNotations.
Local Open Scope string_scope.
Local Open Scope list_scope.

(** ** C95 *)
(** Models that agree pairwise can be merged one after the other.  The result has the features of all
    of them in their places and, if numeric features list their values, the configurations that are
    valid for every one of them. *)
Theorem C95_merging_gathers_all :
  forall ord map_order h m ms, is_order ord -> (forall l, Permutation (map_order l) l) -> Forall (fine h) (m :: ms) -> ForallOrdPairs (agree h) (m :: ms) ->
  exists h' m' t', merge_all ord map_order h m ms = Some (h', Some m') /\ represents h' m' t' /\ bare m' /\ gathers h (m :: ms) h' m' /\ (forall i c, h_cells h i = Some c -> h_cells h' i = Some c) /\
    (Forall (listed h) (m :: ms) -> forall a, SolverSpec.valid h' m' a <-> forall k, In k (m :: ms) -> SolverSpec.valid h k a).
Proof. exact merge_many. Qed.
Print Assumptions C95_merging_gathers_all.

(** The order of the models does not matter. *)
Theorem C95_merging_in_any_order :
  forall ord ord' map_order map_order' h m ms n ns, is_order ord -> is_order ord' -> (forall l, Permutation (map_order l) l) -> (forall l, Permutation (map_order' l) l) ->
  Forall (fine h) (m :: ms) -> ForallOrdPairs (agree h) (m :: ms) -> Permutation (m :: ms) (n :: ns) ->
  exists h1 n1 h2 n2, merge_all ord map_order h m ms = Some (h1, Some n1) /\ merge_all ord' map_order' h n ns = Some (h2, Some n2) /\ alike_models h1 n1 h2 n2 /\
    (Forall (listed h) (m :: ms) -> forall a, SolverSpec.valid h2 n2 a <-> SolverSpec.valid h1 n1 a).
Proof. exact merge_any_order. Qed.
Print Assumptions C95_merging_in_any_order.

(** Merging them succeeds exactly if any two of them can be merged. *)
Theorem C95_merging_succeeds_pairwise :
  forall ord map_order h m ms, is_order ord -> (forall l, Permutation (map_order l) l) -> Forall (fine h) (m :: ms) -> ForallOrdPairs (fun m n => root_shared m n /\ names_apart m n) (m :: ms) ->
  exists h' o, merge_all ord map_order h m ms = Some (h', o) /\ ((exists m', o = Some m') <-> ForallOrdPairs (mergeable true h) (m :: ms)).
Proof. exact merge_many_iff. Qed.
Print Assumptions C95_merging_succeeds_pairwise.

(** With names that differ in case only, the place of a feature depends on the order. *)
Theorem C95_cases_in_any_order_refuted : exists ord map_order h m n h1 n1 h2 n2, is_order ord /\ (forall l, Permutation (map_order l) l) /\ Forall (fine h) [m; n] /\ ForallOrdPairs (fun m n => root_shared m n /\ mergeable true h m n) [m; n] /\
  merge_all ord map_order h m [n] = Some (h1, Some n1) /\ merge_all ord map_order h n [m] = Some (h2, Some n2) /\ ~ alike_models h1 n1 h2 n2.
Proof. exact cases_ordered. Qed.
Print Assumptions C95_cases_in_any_order_refuted.

(** Three models in two orders. *)
Example C95_many_example :
  is_order order /\ (forall l : list (text * nid), Permutation (rev l) l) /\ Forall (fine heap95) [model95; model96; model97] /\ ForallOrdPairs (agree heap95) [model95; model96; model97] /\ Forall (listed heap95) [model95; model96; model97] /\
  Permutation [model95; model96; model97] [model97; model95; model96] /\
  shown_all model95 [model96; model97] =
    Some [(T "d", Some (T "q"), [T "w"]); (T "r", None, []); (T "q", Some (T "r"), [T "l"; T "k"]); (T "a", Some (T "q"), [T "j"]); (T "e", Some (T "r"), [])] /\
  shown_all model97 [model95; model96] =
    Some [(T "r", None, []); (T "q", Some (T "r"), [T "l"; T "k"]); (T "d", Some (T "q"), [T "w"]); (T "a", Some (T "q"), [T "j"]); (T "e", Some (T "r"), [])].
Proof. exact many_example. Qed.
(** A model that cannot be merged with the first of three. *)
Example C95_refused_example :
  Forall (fine heap95) [model95; model96; model98] /\ ForallOrdPairs (fun m n => root_shared m n /\ names_apart m n) [model95; model96; model98] /\ mergeable true heap95 model95 model96 /\ mergeable true heap95 model96 model98 /\
  ~ ForallOrdPairs (mergeable true heap95) [model95; model96; model98] /\ exists h', merge_all order (@rev _) heap95 model95 [model96; model98] = Some (h', None).
Proof. exact refused_example. Qed.
