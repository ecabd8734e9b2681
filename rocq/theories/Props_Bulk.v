(** Property C35: bulk removal. *)
From Coq Require Import List ZArith Arith Bool Ascii String Permutation.
From Verif Require Import Text FeatureTreeModel FeatureTreeSpec FeatureTreeExamples FeatureTransactionModel FeatureEditSpec FeatureTransactionExamples
  FeatureBulkSpec FeatureBulkProofs FeatureBulkExamples.
Import ListNotations.
Local Open Scope string_scope.
Local Open Scope list_scope.

(** ** C35 *)
Theorem C35_removes_what_is_listed_with_all_below :
  forall ord part_order rs h m t fuel, is_order ord -> any_partition part_order -> List.length rs < fuel ->
  represents h m t -> Forall (ref_ok m) rs -> NoDup (listed m rs) -> (exists i, In i (nodes m) /\ ~ In i (listed m rs)) ->
  exists h' m' rest gone, remove_features ord part_order fuel (h, m) rs = Some ((h', m'), rest) /\
    Permutation rs (gone ++ rest) /\ Forall (vanishes h m rs) gone /\ Forall (fun r => ~ vanishes h m rs r) rest /\
    (exists t', represents h' m' t') /\ same_rest m m' /\
    (forall i, In i (nodes m') <-> In i (nodes m) /\ ~ all_listed h m rs i) /\ thinned h h' m' /\
    (forall i, ~ In i (nodes m) -> h_cells h' i = h_cells h i) /\
    (forall r i, In r rest -> resolve m r = Some i -> exists c, h_cells h' i = Some c /\ n_edges c <> []) /\
    (forall i, In i (nodes m) -> ~ In i (nodes m') -> h_cells h' i = None).
Proof. exact bulk_exact. Qed.
Print Assumptions C35_removes_what_is_listed_with_all_below.
Example C35_example :
  any_partition parts /\ represents heap1 model1 tree1 /\ Forall (ref_ok model1) refs1 /\ NoDup (listed model1 refs1) /\
  In 4 (nodes model1) /\ ~ In 4 (listed model1 refs1) /\
  (let* (w, rest) := remove_features order parts 7 (heap1, model1) refs1 in Some (nodes (snd w), rest)) =
    Some ([0; 4], [ByName (T "z"); ByName (T "root")]).
Proof. exact bulk_example. Qed.

(** If the whole model is listed the root is removed as well, which is undefined. *)
Theorem C35_removing_everything_is_undefined :
  forall ord part_order fuel rs h m t, is_order ord -> any_partition part_order ->
  represents h m t -> Forall (ref_ok m) rs -> NoDup (listed m rs) -> (forall i, In i (nodes m) -> In i (listed m rs)) ->
  remove_features ord part_order fuel (h, m) rs = None.
Proof. exact bulk_everything. Qed.
Print Assumptions C35_removing_everything_is_undefined.
Example C35_everything_example :
  represents heap11 model11 tree11 /\ Forall (ref_ok model11) refs11 /\ NoDup (listed model11 refs11) /\
  (forall i, In i (nodes model11) -> In i (listed model11 refs11)).
Proof. exact everything_example. Qed.

(** Without distinctness: a listed leaf neither removed nor returned. *)
Theorem C35_repeated_names_refuted : exists ord part_order h m t rs h' m' r i fuel,
  is_order ord /\ any_partition part_order /\ represents h m t /\ Forall (ref_ok m) rs /\ (exists j, In j (nodes m) /\ ~ In j (listed m rs)) /\
  remove_features ord part_order fuel (h, m) rs = Some ((h', m'), []) /\
  In r rs /\ resolve m r = Some i /\ all_listed h m rs i /\ In i (nodes m').
Proof. exact repeated_refuted. Qed.
Print Assumptions C35_repeated_names_refuted.
