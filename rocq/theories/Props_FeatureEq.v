(** Property C74: equality, hash and comparison of features. *)
From Coq Require Import List ZArith Arith Bool Ascii String Permutation.
From Verif Require Import Text FeatureTreeModel FeatureTreeSpec FeatureTreeExamples FeatureEditSpec FeatureTransactionExamples FeatureEqModel FeatureEqSpec FeatureEqProofs FeatureEqExamples.
Import ListNotations.
Local Open Scope string_scope.
Local Open Scope list_scope.

(** Features are equal if and only if their names are the same but for case. *)
Theorem C74_equality_ignores_case :
  forall h a b f g, feature_at h a = Some f -> feature_at h b = Some g ->
  exists r, feature_equal h a b = Some r /\ feature_unequal h a b = Some (negb r) /\ (r = true <-> same_but_case (f_name f) (f_name g)).
Proof. exact equal_names. Qed.
Print Assumptions C74_equality_ignores_case.
(** Equality is an equivalence and equal features have the same hash. *)
Theorem C74_equality_is_an_equivalence :
  forall hash h a b c f g k, feature_at h a = Some f -> feature_at h b = Some g -> feature_at h c = Some k ->
  feature_equal h a a = Some true /\ feature_equal h a b = feature_equal h b a /\
  (feature_equal h a b = Some true -> feature_equal h b c = Some true -> feature_equal h a c = Some true) /\
  (feature_equal h a b = Some true -> feature_hash hash h a = feature_hash hash h b).
Proof. exact equivalence. Qed.
Print Assumptions C74_equality_is_an_equivalence.
(** In a model without namesakes exactly one of equal, less and greater holds, and only
    a feature itself is equal to it. *)
Theorem C74_one_of_three :
  forall h m t s u a b, represents h m t -> case_distinct m -> get_feature m s = Some a -> get_feature m u = Some b ->
  (feature_equal h a b = Some true /\ feature_less h a b = Some false /\ feature_less h b a = Some false /\ a = b) \/
  (feature_equal h a b = Some false /\ feature_less h a b = Some true /\ feature_less h b a = Some false /\ a <> b) \/
  (feature_equal h a b = Some false /\ feature_less h a b = Some false /\ feature_less h b a = Some true /\ a <> b).
Proof. exact one_of_three. Qed.
Print Assumptions C74_one_of_three.
(** A Python set of features has one of each group of namesakes. *)
Theorem C74_python_sets :
  forall hash h xs, Forall (live h) xs ->
  exists r, py_set hash h [] xs = Some r /\ apart_all h r /\ incl r xs /\ (forall x, In x xs -> exists y, In y r /\ namesakes h y x).
Proof. exact python_set. Qed.
Print Assumptions C74_python_sets.
(** So it has all of them if the model has no namesakes. *)
Theorem C74_python_sets_of_a_model :
  forall hash h m t xs, represents h m t -> case_distinct m -> NoDup xs -> (forall x, In x xs -> exists s, get_feature m s = Some x) ->
  exists r, py_set hash h [] xs = Some r /\ Permutation r xs.
Proof. exact model_set. Qed.
Print Assumptions C74_python_sets_of_a_model.
Example C74_example :
  represents heap1 (model_of tree1) tree1 /\ case_distinct (model_of tree1) /\ same_but_case (T "Tls") (T "TLS") /\ ~ same_but_case (T "Tls") (T "Tlsx") /\
  feature_equal heap1 2 1 = Some false /\ feature_less heap1 1 2 = Some true /\ py_set (@List.length ascii) heap1 [] [2; 1; 2; 5] = Some [2; 1; 5] /\
  feature_equal heap74 1 2 = Some true /\ Forall (live heap74) [3; 2; 1; 0] /\ py_set (@List.length ascii) heap74 [] [3; 2; 1; 0] = Some [3; 2; 0].
Proof. exact equality_example. Qed.
(** Two features of one model can be equal although one is less than the other, and are
    then one element of a set. *)
Theorem C74_different_features_are_unequal_refuted :
  exists h m t s u a b, represents h m t /\ get_feature m s = Some a /\ get_feature m u = Some b /\ a <> b /\
  feature_equal h a b = Some true /\ feature_less h a b = Some true /\ forall hash, py_set hash h [] [a; b] = Some [a].
Proof. exact not_three. Qed.
Print Assumptions C74_different_features_are_unequal_refuted.
