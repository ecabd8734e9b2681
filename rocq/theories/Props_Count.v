(** Property C90: the number of configurations. *)
From Coq Require Import List ZArith Bool Arith String.
From Verif Require Import Text FeatureTreeModel FeatureTreeSpec FeatureTransactionModel FeatureEditSpec FeatureBuildSpec FeatureTreeExamples FeatureTransactionExamples XmlModel SolverModel SolverSpec
  CountSpec CountFinal CountEdit CountExamples.
Import ListNotations.

(** ** C90 *)
(** The number of configurations reported for a model without constraints is what its tree
    gives: products for children, sums for optional features and alternatives. *)
Theorem C90_number_of_configurations :
  forall amount h m t, represents h m t -> supported h m -> all_constraints m = [] -> amounts amount t -> plain_groups t ->
  forall ord, is_order ord -> exists N, forall fuel, N <= fuel -> exists s, load ord fuel h m = Some s /\
    forall check, decides check (s_vars s) (s_asserted s) -> exists M, forall fuel', M <= fuel' ->
      get_num check fuel' s = Some (if Nat.eqb (ways amount t) 0 then inr Unsat else inl (ways amount t)).
Proof. exact count_configurations. Qed.
Print Assumptions C90_number_of_configurations.
Example C90_example : is_order order /\ represents heap_c model_c tree_c /\ supported heap_c model_c /\ all_constraints model_c = [] /\ amounts three tree_c /\ plain_groups tree_c /\
  ways three tree_c = 24 /\ idle three tree_c = 3.
Proof. exact count_example. Qed.
(** An or group that has no members leaves no configuration. *)
Example C90_no_configuration_example : represents (plant 2 tree_e) (model_of tree_e) tree_e /\ supported (plant 2 tree_e) (model_of tree_e) /\ all_constraints (model_of tree_e) = [] /\
  amounts three tree_e /\ plain_groups tree_e /\ ways three tree_e = 0.
Proof. exact empty_or_example. Qed.

(** A feature added at the root multiplies the number: a mandatory one by one, an optional
    one by two, a numeric one by the number of its values. *)
Theorem C90_added_feature :
  forall amount ord h m t f, is_order ord -> represents h m t -> supported h m -> all_constraints m = [] -> amounts amount t -> plain_groups t ->
  countable amount f -> get_feature m (f_name f) = None ->
  exists h' m', exec ord (OAddFeature f None) (h, m) = Some ((h', m'), None) /\
    exists N, forall fuel, N <= fuel -> exists s s', load ord fuel h m = Some s /\ load ord fuel h' m' = Some s' /\
    forall check check', decides check (s_vars s) (s_asserted s) -> decides check' (s_vars s') (s_asserted s') ->
    exists M, forall fuel', M <= fuel' ->
      (get_num check fuel' s = Some (inr Unsat) /\ get_num check' fuel' s' = Some (inr Unsat)) \/
      exists n, n <> 0 /\ get_num check fuel' s = Some (inl n) /\
        get_num check' fuel' s' = Some (if Nat.eqb (factor amount f) 0 then inr Unsat else inl (n * factor amount f)).
Proof. exact count_grown. Qed.
Print Assumptions C90_added_feature.
Example C90_added_example : countable three extra /\ countable three numc /\ get_feature model_c (f_name extra) = None /\ factor three extra = 2 /\ factor three numc = 3 /\
  factor three (new_feature FBinary (T "x") false [] []) = 1.
Proof. exact grown_example. Qed.

(** It is not the case that what is below an unselected feature adds nothing: configurations
    are counted apart that differ only in the value of a numeric feature whose parent is not
    selected. *)
Theorem C90_unselected_adds_nothing_refuted : exists h m t a b i j f g, represents h m t /\ supported h m /\ all_constraints m = [] /\ SolverSpec.valid h m a /\ SolverSpec.valid h m b /\
  stored h m i f /\ stored h m j g /\ numeric_kind (f_kind g) = true /\ hangs h j i None /\ ~ selected a (f_name f) /\
  (forall n, a_bool a n = a_bool b n) /\ a_int a (f_name g) <> a_int b (f_name g).
Proof. exact unselected_refuted. Qed.
Print Assumptions C90_unselected_adds_nothing_refuted.
