(** Properties C38 to C44: the solver. *)
From Coq Require Import List ZArith Arith Bool Ascii String.
From Verif Require Import Text ConstraintModel ConstraintSpec StepFunctionModel ConfigurationModel FeatureTreeModel FeatureTreeSpec FeatureTreeExamples FeatureTransactionModel FeatureEditSpec
  FeatureTransactionExamples FeatureBuildSpec SolverModel SolverSpec SolverFinal SolverExamples.
Import ListNotations.
Local Open Scope string_scope.
Local Open Scope list_scope.

(** ** C38 *)
Theorem C38_solutions_are_valid_configurations : forall ord h m t,
  is_order ord -> represents h m t -> supported h m -> no_xor m ->
  exists N, forall fuel, N <= fuel -> exists s, load ord fuel h m = Some s /\
    forall a, satisfies a (s_asserted s) <-> valid h m a.
Proof. exact encoding_exact. Qed.
Print Assumptions C38_solutions_are_valid_configurations.
Theorem C38_constraints_mean_what_they_say : forall h e s, well_typed h false e ->
  exists t, add_constraint h e s = done (assert_term s t) /\
    (xor_free e -> forall a, beval a t = true <-> value_of h false a e = Some (Truth true)).
Proof. exact constraint_encoded. Qed.
Print Assumptions C38_constraints_mean_what_they_say.

(** ** C39 *)
Theorem C39_xor_is_not_both : forall h l r s, well_typed h false (CBin BXor l r) -> xor_free l -> xor_free r ->
  exists t, add_constraint h (CBin BXor l r) s = done (assert_term s t) /\
    forall a x y, value_of h false a l = Some (Truth x) -> value_of h false a r = Some (Truth y) ->
      (beval a t = true <-> ~ (x = true /\ y = true)).
Proof. exact xor_operands. Qed.
Print Assumptions C39_xor_is_not_both.
Theorem C39_nested_xor_is_not_both : forall h l r s, well_typed h false (CBin BXor l r) ->
  exists t, add_constraint h (CBin BXor l r) s = done (assert_term s t) /\
    forall a x y, meaning not_both (leaf_value h false a) (a_div0 a) l = Some (Truth x) ->
      meaning not_both (leaf_value h false a) (a_div0 a) r = Some (Truth y) ->
      (beval a t = true <-> ~ (x = true /\ y = true)).
Proof. exact xor_encoded. Qed.
Print Assumptions C39_nested_xor_is_not_both.
Theorem C39_exclusive_or_refuted : exists h e t a,
  add_constraint h e new_solver = done (assert_term new_solver t) /\ beval a t = true /\ value_of h false a e = Some (Truth false).
Proof. exact xor_refuted. Qed.
Print Assumptions C39_exclusive_or_refuted.
Example C39_example : well_typed heap9 false xor9 /\ xor_free (CFeat (Ref 2)) /\ xor_free (CUn UNot (CFeat (Own (T "c")))) /\
  value_of heap9 false (asg9 true false true true 4) xor9 = Some (Truth false) /\ value_of heap9 false (asg9 true true true true 4) xor9 = Some (Truth true).
Proof. exact xor_example. Qed.

(** ** C40 *)
Theorem C40_every_solution_once : forall check s, reached s -> decides check (s_vars s) (s_asserted s) ->
  exists N, forall fuel, N <= fuel ->
    (get_all check fuel s = Some (inr Unsat) /\ forall a, ~ satisfies a (s_asserted s)) \/
    exists l, get_all check fuel s = Some (inl l) /\ l <> [] /\ lists_all_solutions (s_vars s) (s_asserted s) l.
Proof. exact enumerate_all. Qed.
Print Assumptions C40_every_solution_once.
Theorem C40_every_valid_configuration_once : forall ord check h m t,
  is_order ord -> represents h m t -> supported h m -> no_xor m ->
  exists N, forall fuel, N <= fuel -> exists s, load ord fuel h m = Some s /\
    (decides check (s_vars s) (s_asserted s) -> exists M, forall fuel', M <= fuel' ->
      (get_all check fuel' s = Some (inr Unsat) /\ forall a, ~ valid h m a) \/
      exists l, get_all check fuel' s = Some (inl l) /\ l <> [] /\
        (forall c, In c l -> exists a, valid h m a /\ shows (s_vars s) c a) /\
        (forall a, valid h m a -> exists c, In c l /\ shows (s_vars s) c a) /\
        (forall i j c d, nth_error l i = Some c -> nth_error l j = Some d -> i <> j -> exists n, option_value c n <> option_value d n)).
Proof. exact enumerate_model. Qed.
Print Assumptions C40_every_valid_configuration_once.
(** Also for C38, C41 and C43. *)
Example C40_example :
  represents heap9 model9 tree9 /\ supported heap9 model9 /\ no_xor model9 /\ load order 5 heap9 model9 = Some solver9 /\ reached solver9 /\
  decides (trying tried9) (s_vars solver9) (s_asserted solver9) /\
  map fst (s_vars solver9) = [T "r"; T "a"; T "b"; T "c"; T "n"] /\
  (let* r := get_all (trying tried9) 9 solver9 in
   match r with inl l => Some (map (fun c => (option_value c (T "a"), option_value c (T "b"), option_value c (T "n"))) l) | inr _ => None end) =
    Some [(Some (T "true"), Some (T "false"), Some (T "2")); (Some (T "false"), Some (T "true"), Some (T "2")); (Some (T "false"), Some (T "true"), Some (T "4"))] /\
  get_num (trying tried9) 9 solver9 = Some (inl 3) /\
  option_map (@List.length _) (get_n (trying tried9) 9 2 solver9) = Some 2 /\ option_map (@List.length _) (get_n (trying tried9) 9 7 solver9) = Some 3.
Proof. exact enumeration_example. Qed.
Example C40_unsat_example :
  reached solver10 /\ decides (trying []) (s_vars solver10) (s_asserted solver10) /\ (forall a, ~ satisfies a (s_asserted solver10)) /\
  get_all (trying []) 1 solver10 = Some (inr Unsat) /\ get_n (trying []) 1 3 solver10 = Some [] /\ has_valid (trying []) solver10 = inl false.
Proof. exact unsat_example. Qed.
Example C40_negative_example : option_value (configuration [(T "n", SInt)] (asg9 true true true true (-3))) (T "n") = Some (T "(- 3)").
Proof. exact negative_example. Qed.

(** ** C41 *)
Theorem C41_as_many_as_requested : forall check s n, reached s -> decides check (s_vars s) (s_asserted s) ->
  exists N, forall fuel, N <= fuel -> exists l, get_n check fuel n s = Some l /\ lists_solutions (s_vars s) (s_asserted s) l /\
    forall all, lists_all_solutions (s_vars s) (s_asserted s) all -> List.length l = Nat.min n (List.length all).
Proof. exact enumerate_n. Qed.
Print Assumptions C41_as_many_as_requested.
Theorem C41_exact_number : forall check s, reached s -> decides check (s_vars s) (s_asserted s) ->
  exists N, forall fuel, N <= fuel ->
    (exists all, lists_all_solutions (s_vars s) (s_asserted s) all) /\
    forall all, lists_all_solutions (s_vars s) (s_asserted s) all ->
      get_num check fuel s = Some (if Nat.eqb (List.length all) 0 then inr Unsat else inl (List.length all)).
Proof. exact count_all. Qed.
Print Assumptions C41_exact_number.

(** ** C42 *)
Theorem C42_validity_test_always_true : forall check s, reached s -> is_valid check s = true.
Proof. exact is_valid_true. Qed.
Print Assumptions C42_validity_test_always_true.
Theorem C42_validity_test_refuted : exists ord fuel h m t check s,
  is_order ord /\ represents h m t /\ load ord fuel h m = Some s /\ decides check (s_vars s) (s_asserted s) /\
  (forall a, ~ satisfies a (s_asserted s)) /\ is_valid check s = true.
Proof. exact is_valid_refuted. Qed.
Print Assumptions C42_validity_test_refuted.
Theorem C42_solver_query_before : forall check s, reached s -> decides check (s_vars s) (s_asserted s) ->
  exists b, has_valid check s = inl b /\ (b = true <-> exists a, satisfies a (s_asserted s)).
Proof. exact has_valid_first. Qed.
Print Assumptions C42_solver_query_before.
Theorem C42_solver_query_after : forall check s s1 c,
  get_next check s = (s1, inl c) \/ get_current check s = (s1, inl c) ->
  has_valid check s1 = inr IllegalState /\ is_valid check s1 = false.
Proof. exact has_valid_later. Qed.
Print Assumptions C42_solver_query_after.
Example C42_example :
  has_valid (trying tried9) solver9 = inl true /\ has_valid (trying tried9) (fst (get_next (trying tried9) solver9)) = inr IllegalState /\
  result_bool (snd (get_next (trying tried9) solver9)) = true.
Proof. exact validity_example. Qed.

(** ** C43 *)
Theorem C43_every_feature_registered : forall ord h m t, is_order ord -> represents h m t -> supported h m ->
  exists N, forall fuel, N <= fuel -> exists s, load ord fuel h m = Some s /\ features_registered h m (s_vars s).
Proof. exact load_registers. Qed.
Print Assumptions C43_every_feature_registered.
Theorem C43_refused_features : forall h m t i f fuel g s, represents h m t -> stored h m i f ->
  (forall p fp r, hangs h i p r -> feature_at h p = Some fp -> ~ In (f_name fp) (map fst (s_vars s)) ->
     add_feature fuel h i g s = Some (s, Some ParentNotPresent)) /\
  ((forall p fp r, hangs h i p r -> feature_at h p = Some fp -> In (f_name fp) (map fst (s_vars s))) -> In (f_name f) (map fst (s_vars s)) ->
     add_feature fuel h i g s = Some (s, Some AlreadyPresent)).
Proof. exact refused_feature. Qed.
Print Assumptions C43_refused_features.
Theorem C43_refused_names : forall n zs s, In n (map fst (s_vars s)) ->
  add_name n s = Some (s, Some AlreadyPresent) /\ add_values n zs s = Some (s, Some AlreadyPresent).
Proof. exact refused_name. Qed.
Print Assumptions C43_refused_names.
Theorem C43_refused_calls_change_nothing : forall fuel c s s' e, solver_call fuel c s = Some (s', Some e) -> s' = s.
Proof. exact refused_unchanged. Qed.
Print Assumptions C43_refused_calls_change_nothing.
Example C43_example :
  stored heap9 model9 2 (new_feature FBinary (T "a") false [] []) /\ hangs heap9 2 0 (Some RAlternative) /\
  add_feature 5 heap9 2 true new_solver = Some (new_solver, Some ParentNotPresent) /\
  add_feature 5 heap9 2 true solver9 = Some (solver9, Some AlreadyPresent).
Proof. exact refused_example. Qed.

(** ** C44 *)
Theorem C44_mixed_constraints : forall h e k r s, well_typed h true e -> xor_free e ->
  exists t, add_mixed h e k r s = done (assert_term s t) /\ forall a, beval a t = true <-> mixed_holds h a e k r.
Proof. exact mixed_encoded. Qed.
Print Assumptions C44_mixed_constraints.
Example C44_example :
  well_typed heap9 true mixed9 /\ xor_free mixed9 /\
  mixed_holds heap9 (asg9 true false true true 4) mixed9 ExprPos ReqAll /\ ~ mixed_holds heap9 (asg9 true false true true 4) mixed9 ExprPos ReqNone /\
  mixed_holds heap9 (asg9 true true false true 4) mixed9 ExprNeg ReqNone.
Proof. exact mixed_example. Qed.
