(** Property C93: constraints and the number of configurations. *)
From Coq Require Import List ZArith Bool Arith Ascii String.
From Verif Require Import Text ConstraintModel ConfigurationModel FeatureTreeModel FeatureTreeSpec FeatureTreeExamples FeatureTransactionModel FeatureTransactionExamples FeatureEditSpec SolverModel SolverSpec SolverExamples
  XmlModel XmlSpec EditValidSpec SplitSpec SplitFinal SplitExamples.
Import ListNotations.
Local Open Scope list_scope.

(** ** C93 *)
(** A constraint and its opposite can both be added, and the numbers of configurations with the
    one and with the other add up to the number without. *)
Theorem C93_opposite_constraints_split :
  forall ord h m t k c k' c', is_order ord -> represents h m t -> all_resolved m -> supported h m -> no_xor m ->
  mentions_names m c -> well_said h m k c -> xor_free c -> without_division c -> opposite k c k' c' ->
  exists h1 m1 h2 m2, exec ord (OAddConstraint k c) (h, m) = Some ((h1, m1), None) /\ exec ord (OAddConstraint k' c') (h, m) = Some ((h2, m2), None) /\
    exists N, forall fuel, N <= fuel -> exists s s1 s2, load ord fuel h m = Some s /\ load ord fuel h1 m1 = Some s1 /\ load ord fuel h2 m2 = Some s2 /\
    forall check check1 check2, decides check (s_vars s) (s_asserted s) -> decides check1 (s_vars s1) (s_asserted s1) -> decides check2 (s_vars s2) (s_asserted s2) ->
    exists n1 n2 M, forall fuel', M <= fuel' -> get_num check fuel' s = number (n1 + n2) /\ get_num check1 fuel' s1 = number n1 /\ get_num check2 fuel' s2 = number n2.
Proof. exact split_numbers. Qed.
Print Assumptions C93_opposite_constraints_split.
Example C93_example :
  is_order order /\ represents heap9 model93 tree9 /\ all_resolved model93 /\ supported heap9 model93 /\ no_xor model93 /\
  (mentions_names model93 chosen_a /\ mentions_names model93 large_n) /\
  (well_said heap9 model93 KBoolean chosen_a /\ well_said heap9 model93 KNonBoolean large_n /\ forall r e, well_said heap9 model93 (KMixed r e) large_n) /\
  (xor_free chosen_a /\ xor_free large_n) /\ (without_division chosen_a /\ without_division large_n) /\
  (let* s := load order 5 heap9 model93 in get_num (trying tried9) 9 s) = Some (inl 3) /\
  tried_number KBoolean chosen_a = Some (inl 1) /\ tried_number KBoolean (CUn UNot chosen_a) = Some (inl 2) /\
  tried_number (KMixed ReqNone ExprPos) large_n = Some (inl 1) /\ tried_number (KMixed ReqNone ExprNeg) large_n = Some (inl 2) /\
  tried_number KBoolean (CFeat (Own (T "r"))) = Some (inl 3) /\ tried_number KBoolean (CUn UNot (CFeat (Own (T "r")))) = Some (inr Unsat).
Proof. exact split_example. Qed.

(** No constraint adds configurations. *)
Theorem C93_constraints_add_no_configuration :
  forall ord h m t k c, is_order ord -> represents h m t -> all_resolved m -> supported h m -> no_xor m ->
  mentions_names m c -> well_said h m k c -> xor_free c ->
  exists h' m', exec ord (OAddConstraint k c) (h, m) = Some ((h', m'), None) /\
    exists N, forall fuel, N <= fuel -> exists s s', load ord fuel h m = Some s /\ load ord fuel h' m' = Some s' /\
    forall check check', decides check (s_vars s) (s_asserted s) -> decides check' (s_vars s') (s_asserted s') ->
    exists n n' M, n' <= n /\ forall fuel', M <= fuel' -> get_num check fuel' s = number n /\ get_num check' fuel' s' = number n'.
Proof. exact fewer. Qed.
Print Assumptions C93_constraints_add_no_configuration.

(** With a division by zero it is not the case that a configuration obeys either a constraint or
    its negation: one and the same configuration can be valid with both. *)
Theorem C93_division_refuted : exists ord h m t k c k' c' h1 m1 h2 m2 a b,
  is_order ord /\ represents h m t /\ all_resolved m /\ supported h m /\ no_xor m /\ mentions_names m c /\ well_said h m k c /\ xor_free c /\ opposite k c k' c' /\
  exec ord (OAddConstraint k c) (h, m) = Some ((h1, m1), None) /\ exec ord (OAddConstraint k' c') (h, m) = Some ((h2, m2), None) /\
  SolverSpec.valid h1 m1 a /\ SolverSpec.valid h2 m2 b /\ (forall n, a_bool a n = a_bool b n) /\ (forall n, a_int a n = a_int b n).
Proof. exact division_refuted. Qed.
Print Assumptions C93_division_refuted.
