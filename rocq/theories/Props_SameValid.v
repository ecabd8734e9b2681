(** Property C78: models that look the same have the same configurations. *)
From Coq Require Import List ZArith NArith Arith Bool Ascii String Permutation.
From Verif Require Import Text ConstraintModel ConstraintSpec FeatureTreeModel FeatureTreeSpec FeatureTransactionModel FeatureEditSpec SxfmModel XmlModel XmlSpec XmlTripSpec
  XmlCycleSpec ConfigurationModel SolverModel SolverSpec SolverExamples ValidSpec ValidExamples SameValidFinal SameValidExamples.
Import ListNotations.
Local Open Scope string_scope.
Local Open Scope list_scope.
Local Open Scope nat_scope.

(** The valid assignments depend on nothing but names, features, tree, groups and constraints. *)
Theorem C78_models_that_look_the_same_have_the_same_valid_configurations :
  forall h m t h' m' t' a, represents h m t -> represents h' m' t' -> all_resolved m -> all_resolved m' -> same_model h m h' m' ->
  (SolverSpec.valid h' m' a <-> SolverSpec.valid h m a).
Proof. exact same_models_valid. Qed.
Print Assumptions C78_models_that_look_the_same_have_the_same_valid_configurations.
(** So do the configurations the solver enumerates. *)
Theorem C78_models_that_look_the_same_are_enumerated_alike :
  forall ord ord' check check' h m t h' m' t', is_order ord -> is_order ord' -> represents h m t -> represents h' m' t' -> all_resolved m -> all_resolved m' ->
  same_model h m h' m' -> supported h m -> no_xor m ->
  exists N, forall fuel, N <= fuel -> exists s s', SolverModel.load ord fuel h m = Some s /\ SolverModel.load ord' fuel h' m' = Some s' /\
    (decides check (s_vars s) (s_asserted s) -> decides check' (s_vars s') (s_asserted s') ->
     exists M, forall fuel', M <= fuel' -> same_answer (get_all check fuel' s) (get_all check' fuel' s')).
Proof. exact same_models_enumerated. Qed.
Print Assumptions C78_models_that_look_the_same_are_enumerated_alike.
(** From the first time on, loaded models keep their configurations, whatever the first time lost. *)
Theorem C78_loaded_models_keep_their_valid_configurations :
  forall h m t n k h1 m1 h2 m2 a, represents h m t -> enrolled h m -> all_resolved m -> writable h m ->
  cycles (S n) h m h1 m1 -> cycles (S k) h m h2 m2 -> (SolverSpec.valid h2 m2 a <-> SolverSpec.valid h1 m1 a).
Proof. exact loaded_models_valid. Qed.
Print Assumptions C78_loaded_models_keep_their_valid_configurations.
Theorem C78_loaded_models_are_enumerated_alike :
  forall ord ord' check check' h m t n k h1 m1 h2 m2, is_order ord -> is_order ord' -> represents h m t -> enrolled h m -> all_resolved m -> writable h m ->
  cycles (S n) h m h1 m1 -> cycles (S k) h m h2 m2 -> supported h1 m1 -> no_xor m1 ->
  exists N, forall fuel, N <= fuel -> exists s s', SolverModel.load ord fuel h1 m1 = Some s /\ SolverModel.load ord' fuel h2 m2 = Some s' /\
    (decides check (s_vars s) (s_asserted s) -> decides check' (s_vars s') (s_asserted s') ->
     exists M, forall fuel', M <= fuel' -> same_answer (get_all check fuel' s) (get_all check' fuel' s')).
Proof. exact loaded_models_enumerated. Qed.
Print Assumptions C78_loaded_models_are_enumerated_alike.
(** The model of C54 loaded once and twice, and a model with an or-group, whose configurations
    change the first time only. *)
Example C78_example :
  represents heap13 model13 tree13 /\ enrolled heap13 model13 /\ all_resolved model13 /\ writable heap13 model13 /\
  (exists h1 m1 t1 h2 m2 t2, reloaded 1 heap13 model13 = Some (h1, m1) /\ reloaded 2 heap13 model13 = Some (h2, m2) /\ cycles 1 heap13 model13 h1 m1 /\ cycles 2 heap13 model13 h2 m2 /\
    represents h1 m1 t1 /\ represents h2 m2 t2 /\ all_resolved m1 /\ all_resolved m2 /\ same_model h1 m1 h2 m2 /\ supported h1 m1 /\ no_xor m1) /\
  listing13 (reloaded 2 heap13 model13) = Some [[Some "true"; Some "false"; Some "true"; Some "1"]; [Some "true"; Some "false"; Some "true"; Some "2"]; [Some "true"; Some "false"; Some "false"; Some "1"]; [Some "true"; Some "false"; Some "false"; Some "2"]] /\
  members15 (reloaded 0 heap15 model15) = Some [[Some "true"; Some "true"]; [Some "true"; Some "false"]; [Some "false"; Some "true"]] /\
  members15 (reloaded 1 heap15 model15) = Some [[Some "true"; Some "false"]; [Some "false"; Some "true"]] /\
  members15 (reloaded 2 heap15 model15) = members15 (reloaded 1 heap15 model15).
Proof. exact same_valid_example. Qed.
