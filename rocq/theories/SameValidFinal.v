(** Configurations of models that look the same and of models loaded again. *)
From Coq Require Import List ZArith Arith Bool Ascii String Permutation.
From Verif Require Import Text ConstraintModel ConstraintSpec FeatureTreeModel FeatureTreeSpec FeatureTransactionModel FeatureEditSpec FeatureCloneSpec FeatureBuildSpec SxfmModel XmlModel XmlSpec XmlTripSpec
  XmlCycleSpec XmlCycleFinal ConfigurationModel SolverModel SolverSpec ValidSpec ValidProofs ValidFinal SameValidProofs.
Import ListNotations.

Theorem same_models_valid h m t h' m' t' a : represents h m t -> represents h' m' t' -> all_resolved m -> all_resolved m' -> same_model h m h' m' ->
  (SolverSpec.valid h' m' a <-> SolverSpec.valid h m a).
Proof.
  intros R R' Re Re' Sm. split; [apply (same_valid_one h' m' t' h m t a R' R Re' Re (same_model_sym _ _ _ _ Sm))|apply (same_valid_one h m t h' m' t' a R R' Re Re' Sm)].
Qed.
Theorem same_models_enumerated ord ord' check check' h m t h' m' t' : is_order ord -> is_order ord' -> represents h m t -> represents h' m' t' -> all_resolved m -> all_resolved m' ->
  same_model h m h' m' -> supported h m -> no_xor m ->
  exists N, forall fuel, N <= fuel -> exists s s', SolverModel.load ord fuel h m = Some s /\ SolverModel.load ord' fuel h' m' = Some s' /\
    (decides check (s_vars s) (s_asserted s) -> decides check' (s_vars s') (s_asserted s') ->
     exists M, forall fuel', M <= fuel' -> same_answer (get_all check fuel' s) (get_all check' fuel' s')).
Proof.
  intros O O' R R' Re Re' Sm Su X. apply (enumerated_alike ord ord' check check' h m t h' m' t' O O' R R' Su).
  - exact (same_supported h m t h' m' t' R R' Re Re' Sm Su).
  - exact X.
  - exact (same_no_xor h m t h' m' t' R R' Re Re' Sm X).
  - exact (same_frame h m h' m' t' R' Sm).
  - exact (same_frame h' m' h m t R (same_model_sym _ _ _ _ Sm)).
  - intros a. exact (same_models_valid h m t h' m' t' a R R' Re Re' Sm).
Qed.
Theorem loaded_models_valid h m t n k h1 m1 h2 m2 a : represents h m t -> enrolled h m -> all_resolved m -> writable h m -> cycles (S n) h m h1 m1 -> cycles (S k) h m h2 m2 ->
  (SolverSpec.valid h2 m2 a <-> SolverSpec.valid h1 m1 a).
Proof.
  intros R En Re W C1 C2. destruct (cycle_states _ h m t h1 m1 R En Re W C1) as ((t1 & R1) & _ & Re1 & _). destruct (cycle_states _ h m t h2 m2 R En Re W C2) as ((t2 & R2) & _ & Re2 & _).
  exact (same_models_valid h1 m1 t1 h2 m2 t2 a R1 R2 Re1 Re2 (cycles_same h m t n k h1 m1 h2 m2 R En Re W C1 C2)).
Qed.
Theorem loaded_models_enumerated ord ord' check check' h m t n k h1 m1 h2 m2 : is_order ord -> is_order ord' -> represents h m t -> enrolled h m -> all_resolved m -> writable h m ->
  cycles (S n) h m h1 m1 -> cycles (S k) h m h2 m2 -> supported h1 m1 -> no_xor m1 ->
  exists N, forall fuel, N <= fuel -> exists s s', SolverModel.load ord fuel h1 m1 = Some s /\ SolverModel.load ord' fuel h2 m2 = Some s' /\
    (decides check (s_vars s) (s_asserted s) -> decides check' (s_vars s') (s_asserted s') ->
     exists M, forall fuel', M <= fuel' -> same_answer (get_all check fuel' s) (get_all check' fuel' s')).
Proof.
  intros O O' R En Re W C1 C2 Su X. destruct (cycle_states _ h m t h1 m1 R En Re W C1) as ((t1 & R1) & _ & Re1 & _). destruct (cycle_states _ h m t h2 m2 R En Re W C2) as ((t2 & R2) & _ & Re2 & _).
  exact (same_models_enumerated ord ord' check check' h1 m1 t1 h2 m2 t2 O O' R1 R2 Re1 Re2 (cycles_same h m t n k h1 m1 h2 m2 R En Re W C1 C2) Su X).
Qed.
