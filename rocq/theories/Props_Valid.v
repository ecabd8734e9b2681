(** Properties C53 and C54: copies of a model have its valid configurations. *)
From Coq Require Import List ZArith NArith Arith Bool Ascii String Permutation.
From Verif Require Import Text NumSpec ConstraintModel ConstraintSpec ConstraintRoundTrip SourceRangeModel FeatureTreeModel FeatureTreeSpec FeatureTreeExamples FeatureTransactionModel
  FeatureTransactionSpec FeatureEditSpec FeatureTransactionExamples FeatureCloneSpec FeatureBuildSpec FeatureBuildExamples SxfmModel SxfmExamples XmlModel XmlWriterModel XmlSpec XmlExamples
  XmlTripSpec XmlTripExamples ConfigurationModel SolverModel SolverSpec SolverExamples ValidSpec ValidFinal ValidExamples.
Import ListNotations.
Local Open Scope string_scope.
Local Open Scope list_scope.
Local Open Scope nat_scope.

(** Cloning succeeds and the clone has exactly the valid assignments of the model. *)
Theorem C53_clones_have_the_same_valid_configurations :
  forall ord map_order h m t, is_order ord -> (forall l, Permutation (map_order l) l) -> represents h m t -> all_resolved m -> root_name_free m -> neat h m -> listed h m ->
  exists h' m', clone_model ord map_order h m = Some (h', m') /\ forall a, SolverSpec.valid h' m' a <-> SolverSpec.valid h m a.
Proof. exact clones_valid. Qed.
Print Assumptions C53_clones_have_the_same_valid_configurations.

(** With whichever solvers deciding the formulas the configurations of the model and of the
    clone are enumerated, both lists show the same configurations. *)
Theorem C53_clones_are_enumerated_alike :
  forall ord map_order ord1 ord2 check check' h m t,
  is_order ord -> (forall l, Permutation (map_order l) l) -> is_order ord1 -> is_order ord2 -> represents h m t -> all_resolved m -> root_name_free m -> neat h m -> listed h m -> supported h m -> no_xor m ->
  exists h' m', clone_model ord map_order h m = Some (h', m') /\
    exists N, forall fuel, N <= fuel -> exists s s', SolverModel.load ord1 fuel h m = Some s /\ SolverModel.load ord2 fuel h' m' = Some s' /\
      (decides check (s_vars s) (s_asserted s) -> decides check' (s_vars s') (s_asserted s') ->
       exists M, forall fuel', M <= fuel' -> same_answer (get_all check fuel' s) (get_all check' fuel' s')).
Proof. exact clones_enumerated. Qed.
Print Assumptions C53_clones_are_enumerated_alike.

(** Cloning keeps the valid configurations of models all of whose ranges have step functions:
    false, the clone of a range has no step function and there is no valid configuration. *)
Theorem C53_clones_of_stepped_ranges_refuted :
  exists h m t a, represents h m t /\ all_resolved m /\ root_name_free m /\ neat h m /\ supported h m /\ no_xor m /\ SolverSpec.valid h m a /\
  forall ord map_order h' m', is_order ord -> (forall l, Permutation (map_order l) l) -> clone_model ord map_order h m = Some (h', m') -> forall b, ~ SolverSpec.valid h' m' b.
Proof. exact clone_loses. Qed.
Print Assumptions C53_clones_of_stepped_ranges_refuted.

(** Writing and reading succeed and the model read has exactly the valid assignments of the
    model written. *)
Theorem C54_models_read_back_have_the_same_valid_configurations :
  forall ord ord' sci step cwd h m t h0, is_order ord -> is_order ord' -> sci_nonneg sci -> represents h m t -> enrolled h m -> all_resolved m -> writable h m -> heap_ok h0 ->
  supported h m -> neat h m -> listed h m -> narrow_values h m -> proper_groups h m -> exclusive_grouped h m ->
  exists doc h' m', write_xml ord h m = Some doc /\ read_xml ord' sci step cwd h0 doc = SxDone (h', Some m') /\ forall a, SolverSpec.valid h' m' a <-> SolverSpec.valid h m a.
Proof. exact trips_valid. Qed.
Print Assumptions C54_models_read_back_have_the_same_valid_configurations.

(** The enumerations of the model written and of the model read show the same configurations. *)
Theorem C54_models_read_back_are_enumerated_alike :
  forall ord ord' ord1 ord2 check check' sci step cwd h m t h0, is_order ord -> is_order ord' -> is_order ord1 -> is_order ord2 -> sci_nonneg sci -> represents h m t -> enrolled h m -> all_resolved m -> writable h m -> heap_ok h0 ->
  supported h m -> no_xor m -> neat h m -> listed h m -> narrow_values h m -> proper_groups h m -> exclusive_grouped h m ->
  exists doc h' m', write_xml ord h m = Some doc /\ read_xml ord' sci step cwd h0 doc = SxDone (h', Some m') /\
    exists N, forall fuel, N <= fuel -> exists s s', SolverModel.load ord1 fuel h m = Some s /\ SolverModel.load ord2 fuel h' m' = Some s' /\
      (decides check (s_vars s) (s_asserted s) -> decides check' (s_vars s') (s_asserted s') ->
       exists M, forall fuel', M <= fuel' -> same_answer (get_all check fuel' s) (get_all check' fuel' s')).
Proof. exact trips_enumerated. Qed.
Print Assumptions C54_models_read_back_are_enumerated_alike.

(** Writing and reading keep the valid configurations of models with or-groups: false, two
    selected members are valid only before. *)
Theorem C54_or_groups_refuted :
  exists h m t a, represents h m t /\ enrolled h m /\ all_resolved m /\ writable h m /\ supported h m /\ no_xor m /\ neat h m /\ listed h m /\ narrow_values h m /\ exclusive_grouped h m /\ SolverSpec.valid h m a /\
  forall ord ord' sci step cwd h0 doc h' m', is_order ord -> is_order ord' -> sci_nonneg sci -> heap_ok h0 -> write_xml ord h m = Some doc -> read_xml ord' sci step cwd h0 doc = SxDone (h', Some m') -> ~ SolverSpec.valid h' m' a.
Proof. exact or_group_lost. Qed.
Print Assumptions C54_or_groups_refuted.

(** Base with p, an optional x and n in 1, 2, 3; p has the alternatives a and b; all four kinds
    of constraints. *)
Example C53_C54_example :
  is_order order /\ sci_nonneg no_sci /\ heap_ok heap0 /\ represents heap13 model13 tree13 /\ enrolled heap13 model13 /\ all_resolved model13 /\ writable heap13 model13 /\ root_name_free model13 /\ supported heap13 model13 /\ no_xor model13 /\
  neat heap13 model13 /\ listed heap13 model13 /\ narrow_values heap13 model13 /\ proper_groups heap13 model13 /\ exclusive_grouped heap13 model13 /\
  (let l := [[Some "true"; Some "false"; Some "true"; Some "1"]; [Some "true"; Some "false"; Some "true"; Some "2"]; [Some "true"; Some "false"; Some "false"; Some "1"]; [Some "true"; Some "false"; Some "false"; Some "2"]] in
   listing13 (Some (heap13, model13)) = Some l /\ listing13 (clone_model order (fun l => l) heap13 model13) = Some l /\ listing13 again13 = Some l).
Proof. exact valid_example. Qed.
