(** Property C82: saving models whose root is called neither root nor base. *)
From Coq Require Import List ZArith Arith Bool Ascii String Permutation.
From Verif Require Import Text ConstraintModel ConstraintParserModel ConstraintSpec ConstraintRoundTrip FeatureTreeModel FeatureTreeSpec FeatureTreeExamples FeatureTransactionModel FeatureTransactionSpec FeatureEditSpec FeatureTransactionExamples
  FeatureBuildSpec FeatureBuildExamples SxfmModel SxfmExamples XmlModel XmlWriterModel XmlSpec XmlExamples XmlTripSpec XmlTripExamples XmlCycleSpec ConfigurationModel SolverModel SolverSpec ValidSpec XmlBelowSpec XmlBelowFinal XmlBelowValidFinal XmlBelowCycle XmlBelowExamples.
Import ListNotations.
Local Open Scope string_scope.
Local Open Scope list_scope.

(** The document is valid and is read as the model below a new root called root. *)
Theorem C82_old_roots_hang_below_a_new_one :
  forall ord ord' sci step cwd h m t h0, is_order ord -> is_order ord' -> sci_nonneg sci -> represents h m t -> enrolled h m -> all_resolved m -> writable_below h m -> heap_ok h0 ->
  exists doc h' m', write_xml ord h m = Some doc /\ XmlModel.valid doc = true /\ read_xml ord' sci step cwd h0 doc = SxDone (h', Some m') /\ model_below h m h' m' /\ enrolled h' m' /\ all_resolved m'.
Proof. exact written_and_read_below. Qed.
Print Assumptions C82_old_roots_hang_below_a_new_one.
(** The valid configurations are the former ones with the new root selected. *)
Theorem C82_the_new_root_is_selected :
  forall ord ord' sci step cwd h m t h0, is_order ord -> is_order ord' -> sci_nonneg sci -> represents h m t -> enrolled h m -> all_resolved m -> writable_below h m -> root_firm h m -> heap_ok h0 ->
  supported h m -> neat h m -> listed h m -> narrow_values h m -> proper_groups h m -> exclusive_grouped h m ->
  exists doc h' m', write_xml ord h m = Some doc /\ read_xml ord' sci step cwd h0 doc = SxDone (h', Some m') /\
    forall a, SolverSpec.valid h' m' a <-> selected a (T "root") /\ SolverSpec.valid h m a.
Proof. exact below_read_valid. Qed.
Print Assumptions C82_the_new_root_is_selected.
(** The enumeration lists the former configurations with the new root selected. *)
Theorem C82_enumerated_with_the_new_root :
  forall ord ord' ord1 ord2 check check' sci step cwd h m t h0, is_order ord -> is_order ord' -> is_order ord1 -> is_order ord2 -> sci_nonneg sci -> represents h m t -> enrolled h m -> all_resolved m -> writable_below h m -> root_firm h m -> heap_ok h0 ->
  supported h m -> no_xor m -> neat h m -> listed h m -> narrow_values h m -> proper_groups h m -> exclusive_grouped h m ->
  exists doc h' m', write_xml ord h m = Some doc /\ read_xml ord' sci step cwd h0 doc = SxDone (h', Some m') /\
    exists N, forall fuel, N <= fuel -> exists s s', SolverModel.load ord1 fuel h m = Some s /\ SolverModel.load ord2 fuel h' m' = Some s' /\
      (decides check (s_vars s) (s_asserted s) -> decides check' (s_vars s') (s_asserted s') ->
       exists M, forall fuel', M <= fuel' -> answer_with_root (get_all check fuel' s) (get_all check' fuel' s')).
Proof. exact below_read_enumerated. Qed.
Print Assumptions C82_enumerated_with_the_new_root.
(** Saving and loading can be repeated; the root is added the first time only. *)
Theorem C82_saving_and_loading_goes_on :
  forall h m t n h1 m1 ord ord' sci step cwd h0, represents h m t -> enrolled h m -> all_resolved m -> writable_below h m -> cycles n h m h1 m1 -> is_order ord -> is_order ord' -> sci_nonneg sci -> heap_ok h0 ->
  exists doc h2 m2, write_xml ord h1 m1 = Some doc /\ read_xml ord' sci step cwd h0 doc = SxDone (h2, Some m2).
Proof. exact below_goes_on. Qed.
Print Assumptions C82_saving_and_loading_goes_on.
Theorem C82_the_root_is_added_once :
  forall h m t n h2 m2, represents h m t -> enrolled h m -> all_resolved m -> writable_below h m -> cycles (S (S n)) h m h2 m2 ->
  exists h1 m1, cycles 1 h m h1 m1 /\ model_below h m h1 m1 /\ model_back h1 m1 h2 m2.
Proof. exact below_once. Qed.
Print Assumptions C82_the_root_is_added_once.
Example C82_example :
  is_order order /\ sci_nonneg no_sci /\ heap_ok heap0 /\ represents heap82 model82 tree82 /\ enrolled heap82 model82 /\ all_resolved model82 /\ writable_below heap82 model82 /\ root_firm heap82 model82 /\ supported heap82 model82 /\ no_xor model82 /\
  neat heap82 model82 /\ listed heap82 model82 /\ narrow_values heap82 model82 /\ proper_groups heap82 model82 /\ exclusive_grouped heap82 model82 /\
  (let rest := [[Some "true"; Some "false"; Some "true"; Some "1"]; [Some "true"; Some "false"; Some "true"; Some "2"]; [Some "true"; Some "false"; Some "false"; Some "1"]; [Some "true"; Some "false"; Some "false"; Some "2"]] in
   listing82 (Some (heap82, model82)) = Some (map (fun l => None :: Some "true" :: l) rest) /\ listing82 again82 = Some (map (fun l => Some "true" :: Some "true" :: l) rest)) /\
  roots82 = Some (Some (Some "root", None), Some (FBinary, false), Some (Some "root")) /\
  option_map (@List.length string) (names82 0) = Some 6 /\ option_map (@List.length string) (names82 1) = Some 7 /\ names82 3 = names82 1.
Proof. exact below_example. Qed.
