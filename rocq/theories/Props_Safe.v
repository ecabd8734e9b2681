(** C77: careful use of the interface is defined and keeps models in good condition. *)
From Coq Require Import List ZArith Arith Bool Ascii String Permutation.
From Verif Require Import Text ConstraintModel ConstraintSpec SourceRangeModel FeatureTreeModel FeatureTreeSpec FeatureTransactionModel FeatureTransactionSpec FeatureEditSpec FeatureCloneSpec FeatureTransactionExamples XmlModel XmlWriterModel XmlSpec XmlTripSpec GraphvizModel DumpModel RegisterSpec
  SafeSpec SafeProofs SafeMadeSpec SafeFinal SafeExamples.
Import ListNotations.
Local Open Scope string_scope.
Local Open Scope list_scope.
Local Open Scope nat_scope.

(** Which modifications have undefined behaviour. *)
Theorem C77_modifications_are_defined_exactly_if :
  forall ord, is_order ord -> forall h m t, represents h m t -> forall o, allowed (h, m) o -> (exec ord o (h, m) <> None <-> defined_op (h, m) o).
Proof. exact defined_exactly. Qed.
Print Assumptions C77_modifications_are_defined_exactly_if.

(** Which modifications leave constraints about features that are no longer there. *)
Theorem C77_constraints_stay_about_the_model_exactly_if :
  forall ord, is_order ord -> forall h m t o h' m' e, represents h m t -> all_resolved m -> allowed (h, m) o -> exec ord o (h, m) = Some ((h', m'), e) ->
  (all_resolved m' <-> spares (h, m) o).
Proof. exact spares_exactly. Qed.
Print Assumptions C77_constraints_stay_about_the_model_exactly_if.

(** Transactions whose modifications are in order at their turn are committed, and the model
    is in good condition afterwards, also if one of them was refused. *)
Theorem C77_careful_transactions_are_committed :
  forall ord, is_order ord -> forall os w, sound (fst w) (snd w) -> careful ord w os ->
  exists w' e, commit_modify ord (Mtx true os) w = Some (Mtx false os, w', e) /\ e <> Some INCONSISTENT /\ sound (fst w') (snd w').
Proof. exact careful_commits. Qed.
Print Assumptions C77_careful_transactions_are_committed.

(** Models made by careful use, in any number of steps, are in good condition. *)
Theorem C77_models_made_with_care_are_sound : forall h m, made h m -> sound h m.
Proof. exact made_sound. Qed.
Print Assumptions C77_models_made_with_care_are_sound.

(** Such models pass the check, are iterated and printed completely, are drawn, and, under
    the conditions of C32 and C46, are cloned and saved. *)
Theorem C77_sound_models_can_be_used : forall h m, sound h m ->
  consistent h m = Some true /\
  (forall ord, is_order ord -> exists r l, m_root m = Some r /\ iterate ord (S (h_next h)) h (Some r) = Some l /\ NoDup l /\ forall i, In i l <-> exists s, get_feature m s = Some i) /\
  (forall order, (forall l, Permutation (order l) l) -> exists x, dump_model order h m = Some x) /\
  (forall ptr this title, exists x, write_graph ptr this h m title = Some x) /\
  (root_name_free m -> forall ord map_order, is_order ord -> (forall l, Permutation (map_order l) l) -> exists h' m', clone_model ord map_order h m = Some (h', m')) /\
  (writable h m -> forall ord, is_order ord -> exists doc, write_xml ord h m = Some doc /\ valid doc = true).
Proof. exact sound_used. Qed.
Print Assumptions C77_sound_models_can_be_used.

Example C77_example : made (fst world77) (snd world77) /\ careful order world77 queue77 /\
  (let* (_, w, e) := commit_modify order (Mtx true queue77) world77 in Some (map fst (m_features (snd w)), map c_expr (m_boolean (snd w)), e)) =
  Some ([T "g"; T "a"; T "b"; T "base"], [CBin BExcludes (CFeat (Ref 2)) (CFeat (Ref 3))], None).
Proof. exact careful_example. Qed.
Example C77_undefined_example : sound (fst world77) (snd world77) /\
  Forall (fun o => allowed world77 o /\ exec order o world77 = None)
    [ORemoveFeature (ByName (T "root")) false; OAddRelationship ROr (ByName (T "x")); ORemoveRelationship (ByName (T "root")); OAddConstraint KBoolean (CFeat (Ref 7))].
Proof. exact undefined_example. Qed.

(** Modifications of models in good condition succeed or report an error: false. *)
Theorem C77_modifications_are_always_defined_refuted : exists ord h m o, is_order ord /\ sound h m /\ allowed (h, m) o /\ exec ord o (h, m) = None.
Proof. exact not_defined. Qed.
Print Assumptions C77_modifications_are_always_defined_refuted.
