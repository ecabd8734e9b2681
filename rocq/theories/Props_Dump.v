(** C60: the printed form of a feature model. *)
From Coq Require Import List ZArith NArith Arith Bool Ascii String Permutation.
From Verif Require Import Text FeatureTreeModel FeatureTreeSpec FeatureTreeProofs FeatureEditSpec DumpModel DumpSpec DumpProofs DumpFinal DumpExamples.
Import ListNotations.
Local Open Scope list_scope.

(** The text has an entry for every feature of the model and nothing else. *)
Theorem C60_dumps_list_every_feature : forall order h m t, represents h m t -> (forall l, Permutation (order l) l) ->
  exists es, dump_model order h m = Some (dumped es) /\ lists t es.
Proof. exact dump_lists. Qed.
Print Assumptions C60_dumps_list_every_feature.

(** Models with the same text have the same entries, if names have neither line breaks nor
    commas and locations neither line breaks nor closing brackets. *)
Theorem C60_dumps_tell_the_features : forall order h m t order' h' m' t' x, (forall l, Permutation (order l) l) -> (forall l, Permutation (order' l) l) ->
  represents h m t -> printable t -> represents h' m' t' -> printable t' ->
  dump_model order h m = Some x -> dump_model order' h' m' = Some x -> exists es, lists t es /\ lists t' es.
Proof. exact dumps_tell_the_features. Qed.
Print Assumptions C60_dumps_tell_the_features.

(** A feature listed as a child states the feature that lists it as its parent. *)
Theorem C60_children_name_their_parent : forall h m t es, represents h m t -> lists t es ->
  forall e c, In e es -> In c (e_children e) -> exists e', In e' es /\ e_name e' = c /\ e_parent e' = Some (e_name e).
Proof. exact children_name_their_parent. Qed.
Print Assumptions C60_children_name_their_parent.
(** Conversely without groups, *)
Theorem C60_parents_list_their_children : forall t es, ungrouped t -> lists t es ->
  forall e p, In e es -> e_parent e = Some p -> exists e', In e' es /\ e_name e' = p /\ In (e_name e) (e_children e').
Proof. exact parents_list_their_children. Qed.
Print Assumptions C60_parents_list_their_children.
(** but not with groups. *)
Theorem C60_grouped_features_refuted : exists h m t, represents h m t /\ forall order, (forall l, Permutation (order l) l) ->
  exists es e e', dump_model order h m = Some (dumped es) /\ lists t es /\ In e es /\ In e' es /\ e_parent e = Some (e_name e') /\ ~ In (e_name e) (e_children e').
Proof. exact grouped_features. Qed.
Print Assumptions C60_grouped_features_refuted.

(** Hypotheses are met. *)
Example C60_example : represents heap31 model31 tree31 /\ printable tree31 /\ ungrouped tree31 /\ forall l : list (text * nid), Permutation l l.
Proof. destruct dump_example as (A & B & C & _). exact (conj A (conj B (conj C (@Permutation_refl _)))). Qed.
