(** Property C87: the order of the calls on a model builder. *)
From Coq Require Import List ZArith Arith Bool Ascii String Permutation.
From Verif Require Import Text FeatureTreeModel FeatureTreeSpec FeatureTransactionModel FeatureEditSpec FeatureTransactionExamples FeatureBuildSpec FeatureBuildExamples SolverModel SolverSpec BuildOrderSpec BuildOrderFinal BuildOrderExamples.
Import ListNotations.

(** ** C87 *)
(** Calls that describe a tree and do not contradict each other can be made in any order: the
    models that are built agree in everything but the order of features and constraints, and
    have the same valid configurations. *)
Theorem C87_builder_calls_in_any_order :
  forall ord ord' h h0 cs cs' d, is_order ord -> is_order ord' -> heap_ok h -> heap_ok h0 -> describes cs d -> reordered cs cs' ->
  exists h1 m1 h2 m2, build_calls ord h cs = Some (h1, Some m1) /\ build_calls ord' h0 cs' = Some (h2, Some m2) /\
    same_unordered h1 m1 h2 m2 /\ forall a, SolverSpec.valid h1 m1 a <-> SolverSpec.valid h2 m2 a.
Proof. exact reordered_builds. Qed.
Print Assumptions C87_builder_calls_in_any_order.

(** Not so if two edges lead to the same feature: the last one counts. *)
Theorem C87_edges_in_any_order_refuted : exists ord h cs cs' h1 m1 h2 m2 s u i i' p p', is_order ord /\ heap_ok h /\ Permutation cs cs' /\
  build_calls ord h cs = Some (h1, Some m1) /\ build_calls ord h cs' = Some (h2, Some m2) /\ get_feature m1 s = Some i /\ get_feature m2 s = Some i' /\ get_feature m1 u = Some p /\ get_feature m2 u = Some p' /\
  hangs h1 i p None /\ ~ hangs h2 i' p' None.
Proof. exact parents_reordered. Qed.
Print Assumptions C87_edges_in_any_order_refuted.

(** Nor if a feature has the name that the root has before it is given another: the calls are
    refused in one order and accepted in the other. *)
Theorem C87_names_in_any_order_refuted : exists ord h cs cs' h1 h2 m2, is_order ord /\ heap_ok h /\ Permutation cs cs' /\
  build_calls ord h cs = Some (h1, None) /\ build_calls ord h cs' = Some (h2, Some m2).
Proof. exact root_reordered. Qed.
Print Assumptions C87_names_in_any_order_refuted.

Example C87_order_example : describes calls87 decl7 /\ reordered calls87 (rev calls87) /\
  exists h m h' m', build_calls order heap0 calls87 = Some (h, Some m) /\ build_calls order heap0 (rev calls87) = Some (h', Some m') /\
    map fst (m_features m) <> map fst (m_features m') /\ map c_expr (m_boolean m) <> map c_expr (m_boolean m').
Proof. exact order_example. Qed.
