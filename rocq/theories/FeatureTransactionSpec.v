(** What transactions promise, independent of how modifications are carried out. *)
From Coq Require Import List Arith Bool Ascii Permutation.
From Verif Require Import Text ConstraintModel ConstraintSpec SourceRangeModel FeatureTreeModel FeatureTreeSpec FeatureTransactionModel FeatureEditSpec.
Import ListNotations.

(** [p] is the first feature above [i]. *)
Inductive feature_above (h : heap) : nid -> nid -> Prop :=
| above_here i c p cp : h_cells h i = Some c -> n_parent c = Some p -> h_cells h p = Some cp ->
    is_feature (n_data cp) = true -> feature_above h i p
| above_further i c p cp q : h_cells h i = Some c -> n_parent c = Some p -> h_cells h p = Some cp ->
    is_feature (n_data cp) = false -> feature_above h p q -> feature_above h i q.

Definition root_at (h : heap) (i : nid) : Prop := exists f, feature_at h i = Some f /\ f_kind f = FRoot.

(** The rules: the root is a root feature, the map holds exactly one root feature, and
    every other feature of the map has a parent feature and is among the children of
    the node above it. *)
Record rules_hold (h : heap) (m : fmodel) : Prop := Rules {
  rule_root : exists r, m_root m = Some r /\ root_at h r;
  rule_one : exists a e b, m_features m = a ++ e :: b /\ root_at h (snd e) /\ forall x, In x (a ++ b) -> ~ root_at h (snd x);
  rule_parent : forall s i, In (s, i) (m_features m) -> ~ root_at h i -> exists p, feature_above h i p;
  rule_listed : forall s i, In (s, i) (m_features m) -> ~ root_at h i ->
    exists c p cp, h_cells h i = Some c /\ n_parent c = Some p /\ h_cells h p = Some cp /\ In i (n_edges cp)
}.

(** The modifications of a queue, all successful, one after the other. *)
Inductive all_succeed (ord : list nid -> list nid) : list op -> world -> world -> Prop :=
| all_nil w : all_succeed ord [] w w
| all_cons o os w w1 w2 : exec ord o w = Some (w1, None) -> all_succeed ord os w1 w2 -> all_succeed ord (o :: os) w w2.

(** How a queue ends: with the outcome of the consistency check after all its
    modifications, or with the error of the first modification that fails. *)
Inductive ends (ord : list nid -> list nid) (os : list op) (w : world) : world -> option ftcode -> Prop :=
| ends_well w' : all_succeed ord os w w' -> consistent (fst w') (snd w') = Some true -> ends ord os w w' None
| ends_inconsistent w' : all_succeed ord os w w' -> consistent (fst w') (snd w') = Some false ->
    ends ord os w w' (Some INCONSISTENT)
| ends_early before o after w1 w' e : os = before ++ o :: after -> all_succeed ord before w w1 ->
    exec ord o w1 = Some (w', Some e) -> ends ord os w w' (Some e).

(** Same features, groups and constraints. *)
Definition same_contents (m m' : fmodel) : Prop :=
  m_root m' = m_root m /\ m_features m' = m_features m /\ m_relationships m' = m_relationships m /\
  m_boolean m' = m_boolean m /\ m_nonboolean m' = m_nonboolean m /\ m_mixed m' = m_mixed m.

(** A model gained one constraint of the given kind and nothing else changed. *)
Definition gained (k : ckind) (c : mconstraint) (m m' : fmodel) : Prop :=
  m_name m' = m_name m /\ m_root m' = m_root m /\ m_path m' = m_path m /\ m_commit m' = m_commit m /\
  m_features m' = m_features m /\ m_relationships m' = m_relationships m /\
  m_boolean m' = m_boolean m ++ match k with KBoolean => [c] | _ => [] end /\
  m_nonboolean m' = m_nonboolean m ++ match k with KNonBoolean => [c] | _ => [] end /\
  m_mixed m' = m_mixed m ++ match k with KMixed r e => [Mixed c r e] | _ => [] end.

(** What a mention of the name [s] is connected to. *)
Definition connected (m : fmodel) (s : text) (r r' : cref) : Prop :=
  forall i, (get_feature m s = Some i -> r' = Ref i) /\ (get_feature m s = None -> r' = r).
