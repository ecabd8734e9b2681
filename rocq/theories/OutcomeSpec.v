(** When the model builder yields a model, what it looks like, and when it is a tree. *)
From Coq Require Import List Arith Bool Ascii String Permutation.
From Verif Require Import Text ConstraintModel ConstraintSpec SourceRangeModel FeatureTreeModel FeatureTreeSpec FeatureTransactionModel FeatureEditSpec FeatureBuildSpec.
Import ListNotations.

(** No name is declared twice, edges, groups and constraints only mention declared
    names, and no edge leads from a feature to itself.  Nothing is said about trees. *)
Record acceptable (cs : list bcall) (d : decl) : Prop := Acceptable {
  ac_declares : declares (default_root, []) cs d;
  ac_edges : forall c, In c cs -> edge_ok d c;
  ac_relations : forall c, In c cs -> relation_ok d c
}.

(** Calls as the readers make them: the kind of a root is left to [makeRoot],
    constraints mention features by name, and no parent is grouped twice. *)
Definition by_name (c : bcall) : Prop :=
  match c with BConstraint _ e => forall r, In r (leaves e) -> exists s, r = Own s | _ => True end.
Record regular (cs : list bcall) : Prop := Regular {
  re_ordinary : forall c, In c cs -> ordinary c;
  re_by_name : forall c, In c cs -> by_name c;
  re_groups : NoDup (map fst (requests cs))
}.

(** The first group or constraint that mentions an undeclared name is a group; nothing
    is wrong with declarations and edges. *)
Definition misgrouped (cs : list bcall) : Prop :=
  exists d a k p b, cs = a ++ BRelationship k p :: b /\ declares (default_root, []) cs d /\ (forall c, In c cs -> edge_ok d c) /\
    (forall c, In c a -> relation_ok d c) /\ ~ taken d p.

(** The model has the declared features, each below the parent named by the last edge to
    it; without such an edge a feature is below the root, and the root below nothing. *)
Record linked_as (cs : list bcall) (d : decl) (h : heap) (m : fmodel) : Prop := LinkedAs {
  la_consistent : consistent h m = Some true;
  la_name : m_name m = last_name cs (T "FeatureModel");
  la_commit : m_commit m = last_commit cs [];
  la_path : m_path m = last_path cs [];
  la_names : Permutation (map fst (m_features m)) (fst d :: map f_name (snd d));
  la_root : exists r f, m_root m = Some r /\ get_feature m (fst d) = Some r /\ feature_at h r = Some f /\
    same_data (root_feature (fst d)) f;
  la_data : forall f, In f (snd d) -> exists i g, get_feature m (f_name f) = Some i /\ feature_at h i = Some g /\ same_data f g;
  la_parents : forall f, In f (snd d) ->
    let s := last_edge cs (f_name f) (fst d) in
    exists i p, get_feature m (f_name f) = Some i /\ get_feature m s = Some p /\ hangs h i p (request_for (requests cs) s);
  la_top : forall r, m_root m = Some r ->
    let s := last_edge cs (fst d) (fst d) in
    (s = fst d -> exists c, h_cells h r = Some c /\ n_parent c = None) /\
    (s <> fst d -> exists p, get_feature m s = Some p /\ hangs h r p (request_for (requests cs) s));
  la_groups : Forall2 (fun q r => exists c, h_cells h q = Some c /\ n_data c = NRelationship (snd r) /\
      n_parent c = get_feature m (fst r)) (m_relationships m) (requests cs);
  la_boolean : Forall2 (links_to m)
    (flat_map (fun x => match fst x with KBoolean => [snd x] | _ => [] end) (constraints_of cs)) (m_boolean m);
  la_nonboolean : Forall2 (links_to m)
    (flat_map (fun x => match fst x with KNonBoolean => [snd x] | _ => [] end) (constraints_of cs)) (m_nonboolean m);
  la_mixed : Forall2 (fun x y => links_to m (snd x) (x_con y) /\ x_req y = fst (fst x) /\ x_kind y = snd (fst x))
    (flat_map (fun x => match fst x with KMixed r k => [((r, k), snd x)] | _ => [] end) (constraints_of cs)) (m_mixed m)
}.

(** Going up from every declared feature arrives at the root, and the root is below
    nothing. *)
Definition rooted (cs : list bcall) (d : decl) : Prop :=
  (forall p, ~ In (BEdge p (fst d)) cs) /\ forall f, In f (snd d) -> leads (fun s => last_edge cs s (fst d)) (fst d) (f_name f).
