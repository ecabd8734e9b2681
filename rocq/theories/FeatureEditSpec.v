(** Editing feature trees, independent of the linked representation, and what it
    means that a model is a tree. *)
From Coq Require Import List Arith Bool Ascii Permutation.
From Verif Require Import Text ConstraintModel SourceRangeModel FeatureTreeModel FeatureTreeSpec FeatureTransactionModel.
Import ListNotations.

(** Replaces the subtree at [p]. *)
Fixpoint edit (p : nid) (g : tree -> tree) (t : tree) : tree :=
  match t with Node n d ts => if Nat.eqb n p then g t else Node n d (map (edit p g) ts) end.

Definition with_kids (ts : list tree) (t : tree) : tree := Node (rid t) (rdata t) ts.
(** [u] becomes the last child. *)
Definition add_kid (u t : tree) : tree := with_kids (kids t ++ [u]) t.
(** Removes the child at [f] with everything below it. *)
Definition drop_kid (f : nid) (t : tree) : tree := with_kids (filter (fun k => negb (Nat.eqb (rid k) f)) (kids t)) t.
Definition with_data (d : ndata) (t : tree) : tree := Node (rid t) d (kids t).

(** Removes the subtree at [f] wherever it is below the top. *)
Fixpoint prune (f : nid) (t : tree) : tree :=
  match t with
  | Node n d ts => Node n d (flat_map (fun k => if Nat.eqb (rid k) f then [] else [prune f k]) ts)
  end.

(** The features with their names, the relationships and the root features of a tree. *)
Fixpoint named (t : tree) : list (text * nid) :=
  match t with
  | Node n d ts => match d with NFeature f => [(f_name f, n)] | NRelationship _ => [] end ++ flat_map named ts
  end.
Fixpoint groups (t : tree) : list nid :=
  match t with
  | Node n d ts => match d with NFeature _ => [] | NRelationship _ => [n] end ++ flat_map groups ts
  end.
Fixpoint roots (t : tree) : list nid :=
  match t with
  | Node n d ts =>
      match d with NFeature f => if is_root_kind f then [n] else [] | NRelationship _ => [] end ++ flat_map roots ts
  end.

Definition own_groups (ts : list tree) : list tree := filter (fun t => is_relationship (rdata t)) ts.

(** A relationship has only features below it, and a feature has at most one
    relationship. *)
Inductive grouped : tree -> Prop :=
| grouped_feature n f ts :
    length (own_groups ts) <= 1 -> Forall grouped ts -> grouped (Node n (NFeature f) ts)
| grouped_relationship n k ts :
    Forall (fun t => is_feature (rdata t) = true) ts -> Forall grouped ts ->
    grouped (Node n (NRelationship k) ts).

(** The model [m] in heap [h] is the tree [t]. *)
Record represents (h : heap) (m : fmodel) (t : tree) : Prop := Represents {
  rep_ok : heap_ok h;
  rep_holds : holds h None t;
  rep_ids : NoDup (ids t);
  rep_root : m_root m = Some (rid t);
  rep_roots : roots t = [rid t];
  rep_features : Permutation (m_features m) (named t);
  rep_names : NoDup (map fst (named t));
  rep_groups : Permutation (m_relationships m) (groups t);
  rep_shape : grouped t
}.

(** What a model consists of besides features and relationships. *)
Definition same_rest (m m' : fmodel) : Prop :=
  m_name m' = m_name m /\ m_path m' = m_path m /\ m_commit m' = m_commit m /\
  m_boolean m' = m_boolean m /\ m_nonboolean m' = m_nonboolean m /\ m_mixed m' = m_mixed m.

(** Following parents from [i] arrives at [r]. *)
Inductive reaches (h : heap) : nid -> nid -> Prop :=
| reaches_here i c : h_cells h i = Some c -> reaches h i i
| reaches_up i c p r : h_cells h i = Some c -> n_parent c = Some p -> reaches h p r -> reaches h i r.

(** The nodes of a model. *)
Definition nodes (m : fmodel) : list nid := map snd (m_features m) ++ m_relationships m.

(** A model is a tree, in terms of its links only: one root feature, which has no
    parent; every other node has a parent in the model that lists it exactly once, and
    no other node lists it; following parents arrives at the root; features are stored
    under their names, and all names differ. *)
Record tree_shaped (h : heap) (m : fmodel) : Prop := TreeShaped {
  ts_names : NoDup (map fst (m_features m));
  ts_nodes : NoDup (nodes m);
  ts_stored : forall s i, In (s, i) (m_features m) -> exists f, feature_at h i = Some f /\ f_name f = s;
  ts_relationships : forall i, In i (m_relationships m) -> exists c k, h_cells h i = Some c /\ n_data c = NRelationship k;
  ts_root : exists r c f, m_root m = Some r /\ In r (map snd (m_features m)) /\ h_cells h r = Some c /\
    n_parent c = None /\ n_data c = NFeature f /\ f_kind f = FRoot;
  ts_one_root : forall i f, In i (map snd (m_features m)) -> feature_at h i = Some f -> f_kind f = FRoot -> m_root m = Some i;
  ts_parent : forall i, In i (nodes m) -> m_root m <> Some i ->
    exists c p cp, h_cells h i = Some c /\ n_parent c = Some p /\ In p (nodes m) /\ h_cells h p = Some cp /\
      count_occ Nat.eq_dec (n_edges cp) i = 1;
  ts_listed : forall p cp i, In p (nodes m) -> h_cells h p = Some cp -> In i (n_edges cp) ->
    In i (nodes m) /\ exists c, h_cells h i = Some c /\ n_parent c = Some p;
  ts_reaches : forall i r, In i (nodes m) -> m_root m = Some r -> reaches h i r
}.

(** Arguments that name a feature of the model, or any node of it. *)
Definition ref_ok (m : fmodel) (r : nref) : Prop :=
  match r with ByName _ => True | ByPtr n => In n (map snd (m_features m)) end.
Definition node_ok (m : fmodel) (r : nref) : Prop :=
  match r with ByName _ => True | ByPtr n => In n (nodes m) end.

Definition has_relationship (h : heap) (p : nid) : Prop := exists x, nearest h is_relationship p 1 x.

(** The modifications whose arguments belong to the model and which do not add a
    second root feature, move a feature below itself, move a relationship, stack
    relationships, or ungroup a feature below which other relationships are found. *)
Definition allowed (w : world) (o : op) : Prop :=
  let (h, m) := w in
  match o with
  | OAddFeature f p => f_kind f <> FRoot /\ forall q, p = Some q -> In q (map snd (m_features m))
  | ORemoveFeature r _ => ref_ok m r
  | OAddRelationship _ r => ref_ok m r /\ forall p, resolve m r = Some p -> ~ has_relationship h p
  | ORemoveRelationship r =>
      ref_ok m r /\ forall p k x, resolve m r = Some p -> nearest h is_relationship p k x -> k = 1
  | OAddLocation r _ | ORemoveLocation r _ => ref_ok m r
  | OAddChild p c =>
      node_ok m p /\ ref_ok m c /\
      forall i j, resolve m p = Some i -> resolve m c = Some j -> ~ reaches h i j
  | OAddConstraint _ _ | OSetName _ | OSetCommit _ | OSetPath _ | OSetRoot _ => True
  end.

(** Modifications one after the other; each may succeed or report an error. *)
Inductive history (ord : list nid -> list nid) : world -> world -> Prop :=
| history_nil w : history ord w w
| history_step w w1 w2 o e :
    allowed w o -> exec ord o w = Some (w1, e) -> history ord w1 w2 -> history ord w w2.

(** The same tree with other contents at its nodes. *)
Fixpoint relabel (g : nid -> ndata -> ndata) (t : tree) : tree :=
  match t with Node n d ts => Node n (g n d) (map (relabel g) ts) end.

(** A constraint with its mentions replaced. *)
Fixpoint cmap {F G} (f : F -> G) (c : cexpr F) : cexpr G :=
  match c with
  | CBin o l r => CBin o (cmap f l) (cmap f r)
  | CUn o e => CUn o (cmap f e)
  | CInt n => CInt n
  | CFeat x => CFeat (f x)
  end.

(** The name a mention stands for. *)
Definition mentions (h : heap) (r : cref) (s : text) : Prop :=
  match r with Own n => n = s | Ref i => exists f, feature_at h i = Some f /\ f_name f = s end.

(** What each mention [r] of a list is connected to, and the positions, counted from
    [k], of the mentions of a list of names that mean feature [i]. *)
Fixpoint positions (m : fmodel) (i : nid) (names : list text) (k : nat) : list nat :=
  match names with
  | [] => []
  | s :: r => (match get_feature m s with Some j => if Nat.eqb j i then [k] else [] | None => [] end) ++ positions m i r (S k)
  end.

(** A feature with which a constraint has been registered at the given positions: once
    in its constraints for each, and once for each among its excludes or implications
    depending on the outermost operator of the constraint. *)
Definition enlisted (c : cexpr cref) (id : nat) (ps : list nat) (f : feature) : feature :=
  Feature (f_kind f) (f_name f) (f_output f) (f_locations f)
    (f_constraints f ++ map (fun p => (id, p)) ps)
    (f_excludes f ++ (match c with CBin BExcludes _ _ => map (fun _ => id) ps | _ => [] end))
    (f_implications f ++ (match c with CBin BImplies _ _ => map (fun _ => id) ps | _ => [] end))
    (f_optional f).

(** Both worlds agree up to the contents [g] of the nodes. *)
Definition relabelled (g : nid -> ndata -> ndata) (h h' : heap) : Prop :=
  forall i, h_cells h' i = option_map (fun c => Cell (g i (n_data c)) (n_parent c) (n_edges c)) (h_cells h i).
