(** What a sequence of calls on a model builder describes, and what it means that a
    model is as described. *)
From Coq Require Import List Arith Bool Ascii String Permutation.
From Verif Require Import Text ConstraintModel ConstraintSpec SourceRangeModel FeatureTreeModel FeatureTreeSpec FeatureTransactionModel FeatureEditSpec.
Import ListNotations.

(** The name of the root and the declared features. *)
Definition decl := (text * list feature)%type.
Definition taken (d : decl) (s : text) : Prop := s = fst d \/ In s (map f_name (snd d)).

(** Declaring features one after the other; the name of the root can be changed to a
    name that is not taken. *)
Inductive declares : decl -> list bcall -> decl -> Prop :=
| dec_nil d : declares d [] d
| dec_feature root fs f cs d :
    ~ taken (root, fs) (f_name f) -> declares (root, fs ++ [f]) cs d -> declares (root, fs) (BFeature f :: cs) d
| dec_same root fs cs d : declares (root, fs) cs d -> declares (root, fs) (BRoot root :: cs) d
| dec_root root fs s cs d :
    ~ taken (root, fs) s -> declares (s, fs) cs d -> declares (root, fs) (BRoot s :: cs) d
| dec_other d c cs e :
    match c with BFeature _ | BRoot _ => False | _ => True end -> declares d cs e -> declares d (c :: cs) e.

(** A declaration of a name that is taken. *)
Definition clashes (d : decl) (c : bcall) : Prop :=
  match c with BFeature f => taken d (f_name f) | BRoot s => s <> fst d /\ taken d s | _ => False end.

(** The parent named by the last edge to [s], or [default]. *)
Fixpoint last_edge (cs : list bcall) (s default : text) : text :=
  match cs with
  | [] => default
  | BEdge p c :: r => last_edge r s (if text_eqb c s then p else default)
  | _ :: r => last_edge r s default
  end.

(** Going up from [s] arrives at the root. *)
Inductive leads (up : text -> text) (root : text) : text -> Prop :=
| leads_root : leads up root root
| leads_up s : leads up root (up s) -> leads up root s.

(** The requested groups and the constraints, in order. *)
Definition requests (cs : list bcall) : list (text * rkind) :=
  flat_map (fun c => match c with BRelationship k p => [(p, k)] | _ => [] end) cs.
Definition constraints_of (cs : list bcall) : list (ckind * cexpr cref) :=
  flat_map (fun c => match c with BConstraint k e => [(k, e)] | _ => [] end) cs.
Fixpoint request_for (rs : list (text * rkind)) (s : text) : option rkind :=
  match rs with
  | [] => None
  | (p, k) :: r => if text_eqb p s then Some k else request_for r s
  end.

(** The values of attributes set last. *)
Definition last_name (cs : list bcall) (d : text) : text :=
  fold_left (fun d c => match c with BName s => s | _ => d end) cs d.
Definition last_commit (cs : list bcall) (d : text) : text :=
  fold_left (fun d c => match c with BCommit s => s | _ => d end) cs d.
Definition last_path (cs : list bcall) (d : text) : text :=
  fold_left (fun d c => match c with BPath s => s | _ => d end) cs d.

Definition edge_ok (d : decl) (c : bcall) : Prop :=
  match c with BEdge p s => taken d p /\ taken d s /\ p <> s | _ => True end.
(** The constraint mentions features by name, and all of them are declared. *)
Definition mentions_declared (d : decl) (e : cexpr cref) : Prop :=
  forall r, In r (leaves e) -> exists s, r = Own s /\ taken d s.
Definition relation_ok (d : decl) (c : bcall) : Prop :=
  match c with BRelationship _ p => taken d p | BConstraint _ e => mentions_declared d e | _ => True end.

Definition ordinary (c : bcall) : Prop := match c with BFeature f => f_kind f <> FRoot | _ => True end.

(** The name of the root of a new model. *)
Definition default_root : text := T "root".

(** The calls describe the tree with root [fst d] and features [snd d]: every name is
    declared once, edges and groups only mention declared names, no edge leads to the
    root or from a feature to itself, the last edges form a tree, and no parent is
    grouped twice. *)
Record describes (cs : list bcall) (d : decl) : Prop := Describes {
  de_declares : declares (default_root, []) cs d;
  de_ordinary : forall c, In c cs -> ordinary c;
  de_edges : forall c, In c cs -> edge_ok d c;
  de_root : forall p s, In (BEdge p s) cs -> s <> fst d;
  de_tree : forall f, In f (snd d) -> leads (fun s => last_edge cs s (fst d)) (fst d) (f_name f);
  de_relations : forall c, In c cs -> relation_ok d c;
  de_groups : NoDup (map fst (requests cs))
}.

(** Equal up to the constraints a feature takes part in. *)
Definition same_data (f g : feature) : Prop :=
  f_kind g = f_kind f /\ f_name g = f_name f /\ f_output g = f_output f /\ f_locations g = f_locations f /\
  f_optional g = f_optional f.

(** A mention of a declared feature is replaced by a pointer to it. *)
Definition pointing (m : fmodel) (r : cref) : cref :=
  match r with
  | Own s => match get_feature m s with Some i => Ref i | None => r end
  | Ref _ => r
  end.
Definition links_to (m : fmodel) (e : cexpr cref) (c : mconstraint) : Prop := c_expr c = cmap (pointing m) e.

(** Where a feature hangs: below the feature [p], or below a group of [p]. *)
Definition hangs (h : heap) (i p : nid) (g : option rkind) : Prop :=
  exists c, h_cells h i = Some c /\
    match g with
    | None => n_parent c = Some p
    | Some k => exists q cq, n_parent c = Some q /\ h_cells h q = Some cq /\ n_data cq = NRelationship k /\ n_parent cq = Some p
    end.

(** The model is as described by the calls. *)
Record as_described (cs : list bcall) (d : decl) (h : heap) (m : fmodel) : Prop := AsDescribed {
  ad_tree : tree_shaped h m;
  ad_represented : exists t, represents h m t;
  ad_consistent : consistent h m = Some true;
  ad_name : m_name m = last_name cs (T "FeatureModel");
  ad_commit : m_commit m = last_commit cs [];
  ad_path : m_path m = last_path cs [];
  ad_names : Permutation (map fst (m_features m)) (fst d :: map f_name (snd d));
  ad_root : exists r f, m_root m = Some r /\ get_feature m (fst d) = Some r /\ feature_at h r = Some f /\
    same_data (root_feature (fst d)) f;
  ad_data : forall f, In f (snd d) -> exists i g, get_feature m (f_name f) = Some i /\ feature_at h i = Some g /\ same_data f g;
  ad_parents : forall f, In f (snd d) ->
    let s := last_edge cs (f_name f) (fst d) in
    exists i p, get_feature m (f_name f) = Some i /\ get_feature m s = Some p /\ hangs h i p (request_for (requests cs) s);
  ad_groups : Forall2 (fun q r => exists c, h_cells h q = Some c /\ n_data c = NRelationship (snd r) /\
      n_parent c = get_feature m (fst r)) (m_relationships m) (requests cs);
  ad_boolean : Forall2 (links_to m)
    (flat_map (fun x => match fst x with KBoolean => [snd x] | _ => [] end) (constraints_of cs)) (m_boolean m);
  ad_nonboolean : Forall2 (links_to m)
    (flat_map (fun x => match fst x with KNonBoolean => [snd x] | _ => [] end) (constraints_of cs)) (m_nonboolean m);
  ad_mixed : Forall2 (fun x y => links_to m (snd x) (x_con y) /\ x_req y = fst (fst x) /\ x_kind y = snd (fst x))
    (flat_map (fun x => match fst x with KMixed r k => [((r, k), snd x)] | _ => [] end) (constraints_of cs)) (m_mixed m)
}.
