(** Feature models as linked nodes on a heap: features, relationships, tree
    queries, iteration, comparison and consistency rules.
    Models include/vara/Feature/FeatureTreeNode.h, Feature.h, Relationship.h,
    FeatureModel.h, lib/Feature/Feature.cpp, FeatureModel.cpp and
    OrderedFeatureVector.cpp.

    Every function returns [None] when the C++ code has undefined behaviour (a
    null or freed pointer is dereferenced), fails an assertion or does not
    terminate. *)
From Coq Require Import List ZArith Arith Bool Ascii String.
From Verif Require Import Text ConstraintModel SourceRangeModel.
Import ListNotations.

Definition bind {A B} (o : option A) (f : A -> option B) : option B :=
  match o with Some a => f a | None => None end.
Notation "'let*' p ':=' e 'in' k" := (bind e (fun p => k))
  (at level 200, p pattern, e at level 200, k at level 200, right associativity).

(** Addresses of objects. *)
Definition nid := nat.

(** The values of a numeric feature (Feature.h:247-250). *)
Inductive values := VRange (lo hi : Z) | VList (vs : list Z).

(** [Feature::FeatureKind] (Feature.h:39) with the members only numeric features
    have (Feature.h:272-273).  A step function is represented by what its call
    operator returns; see StepFunctionModel.v. *)
Inductive fkind :=
| FBinary
| FNumeric (v : values) (step : option (Z -> option Z))
| FRoot
| FUnknown.

(** [Feature] (Feature.h:216-223).  A registered constraint is identified by the
    constraint it is part of and the position of the mention in it; [Excludes]
    and [Implications] hold the outermost object of that constraint. *)
Record feature := Feature {
  f_kind : fkind;
  f_name : text;
  f_output : text;
  f_locations : list source_range;
  f_constraints : list (nat * nat);
  f_excludes : list nat;
  f_implications : list nat;
  f_optional : bool
}.

(** [Relationship::RelationshipKind] (Relationship.h:27). *)
Inductive rkind := RAlternative | ROr.

(** [FeatureTreeNode] (FeatureTreeNode.h:139-140; the children are the edges of
    its base class DGNode) with its two subclasses. *)
Inductive ndata := NFeature (f : feature) | NRelationship (k : rkind).
Record node := Cell { n_data : ndata; n_parent : option nid; n_edges : list nid }.

(** All live objects and the next address.  Addresses are never reused.
    Simplification: a C++ allocator may reuse them, which can only matter to
    code that compares with a freed pointer. *)
Record heap := Heap { h_cells : nid -> option node; h_next : nid }.

Definition h_set (h : heap) (i : nid) (c : option node) : heap :=
  Heap (fun j => if Nat.eqb j i then c else h_cells h j) (h_next h).
Definition h_alloc (h : heap) (c : node) : nid * heap :=
  let i := h_next h in
  (i, Heap (fun j => if Nat.eqb j i then Some c else h_cells h j) (S i)).

(** Changes the object at [i]. *)
Definition h_modify (h : heap) (i : nid) (f : node -> node) : option heap :=
  let* c := h_cells h i in Some (h_set h i (Some (f c))).

Definition set_parent (h : heap) (i : nid) (p : option nid) : option heap :=
  h_modify h i (fun c => Cell (n_data c) p (n_edges c)).

Definition mem (i : nid) (l : list nid) : bool := existsb (Nat.eqb i) l.
(** Inserting into a SetVector and removing from it
    (DGNode::addEdge, DGNode::removeEdge of LLVM). *)
Definition set_insert (i : nid) (l : list nid) : list nid := if mem i l then l else l ++ [i].
Definition set_remove (i : nid) (l : list nid) : list nid := filter (fun j => negb (Nat.eqb i j)) l.

(** [addEdge], [removeEdge] (FeatureTreeNode.h:118-122). *)
Definition add_edge (h : heap) (p c : nid) : option heap :=
  h_modify h p (fun x => Cell (n_data x) (n_parent x) (set_insert c (n_edges x))).
Definition remove_edge (h : heap) (p c : nid) : option heap :=
  h_modify h p (fun x => Cell (n_data x) (n_parent x) (set_remove c (n_edges x))).

Definition is_feature (d : ndata) : bool := match d with NFeature _ => true | _ => false end.
Definition is_relationship (d : ndata) : bool := negb (is_feature d).
Definition any_node (d : ndata) : bool := true.

(** [getChildrenImpl<T>] (FeatureTreeNode.h:124-137), [is_t] standing for
    [dyn_cast<T>], [depth = None] for a negative [Depth].  The recursion is cut
    off by [fuel] only if the nodes contain a cycle. *)
Fixpoint children_impl (fuel : nat) (is_t : ndata -> bool) (h : heap) (depth : option nat)
    (n : nid) (acc : list nid) : option (list nid) :=
  match depth with
  | Some 0 => Some acc
  | _ =>
      match fuel with
      | 0 => None
      | S k =>
          let* c := h_cells h n in
          fold_left (fun o e =>
            let* a := o in
            let* ce := h_cells h e in
            if is_t (n_data ce) then Some (set_insert e a)
            else children_impl k is_t h (option_map Nat.pred depth) e a)
            (n_edges c) (Some acc)
      end
  end.

Section Order.
(** The order in which a SmallSet of nodes is iterated. *)
Variable ord : list nid -> list nid.

(** [getChildren<T>(Depth)] (FeatureTreeNode.h:89-94). *)
Definition get_children (is_t : ndata -> bool) (h : heap) (depth : option nat) (n : nid) : option (list nid) :=
  let* l := children_impl (S (h_next h)) is_t h depth n [] in Some (ord l).

Definition child_features (h : heap) (n : nid) := get_children is_feature h None n.
Definition child_relationships (h : heap) (n : nid) := get_children is_relationship h None n.

(** [isLeaf] (FeatureTreeNode.h:100). *)
Definition is_leaf (h : heap) (n : nid) : option bool :=
  let* c := h_cells h n in Some (match n_edges c with [] => true | _ => false end).

(** [getParentFeature] (Feature.h:64-72): [Some None] is the null pointer. *)
Fixpoint first_feature (fuel : nat) (h : heap) (p : option nid) : option (option nid) :=
  match fuel with
  | 0 => None
  | S k =>
      match p with
      | None => Some None
      | Some q =>
          let* c := h_cells h q in
          if is_feature (n_data c) then Some (Some q) else first_feature k h (n_parent c)
      end
  end.
Definition parent_feature (h : heap) (n : nid) : option (option nid) :=
  let* c := h_cells h n in first_feature (S (h_next h)) h (n_parent c).

Definition feature_at (h : heap) (n : nid) : option feature :=
  let* c := h_cells h n in match n_data c with NFeature f => Some f | _ => None end.
Definition name_at (h : heap) (n : nid) : option text :=
  let* f := feature_at h n in Some (f_name f).
(** [getName().lower()]. *)
Definition lower_at (h : heap) (n : nid) : option text :=
  let* t := name_at h n in Some (lower t).

(** [operator<] of std::string: lexicographic, by unsigned character codes. *)
Fixpoint text_ltb (a b : text) : bool :=
  match a, b with
  | _, [] => false
  | [], _ :: _ => true
  | x :: a', y :: b' => if code x <? code y then true else if code y <? code x then false else text_ltb a' b'
  end.

(** [std::upper_bound] by repeated halving; [comp v x] may itself be undefined. *)
Fixpoint upper_bound (fuel : nat) (comp : nid -> option bool) (l : list nid) (first len : nat) : option nat :=
  match fuel with
  | 0 => None
  | S k =>
      if Nat.eqb len 0 then Some first
      else
        let half := Nat.div2 len in
        let* x := nth_error l (first + half) in
        let* b := comp x in
        if b then upper_bound k comp l first half
        else upper_bound k comp l (S (first + half)) (len - half - 1)
  end.
(** [Vec.insert(std::upper_bound(Vec.begin(), Vec.end(), V, Comp), V)]. *)
Definition ordered_insert (comp : nid -> nid -> option bool) (l : list nid) (v : nid) : option (list nid) :=
  let* i := upper_bound (S (List.length l)) (comp v) l 0 (List.length l) in
  Some (firstn i l ++ v :: skipn i l).

(** The comparator of the iterator (FeatureModel.h:122-126). *)
Definition name_greater (h : heap) (a b : nid) : option bool :=
  let* x := lower_at h a in
  let* y := lower_at h b in
  Some (text_ltb y x).

(** [DFSIterator] (FeatureModel.h:156-158): the stack, top first, and the visited
    features. *)
Record dfs := Dfs { d_frontier : list nid; d_visited : list nid }.
Definition dfs_start (n : option nid) : dfs :=
  Dfs (match n with Some i => [i] | None => [] end) [].

(** [operator++] (FeatureModel.h:112-137). *)
Definition dfs_next (h : heap) (d : dfs) : option dfs :=
  match d_frontier d with
  | [] => Some d
  | f :: rest =>
      let visited := set_insert f (d_visited d) in
      let* cs := child_features h f in
      let* sorted := fold_left (fun o c => let* l := o in ordered_insert (name_greater h) l c) cs (Some []) in
      Some (Dfs (fold_left (fun s c => if mem c visited then s else c :: s) sorted rest) visited)
  end.

(** [operator==] of the iterator (FeatureModel.h:145-150) with the comparison of
    features by lower-case name (Feature.h:78-81). *)
Definition dfs_equal (h : heap) (a b : dfs) : option bool :=
  match d_frontier a, d_frontier b with
  | [], [] => Some true
  | x :: _, y :: _ =>
      let* u := lower_at h x in
      let* v := lower_at h y in
      Some (text_eqb u v)
  | _, _ => Some false
  end.

(** A range-based for loop from [d] to [e], collecting the visited features. *)
Fixpoint dfs_loop (fuel : nat) (h : heap) (d e : dfs) : option (list nid) :=
  match fuel with
  | 0 => None
  | S k =>
      let* stop := dfs_equal h d e in
      if (stop : bool) then Some []
      else
        match d_frontier d with
        | [] => None
        | f :: _ =>
            let* d' := dfs_next h d in
            let* r := dfs_loop k h d' e in
            Some (f :: r)
        end
  end.

(** The features from a root in iteration order (FeatureModel.h:163-171).  [fuel]
    bounds the number of steps. *)
Definition iterate (fuel : nat) (h : heap) (root : option nid) : option (list nid) :=
  let* e := match root with
            | Some r => let* p := parent_feature h r in Some (dfs_start p)
            | None => Some (dfs_start None)
            end in
  dfs_loop fuel h (dfs_start root) e.

(** The path from a feature to its topmost ancestor, topmost first, as collected
    at Feature.cpp:57-62. *)
Fixpoint trace (fuel : nat) (h : heap) (n : option nid) (acc : list nid) : option (list nid) :=
  match fuel with
  | 0 => None
  | S k =>
      match n with
      | None => Some acc
      | Some i => let* p := parent_feature h i in trace k h p (i :: acc)
      end
  end.

(** Dropping common ancestors (Feature.cpp:68-72). *)
Fixpoint skip_common (a b : list nid) : list nid * list nid :=
  match a, b with
  | x :: a', y :: b' => if Nat.eqb x y then skip_common a' b' else (a, b)
  | _, _ => (a, b)
  end.

(** [Feature::operator<] (Feature.cpp:53-81). *)
Definition feature_less (h : heap) (a b : nid) : option bool :=
  let* ta := trace (S (S (h_next h))) h (Some a) [] in
  let* tb := trace (S (S (h_next h))) h (Some b) [] in
  match ta, tb with
  | x :: _, y :: _ =>
      if negb (Nat.eqb x y) then
        let* u := lower_at h a in
        let* v := lower_at h b in
        Some (text_ltb u v)
      else
        match skip_common ta tb with
        | ([], r) => Some (match r with [] => false | _ => true end)
        | (_, []) => Some false
        | (p :: _, q :: _) =>
            let* u := lower_at h p in
            let* v := lower_at h q in
            Some (text_ltb u v)
        end
  | _, _ => None
  end.

(** [OrderedFeatureVector::insert] (OrderedFeatureVector.cpp:7-13). *)
Definition vector_insert (h : heap) (l : list nid) (v : nid) : option (list nid) :=
  ordered_insert (feature_less h) l v.

End Order.

(** What a mention in a constraint points to: a feature object owned by the
    mention itself, known by its name, or a feature of a model
    (Constraint.h:606-629). *)
Inductive cref := Own (s : text) | Ref (n : nid).

(** [FeatureModelConstraint] and the attributes of mixed constraints
    (FeatureModel.h:237-330). *)
Inductive creq := ReqAll | ReqNone.
Inductive cexprkind := ExprPos | ExprNeg.
Record mconstraint := MConstraint { c_id : nat; c_expr : cexpr cref }.
Record mixed := Mixed { x_con : mconstraint; x_req : creq; x_kind : cexprkind }.

(** [FeatureModel] (FeatureModel.h:463-471).  The feature map is a list of entries
    in order of insertion; the order in which the hash map is iterated is a
    parameter of the functions that depend on it. *)
Record fmodel := FModel {
  m_name : text;
  m_root : option nid;
  m_path : text;
  m_commit : text;
  m_features : list (text * nid);
  m_boolean : list mconstraint;
  m_nonboolean : list mconstraint;
  m_mixed : list mixed;
  m_relationships : list nid
}.

Definition with_name (m : fmodel) v := FModel v (m_root m) (m_path m) (m_commit m) (m_features m) (m_boolean m) (m_nonboolean m) (m_mixed m) (m_relationships m).
Definition with_root (m : fmodel) v := FModel (m_name m) v (m_path m) (m_commit m) (m_features m) (m_boolean m) (m_nonboolean m) (m_mixed m) (m_relationships m).
Definition with_path (m : fmodel) v := FModel (m_name m) (m_root m) v (m_commit m) (m_features m) (m_boolean m) (m_nonboolean m) (m_mixed m) (m_relationships m).
Definition with_commit (m : fmodel) v := FModel (m_name m) (m_root m) (m_path m) v (m_features m) (m_boolean m) (m_nonboolean m) (m_mixed m) (m_relationships m).
Definition with_features (m : fmodel) v := FModel (m_name m) (m_root m) (m_path m) (m_commit m) v (m_boolean m) (m_nonboolean m) (m_mixed m) (m_relationships m).
Definition with_boolean (m : fmodel) v := FModel (m_name m) (m_root m) (m_path m) (m_commit m) (m_features m) v (m_nonboolean m) (m_mixed m) (m_relationships m).
Definition with_nonboolean (m : fmodel) v := FModel (m_name m) (m_root m) (m_path m) (m_commit m) (m_features m) (m_boolean m) v (m_mixed m) (m_relationships m).
Definition with_mixed (m : fmodel) v := FModel (m_name m) (m_root m) (m_path m) (m_commit m) (m_features m) (m_boolean m) (m_nonboolean m) v (m_relationships m).
Definition with_relationships (m : fmodel) v := FModel (m_name m) (m_root m) (m_path m) (m_commit m) (m_features m) (m_boolean m) (m_nonboolean m) (m_mixed m) v.

(** [Features.find], [getFeature] (FeatureModel.h:62-68). *)
Fixpoint find_name (s : text) (l : list (text * nid)) : option nid :=
  match l with
  | [] => None
  | (k, i) :: r => if text_eqb k s then Some i else find_name s r
  end.
Definition get_feature (m : fmodel) (s : text) : option nid := find_name s (m_features m).

(** Constructors of features (Feature.h:41-43, 230-235, 252-261, 282-283). *)
Definition new_feature (k : fkind) (s : text) (opt : bool) (locs : list source_range) (out : text) : feature :=
  Feature k s out locs [] [] [] opt.
Definition root_feature (s : text) : feature := new_feature FRoot s false [] [].

Definition is_root_kind (f : feature) : bool := match f_kind f with FRoot => true | _ => false end.

(** [FeatureModel::addFeature] (FeatureModel.cpp:24-31): [None] stands for the null
    pointer; nothing is stored then. *)
Definition store_feature (h : heap) (m : fmodel) (f : feature) : option (nid * heap * fmodel) :=
  match get_feature m (f_name f) with
  | Some _ => None
  | None =>
      let (i, h') := h_alloc h (Cell (NFeature f) None []) in
      Some (i, h', with_features m (m_features m ++ [(f_name f, i)]))
  end.

(** [FeatureModel::removeFeature] (FeatureModel.cpp:33-38): erases, and so destroys,
    the feature stored under the name of [i]. *)
Definition erase_feature (h : heap) (m : fmodel) (i : nid) : option (heap * fmodel) :=
  let* s := name_at h i in
  let m1 := match m_root m with
            | Some r => if Nat.eqb i r then with_root m None else m
            | None => m
            end in
  match get_feature m s with
  | Some j => Some (h_set h j None, with_features m1 (filter (fun e => negb (text_eqb (fst e) s)) (m_features m1)))
  | None => Some (h, m1)
  end.

(** [addRelationship], [removeRelationship] of the model (FeatureModel.h:444-455). *)
Definition store_relationship (h : heap) (m : fmodel) (k : rkind) : nid * heap * fmodel :=
  let (i, h') := h_alloc h (Cell (NRelationship k) None []) in
  (i, h', with_relationships m (m_relationships m ++ [i])).
Definition erase_relationship (h : heap) (m : fmodel) (i : nid) : option (heap * fmodel) :=
  if mem i (m_relationships m)
  then Some (h_set h i None, with_relationships m (set_remove i (m_relationships m)))
  else None.

(** The constructor of a model (FeatureModel.h:40-47) and its default arguments. *)
Definition new_model_with (h : heap) (name root path commit : text) : heap * fmodel :=
  let (i, h') := h_alloc h (Cell (NFeature (root_feature root)) None []) in
  (h', FModel name (Some i) path commit [(root, i)] [] [] [] []).
Definition new_model (h : heap) : heap * fmodel :=
  new_model_with h (T "FeatureModel"%string) (T "root"%string) [] [].

(** The consistency rules (FeatureModel.h:667-712).  The answers do not depend on
    the order in which the feature map is iterated, except that a rule may stop
    before it reaches an undefined access; it is reported here whenever one exists. *)
Definition option_all {A} (p : A -> option bool) (l : list A) : option bool :=
  fold_right (fun a o => let* b := p a in let* c := o in Some (b && c)) (Some true) l.

Definition one_root (h : heap) (m : fmodel) : option bool :=
  match m_root m with
  | None => Some false
  | Some r =>
      let* f := feature_at h r in
      let* fs := fold_right (fun e o => let* f := feature_at h (snd e) in let* l := o in Some (f :: l))
                            (Some []) (m_features m) in
      Some (is_root_kind f && Nat.eqb (List.length (filter is_root_kind fs)) 1)
  end.
Definition every_feature_has_parent (h : heap) (m : fmodel) : option bool :=
  option_all (fun e =>
    let* f := feature_at h (snd e) in
    if is_root_kind f then Some true
    else let* p := parent_feature h (snd e) in
         Some (match p with Some _ => true | None => false end)) (m_features m).
Definition parents_list_children (h : heap) (m : fmodel) : option bool :=
  option_all (fun e =>
    let* f := feature_at h (snd e) in
    if is_root_kind f then Some true
    else let* c := h_cells h (snd e) in
         let* p := n_parent c in
         let* cp := h_cells h p in
         Some (mem (snd e) (n_edges cp))) (m_features m).

(** [ConsistencyCheck::isFeatureModelValid] (FeatureModelTransaction.h:25-28,
    FeatureModel.h:659-664): the rules in order, stopping at the first failure. *)
Definition consistent (h : heap) (m : fmodel) : option bool :=
  let* a := one_root h m in
  if negb a then Some false
  else let* b := every_feature_has_parent h m in
       if negb b then Some false else parents_list_children h m.
