(** Feature trees, independent of the linked representation. *)
From Coq Require Import List Arith Bool Ascii Sorted Permutation.
From Verif Require Import Text FeatureTreeModel.
Import ListNotations.

(** A tree of nodes: address, content, children in order. *)
Inductive tree := Node (n : nid) (d : ndata) (ts : list tree).

Definition rid (t : tree) : nid := match t with Node n _ _ => n end.
Definition rdata (t : tree) : ndata := match t with Node _ d _ => d end.
Definition kids (t : tree) : list tree := match t with Node _ _ ts => ts end.

(** All addresses in a tree. *)
Fixpoint ids (t : tree) : list nid :=
  match t with Node n _ ts => n :: flat_map ids ts end.

(** The cells that represent a tree below the parent [p]. *)
Fixpoint entries (p : option nid) (t : tree) : list (nid * node) :=
  match t with Node n d ts => (n, Cell d p (map rid ts)) :: flat_map (entries (Some n)) ts end.

(** The heap contains the tree. *)
Definition holds (h : heap) (p : option nid) (t : tree) : Prop :=
  forall i c, In (i, c) (entries p t) -> h_cells h i = Some c.

(** Nothing lives at addresses that have not been handed out. *)
Definition heap_ok (h : heap) : Prop := forall i, h_next h <= i -> h_cells h i = None.

(** The trees of the topmost nodes of a type in a tree, and of the nearest features
    below a list of nodes. *)
Fixpoint tops (is_t : ndata -> bool) (t : tree) : list tree :=
  match t with Node _ d ts => if is_t d then [t] else flat_map (tops is_t) ts end.
Definition near (ts : list tree) : list tree := flat_map (tops is_feature) ts.

(** All features of a tree. *)
Fixpoint feature_ids (t : tree) : list nid :=
  match t with Node n d ts => (if is_feature d then [n] else []) ++ flat_map feature_ids ts end.

(** The name of the feature at the top of a tree, folded to lower case. *)
Definition tname (t : tree) : text :=
  match rdata t with NFeature f => f_name f | NRelationship _ => [] end.
Definition lname (t : tree) : text := lower (tname t).

(** Lexicographic order of texts. *)
Inductive text_lt : text -> text -> Prop :=
| lt_nil c t : text_lt [] (c :: t)
| lt_head c d t u : code c < code d -> text_lt (c :: t) (d :: u)
| lt_tail c t u : text_lt t u -> text_lt (c :: t) (c :: u).

Definition name_le (u v : tree) : Prop := text_lt (lname u) (lname v) \/ lname u = lname v.

(** [preorder t l]: [l] lists the features of [t] with the top first, followed by
    the contiguous listings of the subtrees of the child features, siblings in
    ascending order of their lower-case names. *)
Inductive preorder : tree -> list nid -> Prop :=
| pre_node n d ts us l :
    Permutation us (near ts) -> StronglySorted name_le us -> preorders us l ->
    preorder (Node n d ts) (n :: l)
with preorders : list tree -> list nid -> Prop :=
| pre_nil : preorders [] []
| pre_cons u us l k : preorder u l -> preorders us k -> preorders (u :: us) (l ++ k).

(** [s] is a part of [t]. *)
Inductive subtree (s : tree) : tree -> Prop :=
| sub_refl : subtree s s
| sub_kid n d ts t : In t ts -> subtree s t -> subtree s (Node n d ts).

(** Sibling features have different lower-case names. *)
Definition distinct_siblings (t : tree) : Prop :=
  forall s, subtree s t -> is_feature (rdata s) = true -> NoDup (map lname (near (kids s))).

(** [a] stands before [b]. *)
Definition before {A} (l : list A) (a b : A) : Prop :=
  exists x y z, l = x ++ a :: y ++ b :: z.

(** [x] is reached from [n] over [k] edges and is the first node of the wanted
    type on that way. *)
Inductive nearest (h : heap) (is_t : ndata -> bool) : nid -> nat -> nid -> Prop :=
| near_here n c x cx :
    h_cells h n = Some c -> In x (n_edges c) -> h_cells h x = Some cx -> is_t (n_data cx) = true ->
    nearest h is_t n 1 x
| near_below n c y cy k x :
    h_cells h n = Some c -> In y (n_edges c) -> h_cells h y = Some cy -> is_t (n_data cy) = false ->
    nearest h is_t y k x -> nearest h is_t n (S k) x.

(** A permutation oracle: sets may be iterated in any order. *)
Definition is_order (ord : list nid -> list nid) : Prop := forall l, Permutation (ord l) l.
