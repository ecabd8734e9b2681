(** What the viewer shows of a document, in terms of what the document describes. *)
From Coq Require Import List ZArith Arith Bool Ascii String Permutation.
From Verif Require Import Text ConstraintModel ConstraintSpec ConstraintHeapSpec SourceRangeModel FeatureTreeModel FeatureTreeSpec FeatureTransactionModel FeatureEditSpec
  FeatureBuildSpec SxfmModel XmlModel XmlSpec SolverSpec DescribedSpec XmlTextSpec GraphvizModel GraphvizSpec DumpSpec.
Import ListNotations.

(** The root and the features of a description. *)
Definition described (d : decl) : list feature := root_feature (fst d) :: snd d.

(** ** Printed *)
(** An entry tells about a feature. *)
Record tells (cs : list bcall) (d : decl) (f : feature) (e : entry) : Prop := Tells {
  te_name : e_name e = f_name f;
  te_optional : e_optional e = f_optional f;
  te_locations : e_locations e = map range_text (f_locations f);
  te_values : e_values e = match f_kind f with FNumeric v _ => Some v | _ => None end;
  te_top : f_name f = fst d -> e_parent e = None;
  te_parent : In f (snd d) -> e_parent e = Some (parent_of cs d (f_name f));
  te_children : forall s, In s (e_children e) <-> (exists g, below cs d (f_name f) g /\ f_name g = s) /\ ~ alternatives cs d (f_name f);
  te_once : NoDup (e_children e)
}.
(** There is one entry for every feature. *)
Definition tells_all (cs : list bcall) (d : decl) (es : list entry) : Prop :=
  exists fs, Permutation fs (described d) /\ Forall2 (tells cs d) fs es.

(** ** Drawn *)
(** Constraints with names for the mentions. *)
Definition naming (e : cexpr cref) : cexpr text := cmap (fun r => match r with Own s => s | Ref _ => [] end) e.
(** The constraints that mention [s], once for every mention. *)
Definition mentioning (cs : list bcall) (s : text) : list (cexpr text) :=
  flat_map (fun x => repeat (naming (snd x)) (count_occ (list_eq_dec ascii_dec) (leaves (naming (snd x))) s)) (constraints_of cs).
(** The texts in the box of a feature. *)
Definition box_rows (cs : list bcall) (f : feature) (rows : list text) : Prop :=
  exists n o xs ys ls, shown_as (f_name f) n /\ trimmed_to (f_output f) o /\ Permutation xs (mentioning cs (f_name f)) /\
    Forall2 shown_as (map (to_html U) xs) ys /\ Forall2 shown_as (map range_text (f_locations f)) ls /\
    rows = (n ++ T " (Flag: " ++ o ++ T ")") :: ys ++ ls.
Definition head_of (f : feature) : head := if f_optional f then Odot else Dot.
(** The drawing of a description: [box s] is the node of the feature [s], [knot s] the node
    of the group of its children. *)
Record pictures (cs : list bcall) (d : decl) (box knot : text -> nid) (gs : list text) (its : list item) : Prop := Pictures {
  pi_groups : NoDup gs /\ forall s, In s gs <-> taken d s /\ alternatives cs d s;
  pi_once : NoDup (GraphvizSpec.declared its);
  pi_nodes : Permutation (GraphvizSpec.declared its) (map (fun f => box (f_name f)) (described d) ++ map knot gs);
  pi_boxes : forall f, In f (described d) -> exists l rows, In (box (f_name f), Box, l) (flat_map nodes_in its) /\ label_of rows l /\ box_rows cs f rows;
  pi_knots : forall s, In s gs -> In (knot s, Ellipse, T "ALTERNATIVE") (flat_map nodes_in its);
  pi_edges : forall x, In x (flat_map edges_in its) <->
    (exists s f, below cs d s f /\ ~ alternatives cs d s /\ x = (box s, box (f_name f), head_of f)) \/
    (exists s, In s gs /\ x = (box s, knot s, Plain)) \/
    (exists s f, below cs d s f /\ alternatives cs d s /\ x = (knot s, box (f_name f), head_of f));
  pi_edges_once : NoDup (flat_map edges_in its)
}.
Definition drawn (cs : list bcall) (d : decl) (its : list item) : Prop := exists box knot gs, pictures cs d box knot gs its.
(** The text of the graph of a description. *)
Definition pictured (ptr : nid -> text) (this : text) (cs : list bcall) (d : decl) (g : text) : Prop :=
  exists start its, graph_head this [] (last_name cs (T "FeatureModel")) start /\ graph_text ptr start its g /\ drawn cs d its.
