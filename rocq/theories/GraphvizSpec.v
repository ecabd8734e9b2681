(** What the DOT text of a feature model says: statements, the drawing of a tree, labels.
    Independent of how the text is written. *)
From Coq Require Import List ZArith NArith Arith Bool Ascii String.
From Verif Require Import Text ConstraintModel ConstraintSpec SourceRangeModel FeatureTreeModel FeatureTreeSpec ConstraintHeapSpec XmlTextSpec.
Import ListNotations.
Local Open Scope string_scope.
Local Open Scope list_scope.

Definition newline : ascii := ascii_of_nat 10.
Definition in_quotes (t : text) : text := [ascii_of_nat 34] ++ t ++ [ascii_of_nat 34].

(** ** Statements *)
Inductive shape := Box | Ellipse.
Inductive head := Odot | Dot | Plain.
Inductive item :=
| INode (i : nid) (s : shape) (label : text)
| IEdge (p c : nid) (a : head)
| ICluster (i : nid) (its : list item)
| IRank (is : list nid).

Definition shape_text (s : shape) : text := match s with Box => T "box" | Ellipse => T "ellipse" end.
Definition head_text (a : head) : text := match a with Odot => T "odot" | Dot => T "dot" | Plain => T "none" end.
Definition node_line (name : text) (s : shape) (label : text) : text :=
  T "node_" ++ name ++ T " [shape=" ++ shape_text s ++ T " margin=.1 fontsize=12 fontname=" ++ in_quotes (T "CMU Typewriter") ++ T " label=" ++ label ++ T "];".
Definition edge_line (p c : text) (a : head) : text := T "node_" ++ p ++ T " -> node_" ++ c ++ T " [arrowhead=" ++ head_text a ++ T "];".
Definition settings : list text := [T "label=" ++ in_quotes [] ++ T ";"; T "margin=0;"; T "style=invis;"].

Section Names.
Variable ptr : nid -> text.
Fixpoint item_lines (x : item) : list text :=
  match x with
  | INode i s l => [node_line (ptr i) s l]
  | IEdge p c a => [edge_line (ptr p) (ptr c) a]
  | ICluster i its => [T "subgraph cluster_" ++ ptr i ++ T " {"] ++ settings ++ flat_map item_lines its ++ [T "}"]
  | IRank is => [T "{"; T "rank=same;"] ++ map (fun i => T "node_" ++ ptr i ++ T ";") is ++ [T "}"]
  end.
(** The lines, each indented somehow. *)
Inductive laid_out : list text -> text -> Prop :=
| lo_nil : laid_out [] []
| lo_line n l ls t : laid_out ls t -> laid_out (l :: ls) (repeat " "%char n ++ l ++ [newline] ++ t).
(** A graph with the statements behind the given head. *)
Definition graph_text (start : text) (items : list item) (t : text) : Prop :=
  exists body, laid_out (flat_map item_lines items) body /\ t = start ++ body ++ T "}" ++ [newline].
End Names.

(** ** Texts in quotation marks *)
(** The body of a quoted string: a quotation mark or backslash stands behind a backslash. *)
Inductive quoted_body : text -> Prop :=
| qb_nil : quoted_body []
| qb_plain c t : c <> ascii_of_nat 34 -> c <> ascii_of_nat 92 -> c <> newline -> quoted_body t -> quoted_body (c :: t)
| qb_escaped c t : c <> newline -> quoted_body t -> quoted_body (ascii_of_nat 92 :: c :: t).
(** How a character is shown: line breaks as [\n], tabulators as two spaces, characters with
    a meaning in records behind a backslash. *)
Definition shown_char (c : ascii) : text :=
  if Nat.eqb (code c) 10 then [ascii_of_nat 92; "n"%char]
  else if Nat.eqb (code c) 9 then T "  "
  else if existsb (Nat.eqb (code c)) [34; 60; 62; 123; 124; 125] then [ascii_of_nat 92; c]
  else [c].
(** [shown_as t u]: [u] stands for the text [t] in a DOT string.  Backslashes in [t] are taken
    for the beginning of something escaped already. *)
Record shown_as (t u : text) : Prop := ShownAs {
  sa_quoted : quoted_body u;
  sa_chars : ~ In (ascii_of_nat 92) t -> u = flat_map shown_char t;
  sa_markup : well_escaped t -> well_escaped u
}.
Definition first_line (this title q : text) : text :=
  match title with [] => T "digraph graph_" ++ this ++ T " {" | _ => T "digraph " ++ in_quotes q ++ T " {" end.
(** The head of the graph for a title and a model name. *)
Definition graph_head (this title name t : text) : Prop :=
  exists q r, shown_as title q /\ shown_as (T "Feature model for " ++ name) r /\
    t = first_line this title q ++ [newline] ++
        T "  " ++ T "graph [pad=.5 nodesep=2 ranksep=2 splines=true newrank=true bgcolor=white rankdir=tb overlap=false fontname=" ++ in_quotes (T "CMU Typewriter") ++
        T " label=" ++ in_quotes r ++ T "];" ++ [newline; newline].

(** ** Labels *)
Inductive html := HText (t : text) | HTag (name attributes : text) (kids : list html) | HEmpty (name : text).
Fixpoint render (e : html) : text :=
  match e with
  | HText t => t
  | HTag n a ks => T "<" ++ n ++ a ++ T ">" ++ flat_map render ks ++ T "</" ++ n ++ T ">"
  | HEmpty n => T "<" ++ n ++ T "/>"
  end.
Fixpoint html_texts (e : html) : list text :=
  match e with HText t => [t] | HTag _ _ ks => flat_map html_texts ks | HEmpty _ => [] end.
Definition tag_names : list text := map T ["table"; "tr"; "td"; "b"; "hr"].
(** Known tags; attributes without angle brackets. *)
Inductive html_ok : html -> Prop :=
| ho_text t : html_ok (HText t)
| ho_tag n a ks : In n tag_names -> (forall c, In c a -> c <> "<"%char /\ c <> ">"%char) -> Forall html_ok ks -> html_ok (HTag n a ks)
| ho_empty n : In n tag_names -> html_ok (HEmpty n).
(** The label is an element with the given texts. *)
Definition label_of (rows : list text) (l : text) : Prop :=
  exists e, html_ok e /\ html_texts e = rows /\ l = T "<" ++ render e ++ T ">".
(** A string between angle brackets ends where they are balanced. *)
Inductive balanced : text -> Prop :=
| bal_nil : balanced []
| bal_char c t : c <> "<"%char -> c <> ">"%char -> balanced t -> balanced (c :: t)
| bal_angle a b : balanced a -> balanced b -> balanced (T "<" ++ a ++ T ">" ++ b).
Definition html_string (l : text) : Prop := exists b, balanced b /\ l = T "<" ++ b ++ T ">".

(** The name of a mention, and of all mentions of a constraint. *)
Definition mentioned (h : heap) (r : cref) (s : text) : Prop :=
  match r with Own u => s = u | Ref i => exists f, feature_at h i = Some f /\ s = f_name f end.
Inductive spelled_out (h : heap) : cexpr cref -> cexpr text -> Prop :=
| so_int n : spelled_out h (CInt n) (CInt n)
| so_name r s : mentioned h r s -> spelled_out h (CFeat r) (CFeat s)
| so_un o x y : spelled_out h x y -> spelled_out h (CUn o x) (CUn o y)
| so_bin o l r x y : spelled_out h l x -> spelled_out h r y -> spelled_out h (CBin o l r) (CBin o x y).
(** The constraints of the model. *)
Definition owned_by (m : fmodel) (id : nat) (e : cexpr cref) : Prop :=
  exists c, c_id c = id /\ c_expr c = e /\ (In c (m_boolean m) \/ In c (m_nonboolean m) \/ exists x, In x (m_mixed m) /\ x_con x = c).
(** The constraints registered with a feature, with names for the mentions. *)
Definition registered (h : heap) (m : fmodel) (f : feature) (xs : list (cexpr text)) : Prop :=
  Forall2 (fun k x => exists e, owned_by m (fst k) e /\ spelled_out h e x) (f_constraints f) xs.

(** The texts in the label of a feature: name and output, constraints, locations. *)
Definition feature_rows (h : heap) (m : fmodel) (f : feature) (rows : list text) : Prop :=
  exists n o xs cs ls, shown_as (f_name f) n /\ trimmed_to (f_output f) o /\ registered h m f xs /\
    Forall2 shown_as (map (to_html U) xs) cs /\ Forall2 shown_as (map range_text (f_locations f)) ls /\
    rows = (n ++ T " (Flag: " ++ o ++ T ")") :: cs ++ ls.
Definition labels (h : heap) (m : fmodel) (d : ndata) (s : shape) (l : text) : Prop :=
  match d with
  | NFeature f => s = Box /\ exists rows, feature_rows h m f rows /\ label_of rows l
  | NRelationship RAlternative => s = Ellipse /\ l = T "ALTERNATIVE"
  | NRelationship ROr => s = Ellipse /\ l = T "OR"
  end.
Definition points (d : ndata) : head :=
  match d with NFeature f => if f_optional f then Odot else Dot | NRelationship _ => Plain end.

(** ** Drawings *)
Fixpoint nodes_in (x : item) : list (nid * shape * text) :=
  match x with INode i s l => [(i, s, l)] | ICluster _ its => flat_map nodes_in its | _ => [] end.
Fixpoint edges_in (x : item) : list (nid * nid * head) :=
  match x with IEdge p c a => [(p, c, a)] | ICluster _ its => flat_map edges_in its | _ => [] end.
Fixpoint clusters_in (x : item) : list (nid * list item) :=
  match x with ICluster i its => (i, its) :: flat_map clusters_in its | _ => [] end.
Definition declared (its : list item) : list nid := map (fun x => fst (fst x)) (flat_map nodes_in its).
(** The statements draw the tree: every node once with its label, every edge once with its
    head, and around what is below a node a cluster in which its children are on a rank. *)
Record draws (h : heap) (m : fmodel) (t : tree) (its : list item) : Prop := Draws {
  dr_nodes : declared its = ids t;
  dr_labels : forall u, subtree u t -> exists s l, In (rid u, s, l) (flat_map nodes_in its) /\ labels h m (rdata u) s l;
  dr_edges : forall p c a, In (p, c, a) (flat_map edges_in its) <-> exists u k, subtree u t /\ In k (kids u) /\ p = rid u /\ c = rid k /\ a = points (rdata k);
  dr_once : NoDup (flat_map edges_in its);
  dr_clusters : forall i part, In (i, part) (flat_map clusters_in its) ->
    exists u, subtree u t /\ i = rid u /\ kids u <> [] /\ declared part = flat_map ids (kids u) /\
      forall is, In (IRank is) part <-> is = map rid (kids u);
  dr_enclosed : forall u, subtree u t -> kids u <> [] -> exists part, In (rid u, part) (flat_map clusters_in its)
}.

(** Constraints registered with features of the tree belong to the model and mention live
    features; identities are unique. *)
Record registered_ok (h : heap) (m : fmodel) (t : tree) : Prop := RegisteredOk {
  ro_owned : forall u f k, subtree u t -> rdata u = NFeature f -> In k (f_constraints f) -> exists e x, owned_by m (fst k) e /\ spelled_out h e x;
  ro_unique : forall id e e', owned_by m id e -> owned_by m id e' -> e = e'
}.
(** Pointers are printed as different words of hexadecimal digits. *)
Definition hex_digit (c : ascii) : Prop := In c (T "0123456789abcdefx").
Record prints_pointers (ptr : nid -> text) : Prop := PrintsPointers {
  pp_hex : forall i c, In c (ptr i) -> hex_digit c;
  pp_injective : forall i j, ptr i = ptr j -> i = j
}.
(** Every output string is on one line. *)
Definition one_line (t : tree) : Prop := forall u f o, subtree u t -> rdata u = NFeature f -> trimmed_to (f_output f) o -> ~ In newline o.
(** Names, outputs and locations without markup characters; no constraint with an operator
    written with them below its outermost one. *)
Record without_markup (h : heap) (m : fmodel) (t : tree) : Prop := WithoutMarkup {
  wm_texts : forall u f, subtree u t -> rdata u = NFeature f ->
    Forall (fun c => ~ markup c) (f_name f) /\ Forall (fun c => ~ markup c) (f_output f) /\
    Forall (fun r => Forall (fun c => ~ markup c) (range_text r)) (f_locations f);
  wm_constraints : forall u f k e x, subtree u t -> rdata u = NFeature f -> In k (f_constraints f) -> owned_by m (fst k) e -> spelled_out h e x ->
    Forall (fun s => Forall (fun c => ~ markup c) s) (leaves x) /\ ~ nested_markup_op x
}.
