(** The DOT text of a feature model: [GraphWriter<FeatureModel *>]
    (include/vara/Feature/FeatureModel.h:484-648).

    The functions return [None] when a null pointer, a freed constraint or a freed feature
    is used, or when the nodes contain a cycle. *)
From Coq Require Import List ZArith NArith Arith Bool Ascii String.
From Verif Require Import Text ConstraintModel SourceRangeModel FeatureTreeModel SxfmModel.
Import ListNotations.
Local Open Scope string_scope.
Local Open Scope list_scope.

Definition nl : ascii := ascii_of_nat 10.
Definition quote : ascii := ascii_of_nat 34.
Definition backslash : ascii := ascii_of_nat 92.
Definition quoted (t : text) : text := quote :: t ++ [quote].

(** [DOT::EscapeString] of LLVM (llvm/lib/Support/GraphWriter.cpp).  The loop changes the
    string in place; the characters behind an escaped one are handled next, the character
    behind a removed backslash is skipped. *)
Definition special (c : ascii) : bool := existsb (Ascii.eqb c) [ "{"; "}"; "<"; ">"; "|"; quote]%char.
Fixpoint dot_escape (t : text) : text :=
  match t with
  | [] => []
  | c :: r =>
      if Ascii.eqb c nl then backslash :: "n"%char :: dot_escape r
      else if Ascii.eqb c (ascii_of_nat 9) then " "%char :: " "%char :: dot_escape r
      else if Ascii.eqb c backslash then
        match r with
        | d :: r' =>
            if Ascii.eqb d "l" then backslash :: dot_escape r
            else if existsb (Ascii.eqb d) ["|"; "{"; "}"]%char then d :: dot_escape r'
            else backslash :: backslash :: dot_escape r
        | [] => [backslash; backslash]
        end
      else if special c then backslash :: c :: dot_escape r
      else c :: dot_escape r
  end.

(** [raw_ostream::indent]. *)
Definition indent (n : nat) : text := repeat " "%char n.

(** The outermost object of a registered constraint: [C->getRoot()].  The constraint is
    found by its identity in the model that owns it. *)
Definition model_constraints (m : fmodel) : list mconstraint := m_boolean m ++ m_nonboolean m ++ map x_con (m_mixed m).
Definition constraint_of (m : fmodel) (id : nat) : option (cexpr cref) :=
  option_map c_expr (find (fun c => Nat.eqb (c_id c) id) (model_constraints m)).
(** The name a mention prints (Constraint.cpp:29-31). *)
Definition mention_name (h : heap) (r : cref) : option text :=
  match r with Own s => Some s | Ref i => name_at h i end.
Fixpoint named_expr (h : heap) (e : cexpr cref) : option (cexpr text) :=
  match e with
  | CBin o l r => let* x := named_expr h l in let* y := named_expr h r in Some (CBin o x y)
  | CUn o x => let* y := named_expr h x in Some (CUn o y)
  | CInt n => Some (CInt n)
  | CFeat r => let* s := mention_name h r in Some (CFeat s)
  end.
Definition constraint_html (h : heap) (e : cexpr cref) : option text :=
  let* x := named_expr h e in Some (to_html U x).

Fixpoint all_some {A B} (f : A -> option B) (l : list A) : option (list B) :=
  match l with
  | [] => Some []
  | x :: r => let* y := f x in let* ys := all_some f r in Some (y :: ys)
  end.

(** [buildFeatureLabel] (581-606). *)
Definition constraint_row (t : text) : text := T "<tr><td>" ++ dot_escape t ++ T "</td></tr>".
Definition location_row (r : source_range) : text := T "<tr><td><b>" ++ dot_escape (range_text r) ++ T "</b></td></tr>".
Definition title_row (f : feature) : text :=
  T "<tr><td><b>" ++ dot_escape (f_name f) ++ T " (Flag: " ++ trim (f_output f) ++ T ")</b></td></tr>".
Definition location_rows (ls : list source_range) : text :=
  match ls with [] => [] | _ => T "<hr/>" ++ flat_map location_row ls end.
Definition feature_label (h : heap) (m : fmodel) (f : feature) : option text :=
  let* cs := all_some (fun k : nat * nat => let* e := constraint_of m (fst k) in constraint_html h e) (f_constraints f) in
  Some (T "<<table align=" ++ quoted (T "center") ++ T " valign=" ++ quoted (T "middle") ++ T " border=" ++ quoted (T "0") ++
        T " cellborder=" ++ quoted (T "0") ++ T " cellpadding=" ++ quoted (T "5") ++ T ">" ++
        title_row f ++ flat_map constraint_row cs ++ location_rows (f_locations f) ++ T "</table>>").

Section Writer.
(** How a pointer is printed. *)
Variable ptr : nid -> text.

Definition node_name (i : nid) : text := T "node_" ++ ptr i.
(** [emitNode] (609-635). *)
Definition emit_node (h : heap) (m : fmodel) (i : nid) : option text :=
  let* c := h_cells h i in
  let* label := match n_data c with
    | NFeature f => feature_label h m f
    | NRelationship RAlternative => Some (T "ALTERNATIVE")
    | NRelationship ROr => Some (T "OR")
    end in
  let shape := match n_data c with NFeature _ => T "box" | NRelationship _ => T "ellipse" end in
  Some (indent 2 ++ node_name i ++ T " [shape=" ++ shape ++ T " margin=.1 fontsize=12 fontname=" ++ quoted (T "CMU Typewriter") ++
        T " label=" ++ label ++ T "];" ++ [nl]).
(** [emitEdge] (637-645). *)
Definition emit_edge (p c : nid) (attrs : text) : text :=
  indent 2 ++ node_name p ++ T " -> " ++ node_name c ++
  (match attrs with [] => [] | _ => T " [" ++ attrs ++ T "]" end) ++ T ";" ++ [nl].
Definition arrow (h : heap) (i : nid) : option text :=
  let* c := h_cells h i in
  Some (match n_data c with
        | NFeature f => if f_optional f then T "arrowhead=odot" else T "arrowhead=dot"
        | NRelationship _ => T "arrowhead=none"
        end).

(** [emitCluster] (551-579). *)
Fixpoint emit_cluster (fuel : nat) (h : heap) (m : fmodel) (i : nid) (ind : nat) : option text :=
  match fuel with
  | 0 => None
  | S k =>
      let* node := emit_node h m i in
      let* c := h_cells h i in
      match n_edges c with
      | [] => Some (indent ind ++ node)
      | es =>
          let* parts := all_some (fun e =>
            let* t := emit_cluster k h m e (ind + 2) in
            let* a := arrow h e in
            Some (t ++ indent (ind + 2) ++ emit_edge i e a)) es in
          Some (indent ind ++ node ++
                indent (ind + 2) ++ T "subgraph cluster_" ++ ptr i ++ T " {" ++ [nl] ++
                indent (ind + 4) ++ T "label=" ++ quoted [] ++ T ";" ++ [nl] ++
                indent (ind + 4) ++ T "margin=0;" ++ [nl] ++
                indent (ind + 4) ++ T "style=invis;" ++ [nl] ++
                List.concat parts ++
                indent (ind + 4) ++ T "{" ++ [nl] ++
                indent (ind + 6) ++ T "rank=same;" ++ [nl] ++
                flat_map (fun e => indent (ind + 6) ++ node_name e ++ T ";" ++ [nl]) es ++
                indent (ind + 4) ++ T "}" ++ [nl] ++
                indent (ind + 2) ++ T "}" ++ [nl])
      end
  end.

(** [writeHeader] (512-526), with the address of the model. *)
Definition header (this : text) (title name : text) : text :=
  (match title with
   | [] => T "digraph graph_" ++ this ++ T " {" ++ [nl]
   | _ => T "digraph " ++ quoted (dot_escape title) ++ T " {" ++ [nl]
   end) ++
  indent 2 ++ T "graph [pad=.5 nodesep=2 ranksep=2 splines=true newrank=true bgcolor=white rankdir=tb overlap=false fontname=" ++
  quoted (T "CMU Typewriter") ++ T " label=" ++ quoted (dot_escape (T "Feature model for " ++ name)) ++ T "];" ++ [nl; nl].
(** [writeGraph] (501-510). *)
Definition write_graph (this : text) (h : heap) (m : fmodel) (title : text) : option text :=
  let* r := m_root m in
  let* body := emit_cluster (S (h_next h)) h m r 0 in
  Some (header this title (m_name m) ++ body ++ T "}" ++ [nl]).
End Writer.
