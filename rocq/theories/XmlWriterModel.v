(** The writer of the XML format.
    Models lib/Feature/FeatureModelWriter.cpp (FeatureModelXmlWriter).

    The model produces the tree of elements that is handed to libxml2; the text written
    by libxml2 and its error codes are not modelled.  [None] is undefined behaviour. *)
From Coq Require Import List ZArith NArith Arith Bool Ascii String.
From Verif Require Import Text ConstraintModel SourceRangeModel FeatureTreeModel FeatureTransactionModel XmlModel.
Import ListNotations.
Local Open Scope string_scope.
Local Open Scope list_scope.
Local Open Scope nat_scope.

(** [xmlTextWriterWriteElement]. *)
Definition leaf_elem (s : string) (t : text) : xml := Elem (T s) [] t [].
(** [xmlTextWriterStartElement] ... [xmlTextWriterEndElement]. *)
Definition elem (s : string) (es : list xml) : xml := Elem (T s) [] [] es.

(** [writeSourceRange] (462-522); a missing start or end is dereferenced (490, 507). *)
Definition write_location (s : string) (l : location) : xml :=
  elem s [leaf_elem "line" (print_N (l_line l)); leaf_elem "column" (print_N (l_column l))].
Definition write_range (r : source_range) : option xml :=
  let* s := sr_start r in
  let* n := sr_end r in
  Some (Elem (T "sourceRange") [(T "category", T (match sr_category r with Necessary => "necessary" | Inessential => "inessential" end))] []
          [leaf_elem "path" (sr_path r); write_location "start" s; write_location "end" n]).

(** Conversion of an [int64_t] to the parameter of type [int] (430). *)
Definition narrow (z : Z) : Z := ((z + 2 ^ 31) mod 2 ^ 32 - 2 ^ 31)%Z.
(** The text of a list of values (427-434); the last one of an empty list is read. *)
Fixpoint write_values (vs : list Z) : option text :=
  match vs with
  | [] => None
  | [v] => Some (print_Z v)
  | v :: r => let* t := write_values r in Some (print_Z (narrow v) ++ T ";" ++ t)
  end.
Definition write_kind (k : fkind) : option (list xml) :=
  match k with
  | FNumeric (VRange lo hi) _ => Some [leaf_elem "minValue" (print_Z lo); leaf_elem "maxValue" (print_Z hi)]
  | FNumeric (VList vs) _ => let* t := write_values vs in Some [leaf_elem "values" t]
  | _ => Some []
  end.

(** A list of names below an element that is left out if empty (325-338, 359-370, 398-409). *)
Definition write_names (h : heap) (s : string) (l : list nid) : option (list xml) :=
  let* ns := map_option (name_at h) l in
  Some (match ns with [] => [] | _ => [elem s (map (leaf_elem "options") ns)] end).

Section Order.
Variable ord : list nid -> list nid.

(** [OrderedFeatureVector] filled one by one. *)
Definition insert_all (h : heap) (l vs : list nid) : option (list nid) :=
  fold_left (fun o v => let* l := o in vector_insert h l v) vs (Some l).

(** The features on the right-hand sides of the implications or exclusions [ids] whose
    left-hand side is called like [f] (343-357, 382-396).
    Simplification: a mention that is not connected to the model (left behind by an
    addition that failed) is not modelled and gives [None]. *)
Definition right_sides (h : heap) (m : fmodel) (f : feature) (ids : list nat) : option (list nid) :=
  let* ls := map_option (fun id =>
    let* e := constraint_of m id in
    match e with
    | CBin _ (CFeat x) (CFeat (Ref y)) => let* u := cref_name h x in Some (if text_eqb u (f_name f) then [y] else [])
    | CBin _ (CFeat x) (CFeat (Own _)) => let* u := cref_name h x in if text_eqb u (f_name f) then None else Some []
    | _ => Some []
    end) ids in
  Some (List.concat ls).

(** Exclusions (374-396): the other members of the group the feature is in, then those of
    the constraints that are not listed yet. *)
Definition siblings (h : heap) (i : nid) : option (list nid) :=
  let* c := h_cells h i in
  match n_parent c with
  | None => Some []
  | Some p =>
      let* cp := h_cells h p in
      if is_relationship (n_data cp) then let* es := child_features ord h p in Some (set_remove i es) else Some []
  end.
Definition insert_new (h : heap) (l : list nid) (vs : list nid) : option (list nid) :=
  fold_left (fun o v => let* l := o in if mem v l then Some l else vector_insert h l v) vs (Some l).

(** [writeFeature] (302-460). *)
Definition write_feature (h : heap) (m : fmodel) (i : nid) : option xml :=
  let* f := feature_at h i in
  let* q := parent_feature h i in
  let* parent := match q with None => Some [] | Some p => let* s := name_at h p in Some [leaf_elem "parent" s] end in
  let* cs := child_features ord h i in
  let* cs := insert_all h [] cs in
  let* children := write_names h "children" cs in
  let* is := right_sides h m f (f_implications f) in
  let* is := insert_all h [] is in
  let* implied := write_names h "impliedOptions" is in
  let* ss := siblings h i in
  let* ss := insert_all h [] ss in
  let* es := right_sides h m f (f_excludes f) in
  let* es := insert_new h ss es in
  let* excluded := write_names h "excludedOptions" es in
  let* numeric := write_kind (f_kind f) in
  let* ranges := map_option write_range (f_locations f) in
  Some (elem "configurationOption"
    (leaf_elem "name" (f_name f) :: parent ++ children ++ implied ++ excluded ++
     leaf_elem "optional" (T (if f_optional f then "True" else "False")) :: numeric ++
     match ranges with [] => [] | _ => [elem "locations" ranges] end)).

(** The features of one kind in iteration order (131-161). *)
Definition write_features (h : heap) (m : fmodel) (p : fkind -> bool) (s : string) : option xml :=
  let* fs := iterate ord (S (h_next h)) h (m_root m) in
  let* es := map_option (fun i => let* f := feature_at h i in
                          if p (f_kind f) then let* e := write_feature h m i in Some [e] else Some []) fs in
  Some (elem s (List.concat es)).
Definition is_binary_option (k : fkind) : bool := match k with FRoot | FBinary => true | _ => false end.
Definition is_numeric_option (k : fkind) : bool := match k with FNumeric _ _ => true | _ => false end.

(** The names of the mentioned features. *)
Fixpoint spell (h : heap) (c : cexpr cref) : option (cexpr string) :=
  match c with
  | CBin o l r => let* l' := spell h l in let* r' := spell h r in Some (CBin o l' r')
  | CUn o e => let* e' := spell h e in Some (CUn o e')
  | CInt n => Some (CInt n)
  | CFeat r => let* s := cref_name h r in Some (CFeat (U s))
  end.
(** [toString] of a constraint. *)
Definition constraint_text (h : heap) (c : mconstraint) : option text :=
  let* e := spell h (c_expr c) in Some (to_string (fun s => s) e).
(** Written with the options already (204-221). *)
Definition is_pair (c : cexpr cref) : bool :=
  match c with CBin BImplies (CFeat _) (CFeat _) | CBin BExcludes (CFeat _) (CFeat _) => true | _ => false end.

(** [writeBooleanConstraints] (163-233; the set of groups is always empty),
    [writeNonBooleanConstraints] (235-253), [writeMixedConstraints] (255-300). *)
Definition write_plain (h : heap) (c : mconstraint) : option xml :=
  let* t := constraint_text h c in Some (leaf_elem "constraint" t).
Definition write_mixed (h : heap) (x : mixed) : option xml :=
  let* t := constraint_text h (x_con x) in
  Some (Elem (T "constraint")
    [(T "req", T (match x_req x with ReqAll => "all" | ReqNone => "none" end));
     (T "exprKind", T (match x_kind x with ExprPos => "pos" | ExprNeg => "neg" end))] t []).
Definition write_section {A} (s : string) (f : A -> option xml) (all written : list A) : option (list xml) :=
  match all with
  | [] => Some []
  | _ => let* es := map_option f written in Some [elem s es]
  end.

(** [writeVm] (90-129). *)
Definition write_xml (h : heap) (m : fmodel) : option xml :=
  let* binary := write_features h m is_binary_option "binaryOptions" in
  let* numeric := write_features h m is_numeric_option "numericOptions" in
  let* bs := write_section "booleanConstraints" (write_plain h) (m_boolean m) (filter (fun c => negb (is_pair (c_expr c))) (m_boolean m)) in
  let* ns := write_section "nonBooleanConstraints" (write_plain h) (m_nonboolean m) (m_nonboolean m) in
  let* xs := write_section "mixedConstraints" (write_mixed h) (m_mixed m) (m_mixed m) in
  Some (Elem (T "vm")
    ((T "name", m_name m) :: (T "root", m_path m) :: match m_commit m with [] => [] | t => [(T "commit", t)] end) []
    (binary :: numeric :: bs ++ ns ++ xs)).
End Order.
