(** The reader for the XML format.
    Models lib/Feature/FeatureModelParser.cpp:20-447 (FeatureModelXmlParser) and the
    document type of lib/Feature/XmlConstants.h.

    Not modelled: libxml2's parsing of the text.  The model starts from the tree of
    elements libxml2 delivers.  Messages on stderr and line numbers are not modelled. *)
From Coq Require Import List ZArith NArith Arith Bool Ascii String.
From Verif Require Import Text LlvmInt ConstraintModel ConstraintParserModel SourceRangeModel StepFunctionModel FeatureTreeModel FeatureTransactionModel SxfmModel.
Import ListNotations.
Local Open Scope string_scope.
Local Open Scope list_scope.
Local Open Scope nat_scope.

(** ** Documents *)
(** An element: its name, its attributes, its own text and its child elements.
    Simplification: the texts between child elements are joined. *)
Inductive xml := Elem (name : text) (attrs : list (text * text)) (body : text) (elems : list xml).
Definition tag (e : xml) : text := match e with Elem n _ _ _ => n end.
Definition attributes (e : xml) : list (text * text) := match e with Elem _ a _ _ => a end.
Definition body (e : xml) : text := match e with Elem _ _ b _ => b end.
Definition elems (e : xml) : list xml := match e with Elem _ _ _ es => es end.
(** [xmlStrcmp(Node->name, ...) == 0]. *)
Definition is_tag (s : string) (e : xml) : bool := text_eqb (tag e) (T s).
(** [xmlNodeGetContent]. *)
Fixpoint content (e : xml) : text := match e with Elem _ _ b es => b ++ flat_map content es end.
(** [xmlGetProp]: [None] is the null pointer. *)
Definition attr (s : string) (e : xml) : option text :=
  match find (fun a => text_eqb (fst a) (T s)) (attributes e) with Some a => Some (snd a) | None => None end.

(** ** The document type (XmlConstants.h:55-101) *)
(** What may stand below an element, in order. *)
Inductive particle :=
| PTag (s : string)
| PMany (s : string)
| PMaybe (p : particle)
| PSeq (p q : particle)
| PAlt (p q : particle).
(** What can be left of a list of names after a particle. *)
Fixpoint eat (p : particle) (l : list text) : list (list text) :=
  match p with
  | PTag s => match l with x :: r => if text_eqb x (T s) then [r] else [] | [] => [] end
  | PMany s =>
      (fix many (l : list text) : list (list text) :=
         l :: match l with x :: r => if text_eqb x (T s) then many r else [] | [] => [] end) l
  | PMaybe p => l :: eat p l
  | PSeq p q => flat_map (eat q) (eat p l)
  | PAlt p q => eat p l ++ eat q l
  end.
Definition fits (p : particle) (l : list text) : bool := existsb (fun r => match r with [] => true | _ => false end) (eat p l).

Fixpoint sequence (ps : list particle) (last : particle) : particle :=
  match ps with [] => last | p :: r => PSeq p (sequence r last) end.

(** An element declaration: text only, or child elements. *)
Inductive declaration := OnlyText | Below (p : particle).
Definition option_particle : particle :=
  sequence [PTag "name"; PMaybe (PTag "outputString"); PMaybe (PAlt (PTag "prefix") (PTag "preFix"));
            PMaybe (PAlt (PTag "postfix") (PTag "postFix")); PMaybe (PTag "parent"); PMaybe (PTag "children");
            PMaybe (PTag "impliedOptions"); PMaybe (PTag "excludedOptions"); PMaybe (PTag "defaultValue"); PMaybe (PTag "optional");
            PMaybe (PAlt (PSeq (PTag "minValue") (PTag "maxValue")) (PTag "values")); PMaybe (PTag "stepFunction")]
           (PMaybe (PTag "locations")).
Definition declarations : list (string * declaration) :=
  [("vm", Below (sequence [PTag "binaryOptions"; PMaybe (PTag "numericOptions"); PMaybe (PTag "booleanConstraints");
                           PMaybe (PTag "nonBooleanConstraints")] (PMaybe (PTag "mixedConstraints"))));
   ("binaryOptions", Below (PMany "configurationOption")); ("numericOptions", Below (PMany "configurationOption"));
   ("booleanConstraints", Below (PMany "constraint")); ("nonBooleanConstraints", Below (PMany "constraint"));
   ("mixedConstraints", Below (PMany "constraint")); ("configurationOption", Below option_particle);
   ("constraint", OnlyText); ("name", OnlyText); ("outputString", OnlyText); ("prefix", OnlyText); ("preFix", OnlyText);
   ("postfix", OnlyText); ("postFix", OnlyText); ("parent", OnlyText); ("children", Below (PMany "options"));
   ("impliedOptions", Below (PMany "options")); ("excludedOptions", Below (PMany "options")); ("defaultValue", OnlyText);
   ("options", OnlyText); ("optional", OnlyText); ("minValue", OnlyText); ("maxValue", OnlyText); ("values", OnlyText);
   ("stepFunction", OnlyText); ("locations", Below (PMany "sourceRange"));
   ("sourceRange", Below (sequence [PMaybe (PTag "revisionRange"); PTag "path"; PTag "start"; PTag "end"] (PMaybe (PTag "memberOffset"))));
   ("revisionRange", Below (PSeq (PTag "introduced") (PMaybe (PTag "removed")))); ("introduced", OnlyText); ("removed", OnlyText);
   ("path", OnlyText); ("start", Below (PSeq (PTag "line") (PTag "column"))); ("end", Below (PSeq (PTag "line") (PTag "column")));
   ("line", OnlyText); ("column", OnlyText); ("memberOffset", OnlyText)].
Definition declaration_of (n : text) : option declaration :=
  match find (fun d => text_eqb n (T (fst d))) declarations with Some d => Some (snd d) | None => None end.

(** Attribute declarations: whether required, and the admitted values if restricted. *)
Definition attribute_declarations (n : text) : list (string * (bool * option (list string))) :=
  if text_eqb n (T "vm") then [("name", (true, None)); ("root", (false, None)); ("commit", (false, None))]
  else if text_eqb n (T "constraint") then [("req", (false, None)); ("exprKind", (false, None))]
  else if text_eqb n (T "sourceRange") then [("category", (false, Some ["necessary"; "inessential"]))]
  else [].
Definition attributes_ok (e : xml) : bool :=
  let ds := attribute_declarations (tag e) in
  forallb (fun a => existsb (fun d => text_eqb (fst a) (T (fst d)) &&
    match snd (snd d) with None => true | Some vs => existsb (fun v => text_eqb (snd a) (T v)) vs end) ds) (attributes e) &&
  forallb (fun d => negb (fst (snd d)) || existsb (fun a => text_eqb (fst a) (T (fst d))) (attributes e)) ds.

(** [xmlValidateDtd] (FeatureModelParser.cpp:419-439).  libxml2 compares the root element
    with the name in the document's own DOCTYPE, not with "vm". *)
Fixpoint valid (e : xml) : bool :=
  match e with
  | Elem n a b es =>
      attributes_ok e &&
      match declaration_of n with
      | None => false
      | Some OnlyText => match es with [] => true | _ => false end
      | Some (Below p) => forallb is_space b && fits p (map tag es)
      end && forallb valid es
  end.

(** ** Small texts *)
(** The matches of [-?\d+] from left to right (FeatureModelParser.cpp:124-129): [minus]
    tells whether a minus sign has just been passed, [cur] is the match so far. *)
Definition emit (cur : text) : list text := match cur with [] => [] | _ => [cur] end.
Fixpoint numerals (minus : bool) (cur : text) (t : text) : list text :=
  match t with
  | [] => emit cur
  | c :: r =>
      if is_digit c then numerals false (match cur with [] => if minus then ["-"%char; c] else [c] | _ => cur ++ [c] end) r
      else emit cur ++ numerals (Ascii.eqb c "-") [] r
  end.

(** [atoi] of the C library; [None]: the value is not an [int], which is undefined. *)
Fixpoint digits_value (acc : Z) (t : text) : Z :=
  match t with
  | c :: r => if is_digit c then digits_value (10 * acc + Z.of_nat (code c - 48)) r else acc
  | [] => acc
  end.
Definition atoi (t : text) : option Z :=
  let v := match drop_while is_space t with
           | c :: r => if Ascii.eqb c "-" then (- digits_value 0 r)%Z
                       else if Ascii.eqb c "+" then digits_value 0 r
                       else digits_value 0 (c :: r)
           | [] => 0%Z
           end in
  if (- 2 ^ 31 <=? v)%Z && (v <? 2 ^ 31)%Z then Some v else None.
(** Conversion of an [int] to [unsigned]. *)
Definition to_unsigned (z : Z) : N := Z.to_N (z mod 2 ^ 32)%Z.

(** ** Source ranges *)
(** [createFeatureSourceLocation] (335-351). *)
Definition read_location (e : xml) : sx location :=
  fold_left (fun o c =>
    sx_bind o (fun l =>
      if is_tag "line" c then match atoi (content c) with Some z => SxDone (Loc (to_unsigned z) (l_column l)) | None => SxUndefined end
      else if is_tag "column" c then match atoi (content c) with Some z => SxDone (Loc (l_line l) (to_unsigned z)) | None => SxUndefined end
      else SxDone l)) (elems e) (SxDone (Loc 0 0)).

(** [createFeatureRevisionRange] (314-333). *)
Definition read_revisions (e : xml) : revision_range :=
  let '(i, r) := fold_left (fun s c =>
    let cnt := trim (content c) in
    if is_tag "introduced" c then (cnt, snd s) else if is_tag "removed" c then (fst s, cnt) else s) (elems e) ([], []) in
  Revisions i (match r with [] => None | _ => Some r end).

(** [createFeatureSourceRange] (157-200); another category is marked unreachable. *)
Definition read_category (e : xml) : sx category :=
  match attr "category" e with
  | None => SxDone Necessary
  | Some c => if text_eqb c (T "necessary") then SxDone Necessary
              else if text_eqb c (T "inessential") then SxDone Inessential
              else SxUndefined
  end.
Definition read_range (e : xml) : sx source_range :=
  sx_bind (read_category e) (fun cat =>
    fold_left (fun o c =>
      sx_bind o (fun r =>
        let '(SourceRange p s n k m v) := r in
        if is_tag "revisionRange" c then SxDone (SourceRange p s n k m (Some (read_revisions c)))
        else if is_tag "path" c then SxDone (SourceRange (trim (content c)) s n k m v)
        else if is_tag "start" c then sx_bind (read_location c) (fun l => SxDone (SourceRange p (Some l) n k m v))
        else if is_tag "end" c then sx_bind (read_location c) (fun l => SxDone (SourceRange p s (Some l) k m v))
        else if is_tag "memberOffset" c then SxDone (SourceRange p s n k (create_member_offset (trim (content c))) v)
        else SxDone r)) (elems e) (SxDone (SourceRange [] None None cat None None))).

(** ** Options *)
(** The local variables of [parseConfigurationOption] (27-34) and the calls on the
    builder so far. *)
Record ostate := OState {
  o_name : text;
  o_output : text;
  o_opt : bool;
  o_min : Z;
  o_max : Z;
  o_values : list Z;
  o_ranges : list source_range;
  o_step : option (Z -> option Z);
  o_calls : list bcall
}.
Definition with_calls (s : ostate) (cs : list bcall) : ostate :=
  OState (o_name s) (o_output s) (o_opt s) (o_min s) (o_max s) (o_values s) (o_ranges s) (o_step s) cs.

(** [getParentName] after the given calls (FeatureModelBuilder.h:52-65). *)
Definition parent_name (cs : list bcall) (s : text) : option text :=
  fold_left (fun o c => match c with BEdge p x => if text_eqb x s then Some p else o | _ => o end) cs None.
(** An edge, unless another parent is known (58-65, 75-81). *)
Definition edge_call (cs : list bcall) (p s : text) : sx (list bcall) :=
  match parent_name cs s with
  | Some q => if text_eqb q p then SxDone (cs ++ [BEdge p s]) else SxRefused
  | None => SxDone (cs ++ [BEdge p s])
  end.

(** [ConstraintBuilder().feature(L).excludes().feature(R).build()] and with [implies]. *)
Definition pair_constraint (o : binop) (l r : text) : bcall := BConstraint KBoolean (CBin o (CFeat (Own l)) (CFeat (Own r))).
Definition pair_calls (o : binop) (l : text) (e : xml) : list bcall :=
  flat_map (fun c => if is_tag "options" c then [pair_constraint o l (trim (content c))] else []) (elems e).

Section Reader.
(** How exponents are read, see ConstraintParserModel.v, and step functions. *)
Variables (sci : text -> option text) (step : text -> sx (option (Z -> option Z))).

(** One child element of an option (35-135). *)
Definition read_field (num : bool) (s : ostate) (c : xml) : sx ostate :=
  let cnt := trim (content c) in
  let '(OState n out opt lo hi vs rs st cs) := s in
  match cnt with
  | [] => SxDone s
  | _ =>
      if is_tag "name" c then SxDone (OState cnt out opt lo hi vs rs st cs)
      else if is_tag "outputString" c then SxDone (OState n (drop_while is_space (content c)) opt lo hi vs rs st cs)
      else if is_tag "optional" c then SxDone (OState n out (text_eqb cnt (T "True")) lo hi vs rs st cs)
      else if is_tag "parent" c then sx_bind (edge_call cs cnt n) (fun cs => SxDone (with_calls s cs))
      else if is_tag "children" c then
        sx_bind (fold_left (fun o d => sx_bind o (fun cs => if is_tag "options" d then edge_call cs n (content d) else SxDone cs)) (elems c) (SxDone cs))
          (fun cs => SxDone (with_calls s cs))
      else if is_tag "excludedOptions" c then SxDone (with_calls s (cs ++ pair_calls BExcludes n c))
      else if is_tag "impliedOptions" c then SxDone (with_calls s (cs ++ pair_calls BImplies n c))
      else if is_tag "locations" c then
        sx_bind (fold_left (fun o d => sx_bind o (fun rs => if is_tag "sourceRange" d then sx_bind (read_range d) (fun r => SxDone (rs ++ [r])) else SxDone rs)) (elems c) (SxDone rs))
          (fun rs => SxDone (OState n out opt lo hi vs rs st cs))
      else if num then
        if is_tag "minValue" c then SxDone (OState n out opt (parse_integer sci cnt) hi vs rs st cs)
        else if is_tag "maxValue" c then SxDone (OState n out opt lo (parse_integer sci cnt) vs rs st cs)
        else if is_tag "values" c then SxDone (OState n out opt lo hi (vs ++ map (parse_integer sci) (numerals false [] cnt)) rs st cs)
        else if is_tag "stepFunction" c then sx_bind (step cnt) (fun f => SxDone (OState n out opt lo hi vs rs f cs))
        else SxDone s
      else SxDone s
  end.

(** [parseConfigurationOption] (24-155). *)
Definition is_root_name (s : text) : bool := text_eqb s (T "root") || text_eqb s (T "base").
Definition option_feature (num : bool) (s : ostate) : bcall :=
  if is_root_name (o_name s) then BRoot (o_name s)
  else BFeature (new_feature
    (if num then FNumeric (match o_values s with [] => VRange (o_min s) (o_max s) | vs => VList vs end) (o_step s) else FBinary)
    (o_name s) (o_opt s) (o_ranges s) (o_output s)).
Definition read_option (num : bool) (cs : list bcall) (e : xml) : sx (list bcall) :=
  sx_bind (fold_left (fun o c => sx_bind o (fun s => read_field num s c)) (elems e)
             (SxDone (OState (T "root") [] false 0 0 [] [] None cs)))
    (fun s => SxDone (o_calls s ++ [option_feature num s])).
(** [parseOptions] (202-214). *)
Definition read_options (num : bool) (cs : list bcall) (e : xml) : sx (list bcall) :=
  fold_left (fun o c => sx_bind o (fun cs => if is_tag "configurationOption" c then read_option num cs c else SxDone cs)) (elems e) (SxDone cs).

(** [parseConstraints] (216-269). *)
Definition read_constraint_text (t : text) : sx (cexpr cref) :=
  match parse_text sci t with
  | Parsed c => SxDone (named_leaves c)
  | Rejected => SxRefused
  | ParseUb => SxUndefined
  | ParseFuel => SxEndless
  end.
Definition read_plain (k : ckind) (c : xml) : sx bcall :=
  sx_bind (read_constraint_text (content c)) (fun x => SxDone (BConstraint k x)).
(** A missing attribute is a null pointer passed to [std::string] (255, 258). *)
Definition read_mixed (c : xml) : sx bcall :=
  sx_bind (read_constraint_text (content c)) (fun x =>
    match attr "req" c, attr "exprKind" c with
    | Some r, Some k => SxDone (BConstraint (KMixed (if text_eqb r (T "none") then ReqNone else ReqAll)
                                                    (if text_eqb k (T "neg") then ExprNeg else ExprPos)) x)
    | _, _ => SxUndefined
    end).
Definition read_section (f : xml -> sx bcall) (cs : list bcall) (e : xml) : sx (list bcall) :=
  fold_left (fun o c => sx_bind o (fun cs => if is_tag "constraint" c then sx_bind (f c) (fun b => SxDone (cs ++ [b])) else SxDone cs))
    (elems e) (SxDone cs).

(** [parseVm] (271-312).  [cwd] is [fs::current_path()].  A null pointer makes an empty
    [StringRef]. *)
Definition read_vm (cwd : text) (e : xml) : sx (list bcall) :=
  fold_left (fun o c =>
    sx_bind o (fun cs =>
      if is_tag "binaryOptions" c then read_options false cs c
      else if is_tag "numericOptions" c then read_options true cs c
      else if is_tag "booleanConstraints" c then read_section (read_plain KBoolean) cs c
      else if is_tag "nonBooleanConstraints" c then read_section (read_plain KNonBoolean) cs c
      else if is_tag "mixedConstraints" c then read_section read_mixed cs c
      else SxDone cs)) (elems e)
    (SxDone [BName (match attr "name" e with Some t => trim t | None => [] end);
             BPath (match attr "root" e with Some t => trim t | None => cwd end);
             BCommit (match attr "commit" e with Some t => trim t | None => [] end)]).
End Reader.

(** Step functions: what the call operator of the parsed function returns; an unreadable
    one is a null pointer. *)
Definition read_step {D} (A : arith D) (value : text -> D) (t : text) : sx (option (Z -> option Z)) :=
  match parse_step value t with
  | SOk f => SxDone (Some (next_int A f))
  | SFail => SxDone None
  | SUndef => SxUndefined
  end.

(** ** Alternatives *)
Section Order.
Variable ord : list nid -> list nid.

(** The constraint with the outermost object [id]. *)
Definition all_constraints (m : fmodel) : list mconstraint := m_boolean m ++ m_nonboolean m ++ map x_con (m_mixed m).
Definition constraint_of (m : fmodel) (id : nat) : option (cexpr cref) :=
  match find (fun c => Nat.eqb (c_id c) id) (all_constraints m) with Some c => Some (c_expr c) | None => None end.

(** Whether some [a] in [l] satisfies [p]. *)
Definition option_any {A} (p : A -> option bool) (l : list A) : option bool :=
  fold_right (fun a o => let* b := p a in let* c := o in Some (b || c)) (Some false) l.

(** [detectExclude] (355-370).  Simplification: later constraints are looked at even when
    one has been found. *)
Definition detect_exclude (h : heap) (m : fmodel) (a b : nid) : option bool :=
  let* f := feature_at h a in
  let* g := feature_at h b in
  option_any (fun id =>
    let* e := constraint_of m id in
    match e with
    | CBin _ (CFeat x) (CFeat y) =>
        let* u := cref_name h x in
        let* v := cref_name h y in
        Some (text_eqb u (f_name f) && text_eqb v (f_name g))
    | _ => Some false
    end) (f_excludes f).

(** The condition at 378-386. *)
Definition detect_children (h : heap) (m : fmodel) (cs : list nid) : option bool :=
  if List.length cs <=? 1 then Some false
  else
    option_all (fun a =>
      let* f := feature_at h a in
      let* apart := option_all (fun b =>
        if Nat.eqb a b then Some true
        else let* x := detect_exclude h m a b in let* y := detect_exclude h m b a in Some (x && y)) cs in
      Some (negb (f_optional f) && apart)) cs.

(** [detectXMLAlternatives] (372-391); the outcome of the commit is dropped at 402. *)
Definition detect (h : heap) (m : fmodel) : option world :=
  let* t := open_modify (h, m) in
  let* fs := iterate ord (S (h_next h)) h (m_root m) in
  let* ops := fold_right (fun i o =>
    let* cs := child_features ord h i in
    let* b := detect_children h m cs in
    let* r := o in
    Some (if (b : bool) then OAddRelationship RAlternative (ByPtr i) :: r else r)) (Some []) fs in
  let* (_, w, _) := commit_modify ord (Mtx (t_open t) ops) (h, m) in
  Some w.

(** [buildFeatureModel] (393-405) on the elements of a document that is well-formed. *)
Definition read_xml (sci : text -> option text) (step : text -> sx (option (Z -> option Z))) (cwd : text) (h : heap) (e : xml)
    : sx (heap * option fmodel) :=
  if valid e then
    sx_bind (read_vm sci step cwd e) (fun cs =>
      match build_calls ord h cs with
      | None => SxUndefined
      | Some (h1, None) => SxDone (h1, None)
      | Some (h1, Some m) =>
          match detect h1 m with
          | None => SxUndefined
          | Some (h2, m2) => SxDone (h2, Some m2)
          end
      end)
  else SxRefused.
End Order.
