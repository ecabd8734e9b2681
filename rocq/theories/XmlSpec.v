(** What a document describes, independent of how it is read, and what it means that a
    model is as written in a document. *)
From Coq Require Import List ZArith Arith Bool Ascii String Permutation.
From Verif Require Import Text LlvmInt ConstraintModel ConstraintParserModel ConstraintSpec SourceRangeModel StepFunctionModel FeatureTreeModel FeatureTreeSpec FeatureTransactionModel
  FeatureTransactionSpec FeatureEditSpec FeatureBuildSpec SxfmModel XmlModel.
Import ListNotations.

(** ** Constraints and the features they mention *)

(** A constraint of the model of class [cl] with the outermost object [id] mentions feature [i]. *)
Definition mentioned (m : fmodel) (cl : cclass) (id : nat) (i : nid) : Prop :=
  exists c, In c (all_constraints m) /\ c_id c = id /\ class_of (c_expr c) = cl /\ In (Ref i) (leaves (c_expr c)).

(** Every feature of the model knows the implications and exclusions that mention it and
    no others, and different constraints are different objects. *)
Record enrolled (h : heap) (m : fmodel) : Prop := Enrolled {
  en_distinct : NoDup (map c_id (all_constraints m));
  en_allocated : forall c, In c (all_constraints m) -> c_id c < h_next h;
  en_excludes : forall s i f id, get_feature m s = Some i -> feature_at h i = Some f ->
    (In id (f_excludes f) <-> mentioned m ClassExcludes id i);
  en_implies : forall s i f id, get_feature m s = Some i -> feature_at h i = Some f ->
    (In id (f_implications f) <-> mentioned m ClassImplies id i)
}.

(** The constraints of the model only mention features of the model. *)
Definition all_resolved (m : fmodel) : Prop :=
  forall c r, In c (all_constraints m) -> In r (leaves (c_expr c)) -> exists s i, r = Ref i /\ get_feature m s = Some i.

(** ** Alternatives *)

(** The calls make [f] a child of the feature named [s]. *)
Definition below (cs : list bcall) (d : decl) (s : text) (f : feature) : Prop :=
  In f (snd d) /\ last_edge cs (f_name f) (fst d) = s.
(** A constraint of the calls is "[a] excludes [b]". *)
Definition excluding (cs : list bcall) (a b : text) : Prop :=
  exists k, In (BConstraint k (CBin BExcludes (CFeat (Own a)) (CFeat (Own b)))) cs.
(** The feature named [s] has at least two children, all of them are mandatory, and any
    two of them exclude each other, both ways. *)
Definition alternatives (cs : list bcall) (d : decl) (s : text) : Prop :=
  (exists f g, below cs d s f /\ below cs d s g /\ f_name f <> f_name g) /\
  forall f, below cs d s f -> f_optional f = false /\
    forall g, below cs d s g -> f_name g <> f_name f -> excluding cs (f_name f) (f_name g).

(** The same in a model: [i] is a child of [p]; "[a] excludes [b]" is a constraint; all
    children of [p], at least two, are mandatory and exclude each other. *)
Definition child_in (h : heap) (m : fmodel) (p i : nid) : Prop := (exists s, get_feature m s = Some i) /\ feature_above h i p.
Definition states_exclusion (m : fmodel) (a b : nid) : Prop :=
  exists c, In c (all_constraints m) /\ c_expr c = CBin BExcludes (CFeat (Ref a)) (CFeat (Ref b)).
Definition exclusive_children (h : heap) (m : fmodel) (p : nid) : Prop :=
  (exists a b, child_in h m p a /\ child_in h m p b /\ a <> b) /\
  forall a, child_in h m p a -> (exists f, feature_at h a = Some f /\ f_optional f = false) /\
    forall b, child_in h m p b -> b <> a -> states_exclusion m a b.

(** ** Documents *)
Local Open Scope string_scope.
Local Open Scope list_scope.
Local Open Scope nat_scope.

(** The elements called [s] in a list, and those of them with a content. *)
Definition called (s : string) (es : list xml) : list xml := filter (is_tag s) es.
Definition filled (s : string) (es : list xml) : list xml := filter (fun c => is_tag s c && negb (blank (content c))) es.
Definition trimmed (c : xml) : text := trim (content c).

(** The position written in an element, and a source range. *)
Definition position (e : xml) (l : location) : Prop :=
  exists a b x y, elems e = [a; b] /\ atoi (content a) = Some x /\ atoi (content b) = Some y /\ l = Loc (to_unsigned x) (to_unsigned y).
Definition revisions (e : xml) : revision_range :=
  Revisions (last (map trimmed (called "introduced" (elems e))) [])
    (match last (map trimmed (called "removed" (elems e))) [] with [] => None | t => Some t end).
Definition ranged (e : xml) (r : source_range) : Prop :=
  exists p s n ls ln, called "path" (elems e) = [p] /\ called "start" (elems e) = [s] /\ called "end" (elems e) = [n] /\
    position s ls /\ position n ln /\
    r = SourceRange (trimmed p) (Some ls) (Some ln)
          (match attr "category" e with Some c => if text_eqb c (T "inessential") then Inessential else Necessary | None => Necessary end)
          (match called "memberOffset" (elems e) with [o] => create_member_offset (trimmed o) | _ => None end)
          (match called "revisionRange" (elems e) with [v] => Some (revisions v) | _ => None end).

Section Documents.
Variables (sci : text -> option text) (step : text -> sx (option (Z -> option Z))).

(** The edges and constraints a part of the option called [n] stands for. *)
Definition part_calls (n : text) (c : xml) : list bcall :=
  if blank (content c) then []
  else if is_tag "parent" c then [BEdge (trimmed c) n]
  else if is_tag "children" c then map (fun d => BEdge n (content d)) (called "options" (elems c))
  else if is_tag "excludedOptions" c then
    map (fun d => BConstraint KBoolean (CBin BExcludes (CFeat (Own n)) (CFeat (Own (trimmed d))))) (called "options" (elems c))
  else if is_tag "impliedOptions" c then
    map (fun d => BConstraint KBoolean (CBin BImplies (CFeat (Own n)) (CFeat (Own (trimmed d))))) (called "options" (elems c))
  else [].
Definition option_name (e : xml) : text := last (map trimmed (filled "name" (elems e))) (T "root").

(** The feature an option stands for; an option called "root" or "base", or without a
    name, is the root. *)
Definition option_values (es : list xml) : list Z := flat_map (fun c => map (parse_integer sci) (numerals false [] (trimmed c))) (filled "values" es).
Definition option_call (num : bool) (e : xml) (rs : list source_range) (fs : list (option (Z -> option Z))) : bcall :=
  let es := elems e in
  let n := option_name e in
  if text_eqb n (T "root") || text_eqb n (T "base") then BRoot n
  else BFeature (new_feature
    (if num then
       FNumeric (match option_values es with
                 | [] => VRange (last (map (fun c => parse_integer sci (trimmed c)) (filled "minValue" es)) 0%Z)
                                (last (map (fun c => parse_integer sci (trimmed c)) (filled "maxValue" es)) 0%Z)
                 | vs => VList vs
                 end) (last fs None)
     else FBinary)
    n (last (map (fun c => text_eqb (trimmed c) (T "True")) (filled "optional" es)) false) rs
    (last (map (fun c => drop_while is_space (content c)) (filled "outputString" es)) [])).

(** The calls an option stands for: its edges and constraints in the order of the
    document, then the feature. *)
Definition option_stands (num : bool) (e : xml) (cs : list bcall) : Prop :=
  exists rs fs,
    Forall2 ranged (flat_map (fun c => called "sourceRange" (elems c)) (filled "locations" (elems e))) rs /\
    Forall2 (fun c f => step (trimmed c) = SxDone f) (if num then filled "stepFunction" (elems e) else []) fs /\
    cs = flat_map (part_calls (option_name e)) (elems e) ++ [option_call num e rs fs].

(** The call a constraint stands for. *)
Definition plain_stands (k : ckind) (e : xml) (c : bcall) : Prop :=
  exists x, parse_text sci (content e) = Parsed x /\ c = BConstraint k (named_leaves x).
Definition mixed_stands (e : xml) (c : bcall) : Prop :=
  exists x r k, parse_text sci (content e) = Parsed x /\ attr "req" e = Some r /\ attr "exprKind" e = Some k /\
    c = BConstraint (KMixed (if text_eqb r (T "none") then ReqNone else ReqAll) (if text_eqb k (T "neg") then ExprNeg else ExprPos)) (named_leaves x).

(** The calls a section stands for. *)
Definition section_stands (e : xml) (cs : list bcall) : Prop :=
  if is_tag "binaryOptions" e then exists l, Forall2 (option_stands false) (elems e) l /\ cs = List.concat l
  else if is_tag "numericOptions" e then exists l, Forall2 (option_stands true) (elems e) l /\ cs = List.concat l
  else if is_tag "booleanConstraints" e then Forall2 (plain_stands KBoolean) (elems e) cs
  else if is_tag "nonBooleanConstraints" e then Forall2 (plain_stands KNonBoolean) (elems e) cs
  else if is_tag "mixedConstraints" e then Forall2 mixed_stands (elems e) cs
  else cs = [].

(** No feature is given two different parents. *)
Definition one_parent (cs : list bcall) : Prop := forall p q s, In (BEdge p s) cs -> In (BEdge q s) cs -> p = q.

(** The calls a document stands for; [cwd] is the current directory. *)
Definition stands (cwd : text) (e : xml) (cs : list bcall) : Prop :=
  exists l, Forall2 section_stands (elems e) l /\ one_parent cs /\
    cs = BName (match attr "name" e with Some t => trim t | None => [] end) ::
         BPath (match attr "root" e with Some t => trim t | None => cwd end) ::
         BCommit (match attr "commit" e with Some t => trim t | None => [] end) :: List.concat l.
End Documents.
