(** Model of reading whole documents in the SXFM format, from the element tree that
    libxml2 delivers: the check against the document type and the walk over the elements
    (lib/Feature/SxfmConstants.h:21-33, lib/Feature/FeatureModelParser.cpp:453-541,
    include/vara/Feature/FeatureModelParser.h:168-173). *)
From Coq Require Import List ZArith NArith Arith Bool Ascii String.
From Verif Require Import Text ConstraintModel FeatureTreeModel FeatureTransactionModel SxfmModel XmlModel.
Import ListNotations.
Local Open Scope string_scope.
Local Open Scope list_scope.

(** ** The document type (SxfmConstants.h:21-33) *)
Definition sxfm_declarations : list (string * declaration) :=
  [("feature_model", Below (sequence [PMaybe (PTag "meta"); PTag "feature_tree"] (PMaybe (PTag "constraints"))));
   ("meta", Below (PMany "data")); ("data", OnlyText); ("feature_tree", OnlyText); ("constraints", OnlyText)].
Definition sxfm_declaration_of (n : text) : option declaration :=
  match find (fun d => text_eqb n (T (fst d))) sxfm_declarations with Some d => Some (snd d) | None => None end.
(** The attributes of an element, and whether they are required (23-25, 28, 30-32). *)
Definition sxfm_attributes (n : text) : list (string * bool) :=
  if text_eqb n (T "feature_model") then [("name", false)]
  else if text_eqb n (T "data") then [("name", true)]
  else if text_eqb n (T "feature_tree") then [("indentation_string", false)]
  else [].
Definition sxfm_attributes_ok (e : xml) : bool :=
  let ds := sxfm_attributes (tag e) in
  forallb (fun a => existsb (fun d => text_eqb (fst a) (T (fst d))) ds) (attributes e) &&
  forallb (fun d => negb (snd d) || existsb (fun a => text_eqb (fst a) (T (fst d))) (attributes e)) ds.

(** [xmlValidateDtd] (FeatureModelParser.cpp:475-501).  As in XmlModel.v, the name of the
    root element is not compared with anything. *)
Fixpoint sxfm_valid (e : xml) : bool :=
  match e with
  | Elem n a b es =>
      sxfm_attributes_ok e &&
      match sxfm_declaration_of n with
      | None => false
      | Some OnlyText => match es with [] => true | _ => false end
      | Some (Below p) => forallb is_space b && fits p (map tag es)
      end && forallb sxfm_valid es
  end.
(** [verifyFeatureModel] (FeatureModelParser.h:168-173). *)
Definition verify_sxfm (e : xml) : bool := sxfm_valid e.

(** ** Reading (FeatureModelParser.cpp:503-541) *)
(** The members that are changed: [Indentation], [IdentifierMap] and the calls on the
    builder. *)
Record dstate := DState { ds_indentation : text; ds_identifiers : list (text * text); ds_calls : list bcall }.
Section Read.
Variable sci : text -> option text.
Variable order : list (nat * (text * rkind)) -> list (nat * (text * rkind)).
Variable fuel : nat.
Variable or_first : bool.
(** One round of the loop (513-539).  In a valid document there is only one
    [feature_tree], so that the identifier map is empty before (677). *)
Definition read_part (s : dstate) (c : xml) : sx dstate :=
  if is_tag "feature_tree" c then
    let ind := match attr "indentation_string" c with Some i => i | None => ds_indentation s end in
    sx_bind (read_tree order ind (content c)) (fun r => SxDone (DState ind (snd r) (ds_calls s ++ fst r)))
  else if is_tag "constraints" c then
    sx_bind (read_constraints sci fuel or_first (ds_identifiers s) (content c)) (fun cs =>
      SxDone (DState (ds_indentation s) (ds_identifiers s) (ds_calls s ++ cs)))
  else SxDone s.
(** [parseVm]: a missing name is a null pointer passed to [std::string] (507-508). *)
Definition read_root (e : xml) : sx (list bcall) :=
  match attr "name" e with
  | None => SxUndefined
  | Some n =>
      sx_bind (fold_left (fun o c => sx_bind o (fun s => read_part s c)) (elems e) (SxDone (DState default_indentation [] [BName n]))) (fun s =>
        SxDone (ds_calls s))
  end.
(** [buildFeatureModel] (453-459). *)
Definition read_document (ord : list nid -> list nid) (h : heap) (e : xml) : sx (heap * option fmodel) :=
  if sxfm_valid e then
    sx_bind (read_root e) (fun cs => match build_calls ord h cs with None => SxUndefined | Some r => SxDone r end)
  else SxRefused.
End Read.
