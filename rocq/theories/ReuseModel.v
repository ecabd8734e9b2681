(** Model of builders and readers that are used more than once
    (include/vara/Feature/FeatureModelBuilder.h:17-112, lib/Feature/FeatureModelBuilder.cpp:9-32,
    lib/Feature/FeatureModelParser.cpp:393-405). *)
From Coq Require Import List Bool Ascii String ZArith.
From Verif Require Import Text ConstraintModel ConstraintParserModel SourceRangeModel StepFunctionModel FeatureTreeModel FeatureTransactionModel SxfmModel XmlModel.
Import ListNotations.
Local Open Scope string_scope.
Local Open Scope list_scope.

(** What is done with a builder: a call, or building. *)
Inductive use := UCall (c : bcall) | UBuild.

Section Order.
Variable ord : list nid -> list nid.

(** All uses of a builder: the heap, the builder afterwards, and what was returned by each
    [buildFeatureModel] (FeatureModelBuilder.cpp:9-32). *)
Fixpoint use_all (us : list use) (h : heap) (b : builder) : option (heap * builder * list (option fmodel)) :=
  match us with
  | [] => Some (h, b, [])
  | UCall c :: r => let* b1 := builder_call b c in use_all r h b1
  | UBuild :: r =>
      let* (h1, m, b1) := build ord h b in
      let* (h2, b2, ms) := use_all r h1 b1 in
      Some (h2, b2, m :: ms)
  end.
Definition use_builder (h : heap) (us : list use) : option (heap * list (option fmodel)) :=
  let (h1, b) := builder_start h in
  let* (h2, _, ms) := use_all us h1 b in
  Some (h2, ms).

Variables (sci : text -> option text) (step : text -> sx (option (Z -> option Z))) (cwd : text).

(** [parseVm] (FeatureModelParser.cpp:271-312) of a reader whose builder has had the calls
    [before]: [read_vm] of XmlModel.v starts with none. *)
Definition read_more (before : list bcall) (e : xml) : sx (list bcall) :=
  fold_left (fun o c =>
    sx_bind o (fun cs =>
      if is_tag "binaryOptions" c then read_options sci step false cs c
      else if is_tag "numericOptions" c then read_options sci step true cs c
      else if is_tag "booleanConstraints" c then read_section (read_plain sci KBoolean) cs c
      else if is_tag "nonBooleanConstraints" c then read_section (read_plain sci KNonBoolean) cs c
      else if is_tag "mixedConstraints" c then read_section (read_mixed sci) cs c
      else SxDone cs)) (elems e)
    (SxDone (before ++ [BName (match attr "name" e with Some t => trim t | None => [] end);
             BPath (match attr "root" e with Some t => trim t | None => cwd end);
             BCommit (match attr "commit" e with Some t => trim t | None => [] end)])).

(** A reader (FeatureModelParser.h: the member [FMB]): its builder and the calls it has had,
    which [getParentName] looks at. *)
Record reader := Reader { r_builder : builder; r_calls : list bcall }.
Definition new_reader (h : heap) : heap * reader := let (h1, b) := builder_start h in (h1, Reader b []).

(** [buildFeatureModel] (393-405) of a reader.  Setting the name is the first call on the
    builder (274). What a reader is like after it has refused is not given here: it has had
    some of the calls. *)
Definition read_with (h : heap) (r : reader) (e : xml) : sx (heap * option fmodel * reader) :=
  if valid e then
    match builder_call (r_builder r) (BName (match attr "name" e with Some t => trim t | None => [] end)) with
    | None => SxUndefined
    | Some _ =>
        sx_bind (read_more (r_calls r) e) (fun cs =>
          match fold_left (fun o c => let* b := o in builder_call b c) (skipn (List.length (r_calls r)) cs) (Some (r_builder r)) with
          | None => SxUndefined
          | Some b =>
              match build ord h b with
              | None => SxUndefined
              | Some (h1, None, b1) => SxDone (h1, None, Reader b1 cs)
              | Some (h1, Some m, b1) =>
                  match detect ord h1 m with
                  | None => SxUndefined
                  | Some (h2, m2) => SxDone (h2, Some m2, Reader b1 cs)
                  end
              end
          end)
    end
  else SxRefused.
End Order.
