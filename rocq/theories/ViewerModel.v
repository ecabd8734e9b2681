(** The viewer: the function [main] of tools/fm-viewer/FeatureModelViewer.cpp with the
    functions [WriteGraph] and [createGraphFilename] of LLVM as far as files are concerned.

    Not modelled: the parsing of the command line (which also takes options from the variable
    FM_VIEWER_FLAGS), messages, the option [xml], which nothing reads, and what an executed
    program does.  The file of the model is read twice with [verify] and taken to be the same
    both times.  Files are written completely or not at all. *)
From Coq Require Import List ZArith NArith Arith Bool Ascii String.
From Verif Require Import Text FeatureTreeModel FeatureTransactionModel SxfmModel XmlModel GeneratorModel GraphvizModel DumpModel.
Import ListNotations.

(** The options of the command line (FeatureModelViewer.cpp:14-40). *)
Record view_command := ViewCommand { v_file : text; v_verify : bool; v_viewer : text; v_out : text; v_dump : bool }.
(** What the system offers: the name [createTemporaryFile] comes up with, unless it fails,
    and the programs that are found ([findProgramByName]). *)
Record system := System { y_files : files; y_temporary : option text; y_programs : text -> option text }.
(** What is done with a graph file: nothing, a program is executed on it, or it is handed to
    [DisplayGraph]. *)
Inductive display := NotShown | ShownBy (program : text) | ShownSomehow.
(** Exit code, standard output, the file that is written with its content, and what is done
    with it.  [ViewStuck]: undefined behaviour or an uncaught exception. *)
Inductive viewing := Viewed (code : nat) (out : text) (file : option (text * text)) (shown : display) | ViewStuck.

Section Viewer.
(** See [read_xml], [dump_model] and [write_graph]. *)
Variable ord : list nid -> list nid.
Variable sci : text -> option text.
Variable step : text -> sx (option (Z -> option Z)).
Variable map_order : list (text * nid) -> list (text * nid).
Variable ptr : nid -> text.
Variable this cwd : text.

(** Writing the graph (69-97).  The title is empty.  The result of [WriteGraph] is dropped
    if a file is given (72-73). *)
Definition view_graph (y : system) (c : view_command) (h : heap) (m : fmodel) : viewing :=
  match v_out c with
  | _ :: _ =>
      if can_write (y_files y) (v_out c) then
        match write_graph ptr this h m [] with
        | Some g => Viewed 0 [] (Some (v_out c, g)) NotShown
        | None => ViewStuck
        end
      else Viewed 0 [] None NotShown
  | [] =>
      match y_temporary y with
      | None => Viewed 1 [] None NotShown
      | Some f =>
          match write_graph ptr this h m [] with
          | Some g =>
              Viewed 0 [] (Some (f, g))
                (match v_viewer c with
                 | [] => ShownSomehow
                 | p => match y_programs y p with Some q => ShownBy q | None => ShownSomehow end
                 end)
          | None => ViewStuck
          end
      end
  end.
(** [main] (42-101). *)
Definition view (y : system) (c : view_command) (h : heap) : viewing :=
  if text_eqb (v_file c) [] then Viewed 1 [] None NotShown
  else if v_verify c && negb (verify_model (y_files y) (v_file c)) then Viewed 1 [] None NotShown
  else
    match load_model ord sci step cwd (y_files y) h (v_file c) with
    | SxThrown | SxUndefined | SxEndless => ViewStuck
    | SxRefused | SxDone (_, None) => Viewed 1 [] None NotShown
    | SxDone (h1, Some m) =>
        if v_dump c then
          match dump_model map_order h1 m with
          | Some t => Viewed 0 t None NotShown
          | None => ViewStuck
          end
        else view_graph y c h1 m
    end.
End Viewer.
