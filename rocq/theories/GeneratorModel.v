(** The configuration generator: the function [main] of
    tools/config-generator/ConfigurationGenerator.cpp with the functions it loads models with.

    Not modelled: the parsing of the command line, messages, the text syntax of XML, CSV and
    YAML files.  A path delivers the element tree of a document or a table; what is put into
    the output file is the map handed to the YAML printer.  The file of the model is read
    twice and taken to be the same both times. *)
From Coq Require Import List ZArith NArith Arith Bool Ascii String.
From Verif Require Import Text ConfigurationModel FeatureTreeModel FeatureTransactionModel SxfmModel XmlModel SolverModel SampleModel.
Import ListNotations.

(** [ConfigurationGenerationChoice] (ConfigurationGenerator.cpp:18-22). *)
Inductive choice := GenAll | GenStrategy | GenSample.
(** The options of the command line (14-49). *)
Record command := Command { g_file : text; g_choice : choice; g_csv : text; g_out : text }.
(** What is found under a path: nothing readable, no well-formed document, or a document. *)
Inductive found_file := Missing | Malformed | Document (e : xml).
Record files := Files { documents : text -> found_file; tables : text -> option table; can_write : text -> bool }.
(** The exit code and what is written to the output file.  [Stuck]: undefined behaviour, an
    uncaught exception, or the given number of steps does not suffice. *)
Inductive ending := Exit (code : nat) (out : option (list (text * text))) | Stuck.

(** [verifyFeatureModel] (FeatureModel.cpp:139-158, FeatureModelParser.cpp:420-447). *)
Definition verify_model (w : files) (path : text) : bool :=
  match documents w path with Document e => valid e | _ => false end.
(** [loadFeatureModel] (FeatureModel.cpp:119-138). *)
Definition load_model (ord : list nid -> list nid) (sci : text -> option text) (step : text -> sx (option (Z -> option Z))) (cwd : text)
    (w : files) (h : heap) (path : text) : sx (heap * option fmodel) :=
  match documents w path with Document e => read_xml ord sci step cwd h e | _ => SxRefused end.

(** Writing the configurations (ConfigurationGenerator.cpp:103-114). *)
Definition deliver (ord : list nid -> list nid) (w : files) (c : command) (h : heap) (m : fmodel) (cs : list config) : ending :=
  if negb (text_eqb (g_out c) []) && negb (match cs with [] => true | _ => false end) then
    match write_configurations ord h m cs with
    | Some es => if can_write w (g_out c) then Exit 0 (Some es) else Exit 1 None
    | None => Stuck
    end
  else Exit 0 None.
(** [main] (51-124).  [fuel] bounds the steps of loading the solver, [fuel'] the number of
    calls of the solver. *)
Definition generate (ord : list nid -> list nid) (sci : text -> option text) (step : text -> sx (option (Z -> option Z))) (cwd : text)
    (check : list bterm -> option assignment) (fuel fuel' : nat) (h : heap) (w : files) (c : command) : ending :=
  if text_eqb (g_file c) [] then Exit 1 None
  else if negb (verify_model w (g_file c)) then Exit 1 None
  else
    match load_model ord sci step cwd w h (g_file c) with
    | SxThrown | SxUndefined | SxEndless => Stuck
    | SxRefused | SxDone (_, None) => Exit 1 None
    | SxDone (h1, Some m) =>
        match g_choice c with
        | GenAll =>
            match SolverModel.load ord fuel h1 m with
            | None => Stuck
            | Some s =>
                match get_all check fuel' s with
                | None => Stuck
                | Some (inr _) => Exit 1 None
                | Some (inl cs) => deliver ord w c h1 m cs
                end
            end
        | GenSample =>
            if text_eqb (g_csv c) [] then Exit 1 None
            else
              match tables w (g_csv c) with
              | None => Stuck
              | Some t => match read_table ord h1 m t with None => Stuck | Some cs => deliver ord w c h1 m cs end
              end
        | GenStrategy => Exit 1 None
        end
    end.
