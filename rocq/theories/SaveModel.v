(** Model of saving models to files ([FeatureModelXmlWriter::writeFeatureModel(std::string)],
    lib/Feature/FeatureModelWriter.cpp:25-35) and of loading them again.

    Simplifications: a path is the file, so there are no links and no two paths of one file; a file
    has the element tree of a document, not its text, as in GeneratorModel.v; programs that change
    files at the same time are not modelled. *)
From Coq Require Import List ZArith Bool Ascii String.
From Verif Require Import Text FeatureTreeModel FeatureTransactionModel SxfmModel XmlModel XmlWriterModel SampleModel GeneratorModel.
Import ListNotations.

(** How libxml fares: the file cannot be opened ([xmlNewTextWriterFilename] gives null, 27-31), it
    can but one of the calls that write fails and something is left in the file ([CHECK_RC], 11-14,
    72-129), or everything is written and the last call returns the number of bytes it wrote (127). *)
Inductive luck := Closed | Broken (rest : found_file) | Works (bytes : nat).

Definition disk := text -> found_file.
Definition put (d : disk) (path : text) (f : found_file) : disk := fun q => if text_eqb q path then f else d q.

(** The files afterwards and the returned number: [false] if the file cannot be opened (29-31),
    a negative number if writing fails, the result of [xmlTextWriterEndDocument] otherwise. *)
Definition save (ord : list nid -> list nid) (h : heap) (m : fmodel) (path : text) (l : luck) (d : disk) : option (disk * Z) :=
  match l with
  | Closed => Some (d, 0%Z)
  | Broken rest => let* _ := write_xml ord h m in Some (put d path rest, (-1)%Z)
  | Works n => let* e := write_xml ord h m in Some (put d path (Document e), Z.of_nat n)
  end.

(** A program that saves models, which it may change in between. *)
Record saving := Saving { s_order : list nid -> list nid; s_heap : heap; s_saved : fmodel; s_path : text; s_luck : luck }.
Fixpoint save_all (ss : list saving) (d : disk) : option (disk * list Z) :=
  match ss with
  | [] => Some (d, [])
  | s :: r =>
      let* (d1, c) := save (s_order s) (s_heap s) (s_saved s) (s_path s) (s_luck s) d in
      let* (d2, cs) := save_all r d1 in
      Some (d2, c :: cs)
  end.

(** [loadFeatureModel] and [verifyFeatureModel] (FeatureModel.cpp:119-158) read the files. *)
Definition reading (d : disk) : files := Files d (fun _ => None) (fun _ => true).
