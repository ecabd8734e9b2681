(** What is in a file after models were saved, independent of how saving is carried out. *)
From Coq Require Import List ZArith Bool Ascii String.
From Verif Require Import Text FeatureTreeModel FeatureTransactionModel XmlModel XmlWriterModel GeneratorModel SaveModel.
Import ListNotations.

Definition opened (s : saving) : Prop := s_luck s <> Closed.
(** The last time the file was opened for writing. *)
Definition last_opened (ss : list saving) (path : text) (s : saving) : Prop :=
  exists a b, ss = a ++ s :: b /\ s_path s = path /\ opened s /\ forall x, In x b -> s_path x = path -> ~ opened x.
Definition never_opened (ss : list saving) (path : text) : Prop := forall x, In x ss -> s_path x = path -> ~ opened x.
(** What saving leaves in the file. *)
Definition leaves_file (s : saving) (f : found_file) : Prop :=
  match s_luck s with
  | Closed => False
  | Broken rest => f = rest
  | Works _ => exists e, write_xml (s_order s) (s_heap s) (s_saved s) = Some e /\ f = Document e
  end.
