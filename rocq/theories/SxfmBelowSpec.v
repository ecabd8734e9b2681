(** Texts in the SXFM format whose root has another name than root or base, and the entries
    that the saved document has.  Independent of how they are read and written. *)
From Coq Require Import List ZArith Arith Bool Ascii String.
From Verif Require Import Text ConstraintModel ConstraintSpec SourceRangeModel FeatureTreeModel FeatureTransactionModel FeatureEditSpec XmlModel XmlTripSpec SxfmSpec SxfmConfigSpec.
Import ListNotations.
Local Open Scope string_scope.
Local Open Scope list_scope.

(** Nothing is called root or base, and no label has blanks at its ends. *)
Definition labels_other (es : list entry) : Prop := forall i s, labelled es i s -> tidy s /\ s <> T "root" /\ s <> T "base".
(** The entry one level deeper; a root is a mandatory entry there. *)
Definition deeper (e : entry) : entry := Entry (S (e_level e)) (match e_mark e with Root => Mandatory | k => k end) (e_name e) (e_id e).
(** The entries below a new root called root. *)
Definition below (es : list entry) : list entry :=
  match es with
  | [] => []
  | e :: _ => Entry (e_level e) Root (T "root") None :: map deeper es
  end.
