(** When reading a document is defined. *)
From Coq Require Import List ZArith Arith Bool Ascii String Permutation.
From Verif Require Import Text LlvmInt ConstraintModel ConstraintParserModel SourceRangeModel FeatureTreeModel FeatureTransactionModel FeatureBuildSpec
  SxfmModel XmlModel XmlSpec XmlTextSpec.
Import ListNotations.
Local Open Scope string_scope.
Local Open Scope list_scope.

(** A text whose leading number is an [int]. *)
Definition fits_int (t : text) : Prop := exists z, leading_number t z /\ (- 2 ^ 31 <= z < 2 ^ 31)%Z.
(** All lines and columns of a source range do. *)
Definition range_written (r : xml) : Prop :=
  forall p x, In p (elems r) -> is_tag "start" p = true \/ is_tag "end" p = true -> In x (elems p) -> fits_int (content x).

Section Written.
(** How step functions are read. *)
Variable step : text -> sx (option (Z -> option Z)).

Definition option_written (num : bool) (o : xml) : Prop :=
  (forall l r, In l (filled "locations" (elems o)) -> In r (called "sourceRange" (elems l)) -> range_written r) /\
  (num = true -> forall s, In s (filled "stepFunction" (elems o)) -> exists f, step (trimmed s) = SxDone f).
Definition section_written (e : xml) : Prop :=
  (is_tag "binaryOptions" e = true -> forall o, In o (elems e) -> option_written false o) /\
  (is_tag "numericOptions" e = true -> forall o, In o (elems e) -> option_written true o) /\
  (is_tag "booleanConstraints" e = true \/ is_tag "nonBooleanConstraints" e = true \/ is_tag "mixedConstraints" e = true ->
    forall c, In c (elems e) -> content c <> []) /\
  (is_tag "mixedConstraints" e = true -> forall c, In c (elems e) -> attr "req" c <> None /\ attr "exprKind" c <> None).
(** Lines and columns fit into [int], step functions can be read, no constraint is empty,
    and mixed constraints have both of their attributes. *)
Definition well_written (e : xml) : Prop := forall c, In c (elems e) -> section_written c.
End Written.
