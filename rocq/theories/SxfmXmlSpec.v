(** Which texts in the SXFM format can be saved as XML, and what the saved document says.
    Independent of how they are read and written. *)
From Coq Require Import List ZArith Arith Bool Ascii String.
From Verif Require Import Text ConstraintModel ConstraintSpec SourceRangeModel FeatureTreeModel FeatureTransactionModel FeatureEditSpec XmlModel XmlTripSpec SxfmSpec SxfmConfigSpec.
Import ListNotations.
Local Open Scope string_scope.
Local Open Scope list_scope.

(** The root and only the root is called root or base, and no label has blanks at its ends. *)
Definition labels_savable (es : list entry) : Prop :=
  forall i s, labelled es i s -> tidy s /\ (s = T "root" \/ s = T "base" <-> i = 0).
(** Every group has at least two entries, none of which is optional. *)
Definition groups_savable (es : list entry) : Prop :=
  forall j k, marked es j (Group k) ->
    (exists a b s u, child es j a s /\ child es j b u /\ a <> b) /\
    forall i s, child es j i s -> ~ marked es i Optional.
Definition only_alternatives (es : list entry) : Prop := forall j, ~ marked es j (Group ROr).
(** The entries with all groups turned into alternatives. *)
Definition alternated_entry (e : entry) : entry :=
  match e_mark e with Group _ => Entry (e_level e) (Group RAlternative) (e_name e) (e_id e) | _ => e end.
Definition alternated (es : list entry) : list entry := map alternated_entry es.

(** Two entries in the same group. *)
Definition group_mates (es : list entry) (s u : text) : Prop :=
  exists j k a b, marked es j (Group k) /\ child es j a s /\ child es j b u /\ a <> b.
(** A formula of the text, or an exclusion of two entries in the same group. *)
Definition said (es : list entry) (cs : list (cexpr string)) (e : cexpr string) : Prop :=
  In e cs \/ exists s u, e = CBin BExcludes (CFeat (U s)) (CFeat (U u)) /\ group_mates es s u.
