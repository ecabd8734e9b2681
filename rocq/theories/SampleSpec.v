(** What sample sets are to contain.  Independent of how they are written and read. *)
From Coq Require Import List NArith Arith Bool Ascii String.
From Verif Require Import Text ConfigurationModel ConfigurationSpec FeatureTreeModel FeatureTreeSpec.
Import ListNotations.
Local Open Scope string_scope.
Local Open Scope list_scope.

(** ** Flags *)
(** The feature has an output string and a value other than false. *)
Definition contributes (h : heap) (c : config) (i : nid) (flag : text) : Prop :=
  exists f v, feature_at h i = Some f /\ option_value c (f_name f) = Some v /\ v <> T "false" /\ f_output f <> [] /\
    flag = f_output f ++ match f_kind f with FNumeric _ _ => v | _ => [] end.
(** The flags of a configuration for features in a given order. *)
Inductive flags (h : heap) (c : config) : list nid -> list text -> Prop :=
| flags_nil : flags h c [] []
| flags_take i l x xs : contributes h c i x -> flags h c l xs -> flags h c (i :: l) (x :: xs)
| flags_skip i l xs : (forall x, ~ contributes h c i x) -> flags h c l xs -> flags h c (i :: l) xs.

Definition quoted (x : text) : text := ascii_of_nat 34 :: x ++ [ascii_of_nat 34].
(** A list of quoted texts in brackets. *)
Definition listed_text (xs : list text) : text :=
  T "[" ++ match xs with [] => [] | x :: r => quoted x ++ flat_map (fun y => T ", " ++ quoted y) r end ++ T "]".

(** ** Rows *)
(** The value of a feature read from a cell. *)
Definition cell_value (f : feature) (cell v : text) : Prop :=
  match f_kind f with
  | FBinary | FRoot => v = if text_eqb cell (T "0") then T "false" else T "true"
  | _ => exists w, typed cell w /\ v = as_string w
  end.
(** The configuration has a value for exactly the features of the model with a column. *)
Definition row_config (h : heap) (m : fmodel) (columns : list text) (row : text -> text) (c : config) : Prop :=
  forall n v, option_value c n = Some v <->
    exists i f, get_feature m n = Some i /\ feature_at h i = Some f /\ In n columns /\ cell_value f (row n) v.
