(** The printed form of features and of a whole model: [Feature::toString],
    [NumericFeature::toString] (lib/Feature/Feature.cpp:7-47), [Feature::dump]
    (include/vara/Feature/Feature.h:178) and [FeatureModel::dump]
    (lib/Feature/FeatureModel.cpp:15-22).

    [None]: a null pointer or a freed feature is used. *)
From Coq Require Import List ZArith NArith Arith Bool Ascii String.
From Verif Require Import Text SourceRangeModel FeatureTreeModel GraphvizModel.
Import ListNotations.
Local Open Scope string_scope.
Local Open Scope list_scope.

Definition separator : text := T "," ++ [nl] ++ T "  ".
(** [Feature::toString] (7-30). *)
Definition locations_text (ls : list source_range) : text :=
  match ls with [] => [] | _ => T "locations: " ++ flat_map (fun r => T "[" ++ range_text r ++ T "]") ls ++ separator end.
Definition parent_text (h : heap) (i : nid) : option text :=
  let* p := parent_feature h i in
  match p with None => Some [] | Some q => let* s := name_at h q in Some (T "parent: " ++ s ++ separator) end.
Definition child_text (h : heap) (i : nid) : option text :=
  let* c := h_cells h i in
  Some (match n_data c with NFeature f => f_name f ++ T "," | NRelationship _ => [] end).
Definition base_text (h : heap) (i : nid) : option text :=
  let* f := feature_at h i in
  let* c := h_cells h i in
  let* p := parent_text h i in
  let* cs := all_some (child_text h) (n_edges c) in
  Some (T "  name: " ++ quoted (f_name f) ++ T "," ++ [nl] ++ T "  optional: " ++ (if f_optional f then T "true" else T "false") ++ separator ++
        locations_text (f_locations f) ++ p ++ T "children: [" ++ List.concat cs ++ T "]").
(** [NumericFeature::toString] (32-46). *)
Definition values_text (v : values) : text :=
  match v with
  | VRange lo hi => separator ++ T "minValue: " ++ print_Z lo ++ separator ++ T "maxValue: " ++ print_Z hi
  | VList vs => separator ++ T "values: [" ++ flat_map (fun z => print_Z z ++ T ",") vs ++ T "]"
  end.
Definition feature_text (h : heap) (i : nid) : option text :=
  let* f := feature_at h i in
  let* b := base_text h i in
  Some (b ++ match f_kind f with FNumeric v _ => values_text v | _ => [] end).
(** [FeatureModel::dump].  The features are in a hash map: [order] is how it is iterated. *)
Definition dump_feature (h : heap) (e : text * nid) : option text :=
  let* t := feature_text h (snd e) in Some (T "{" ++ [nl] ++ t ++ [nl] ++ T "}" ++ [nl]).
Definition dump_model (order : list (text * nid) -> list (text * nid)) (h : heap) (m : fmodel) : option text :=
  let* ts := all_some (dump_feature h) (order (m_features m)) in
  Some (List.concat ts ++ [nl]).
