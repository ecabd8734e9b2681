(** What the functions that edit a model in one call should do. *)
From Coq Require Import List Arith Bool Ascii.
From Verif Require Import Text ConstraintModel SourceRangeModel FeatureTreeModel FeatureTreeSpec FeatureTransactionModel FeatureEditSpec.
Import ListNotations.

(** Each feature becomes the last child of the given parent, or of the top. *)
Inductive planted : tree -> list (feature * option nid) -> tree -> Prop :=
| planted_none t : planted t [] t
| planted_one t i f p l t' : ~ In i (ids t) ->
    planted (edit (match p with Some q => q | None => rid t end) (add_kid (Node i (NFeature f) [])) t) l t' ->
    planted t ((f, p) :: l) t'.

(** Parents are features of the model, and no root is added. *)
Definition plantable (m : fmodel) (l : list (feature * option nid)) : Prop :=
  forall f p, In (f, p) l -> f_kind f <> FRoot /\ forall q, p = Some q -> In q (map snd (m_features m)).

(** The longest beginning of a list of features without a name that is taken. *)
Definition fresh_start (m : fmodel) (l before : list (feature * option nid)) : Prop :=
  exists after, l = before ++ after /\
    NoDup (map (fun x => f_name (fst x)) before) /\ (forall x, In x before -> get_feature m (f_name (fst x)) = None) /\
    forall y r, after = y :: r -> get_feature m (f_name (fst y)) <> None \/ In (f_name (fst y)) (map (fun x => f_name (fst x)) before).
