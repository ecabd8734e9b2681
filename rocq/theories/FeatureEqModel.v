(** Equality and hash of features (include/vara/Feature/Feature.h:50-52, 76-84) and sets of
    features in Python (bindings/python/vara-feature/pybind_Feature.cpp:41-42, 86-88). *)
From Coq Require Import List Bool Ascii.
From Verif Require Import Text FeatureTreeModel.
Import ListNotations.

(** [operator==] (Feature.h:78-81). *)
Definition feature_equal (h : heap) (a b : nid) : option bool :=
  let* u := lower_at h a in
  let* v := lower_at h b in
  Some (text_eqb u v).
(** [operator!=] (Feature.h:82-84). *)
Definition feature_unequal (h : heap) (a b : nid) : option bool :=
  let* e := feature_equal h a b in Some (negb e).
(** [hash] (Feature.h:50-52); [hash] stands for [std::hash<std::string>]. *)
Definition feature_hash (hash : text -> nat) (h : heap) (a : nid) : option nat :=
  let* u := lower_at h a in Some (hash u).

(** Adding an object to a Python set, whose classes take [__hash__] and [__eq__] from
    the functions above (pybind_Feature.cpp:42, 87): the set stays as it is if it has an
    element with the same hash that is the same object or equal.  The set is modelled as
    the list of its elements; the element that is there first stays. *)
Fixpoint py_member (hash : text -> nat) (h : heap) (s : list nid) (x : nid) : option bool :=
  match s with
  | [] => Some false
  | y :: r =>
      let* hy := feature_hash hash h y in
      let* hx := feature_hash hash h x in
      let* e := feature_equal h y x in
      if Nat.eqb hy hx && (Nat.eqb y x || e) then Some true else py_member hash h r x
  end.
Definition py_add (hash : text -> nat) (h : heap) (s : list nid) (x : nid) : option (list nid) :=
  let* b := py_member hash h s x in Some (if b then s else s ++ [x]).
(** [set(xs)]. *)
Fixpoint py_set (hash : text -> nat) (h : heap) (s : list nid) (xs : list nid) : option (list nid) :=
  match xs with
  | [] => Some s
  | x :: r => let* s' := py_add hash h s x in py_set hash h s' r
  end.
