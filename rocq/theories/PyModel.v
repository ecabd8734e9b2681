(** Model of the Python bindings of the builder and of the edit functions
    (bindings/python/vara-feature/pybind_FeatureModelBuilder.cpp:16-90,
    pybind_FeatureModel.cpp:62-69, 79-128).  Objects of Python that hold constraints or features
    are the constraints and features themselves. *)
From Coq Require Import List ZArith Arith Bool Ascii String.
From Verif Require Import Text ConstraintModel SourceRangeModel FeatureTreeModel FeatureTransactionModel EditCallModel.
Import ListNotations.
Local Open Scope string_scope.
Local Open Scope list_scope.

(** The calls on a builder (pybind_FeatureModelBuilder.cpp:18-85). *)
Inductive pycall :=
| PyBinary (s : text) (opt : bool)
| PyEdge (parent child : text)
| PyGroup (parent relation : text)
| PyBoolean (c : cexpr cref)
| PyNonBoolean (c : cexpr cref)
| PyName (s : text)
| PyPath (s : text)
| PyCommit (s : text)
| PyRoot (s : text).

(** What is called on the builder.  [make_binary_feature] does not pass [Opt] on (21-23),
    [emplace_relationship] asserts that a relation other than OR is XOR (36-42), and
    constraints are cloned (48-52, 56-60). *)
Definition py_call (h : heap) (c : pycall) : option bcall :=
  match c with
  | PyBinary s _ => Some (BFeature (new_feature FBinary s false [] []))
  | PyEdge p s => Some (BEdge p s)
  | PyGroup p r =>
      if text_eqb r (T "OR") then Some (BRelationship ROr p)
      else if text_eqb r (T "XOR") then Some (BRelationship RAlternative p) else None
  | PyBoolean c => let* e := clone_expr h c in Some (BConstraint KBoolean e)
  | PyNonBoolean c => let* e := clone_expr h c in Some (BConstraint KNonBoolean e)
  | PyName s => Some (BName s)
  | PyPath s => Some (BPath s)
  | PyCommit s => Some (BCommit s)
  | PyRoot s => Some (BRoot s)
  end.

Section Order.
Variable ord : list nid -> list nid.
(** Calls on a new builder, and [build_feature_model] (86-89). *)
Definition py_build (h : heap) (ps : list pycall) : option (heap * option fmodel) :=
  let* cs := map_option (py_call h) ps in build_calls ord h cs.

(** [add_binary_feature], [add_numeric_feature] with and without locations
    (pybind_FeatureModel.cpp:79-121), [remove_feature] (122-128) and the setter of [commit]
    (62-69). *)
Definition py_add_binary (p : nid) (s : text) (opt : bool) (locs : list source_range) (w : world) : option world :=
  call_add_feature ord (new_feature FBinary s opt locs []) (Some p) w.
Definition py_add_numeric (p : nid) (s : text) (v : values) (opt : bool) (locs : list source_range) (w : world) : option world :=
  call_add_feature ord (new_feature (FNumeric v None) s opt locs []) (Some p) w.
Definition py_remove (f : nid) (recursive : bool) (w : world) : option world := call_remove_feature ord (ByPtr f) recursive w.
Definition py_set_commit (s : text) (w : world) : option world := call_set_commit ord s w.
End Order.
