(** What a Python caller asks a builder for. *)
From Coq Require Import List Arith Bool Ascii String.
From Verif Require Import Text ConstraintModel ConstraintSpec SourceRangeModel FeatureTreeModel FeatureTransactionModel FeatureEditSpec FeatureBuildSpec PyModel.
Import ListNotations.
Local Open Scope string_scope.
Local Open Scope list_scope.

(** The constraint with every mention spelled by its name. *)
Definition spelled (h : heap) (c e : cexpr cref) : Prop :=
  cmap (fun _ => tt) e = cmap (fun _ => tt) c /\ Forall2 (fun r r' => exists s, mentions h r s /\ r' = Own s) (leaves c) (leaves e).

(** The call on the builder that is asked for. *)
Inductive wants (h : heap) : pycall -> bcall -> Prop :=
| wants_binary s o : wants h (PyBinary s o) (BFeature (new_feature FBinary s o [] []))
| wants_edge p s : wants h (PyEdge p s) (BEdge p s)
| wants_or p : wants h (PyGroup p (T "OR")) (BRelationship ROr p)
| wants_xor p : wants h (PyGroup p (T "XOR")) (BRelationship RAlternative p)
| wants_boolean c e : spelled h c e -> wants h (PyBoolean c) (BConstraint KBoolean e)
| wants_nonboolean c e : spelled h c e -> wants h (PyNonBoolean c) (BConstraint KNonBoolean e)
| wants_name s : wants h (PyName s) (BName s)
| wants_path s : wants h (PyPath s) (BPath s)
| wants_commit s : wants h (PyCommit s) (BCommit s)
| wants_root s : wants h (PyRoot s) (BRoot s).

(** The same with all features mandatory. *)
Definition mandatory (f : feature) : feature :=
  Feature (f_kind f) (f_name f) (f_output f) (f_locations f) (f_constraints f) (f_excludes f) (f_implications f) false.
Definition mandatory_call (c : bcall) : bcall := match c with BFeature f => BFeature (mandatory f) | _ => c end.
Definition mandatory_decl (d : decl) : decl := (fst d, map mandatory (snd d)).
