(** Constraints that say the opposite of each other. *)
From Coq Require Import List ZArith Bool Arith.
From Verif Require Import Text ConstraintModel ConstraintSpec FeatureTreeModel FeatureTransactionModel SolverModel SolverSpec EditValidSpec.
Import ListNotations.
Local Open Scope list_scope.

(** A constraint over the names of a model has a truth value. *)
Definition well_said (h : heap) (m : fmodel) (k : ckind) (c : cexpr cref) : Prop :=
  forall a, exists b, meaning xorb (said h m (match k with KMixed _ _ => true | _ => false end) a) (a_div0 a) c = Some (Truth b).

(** A constraint and its negation, and a mixed constraint declared positive and negative. *)
Inductive opposite : ckind -> cexpr cref -> ckind -> cexpr cref -> Prop :=
| opposite_boolean c : opposite KBoolean c KBoolean (CUn UNot c)
| opposite_nonboolean c : opposite KNonBoolean c KNonBoolean (CUn UNot c)
| opposite_mixed c : opposite (KMixed ReqNone ExprPos) c (KMixed ReqNone ExprNeg) c.

Fixpoint without_division {F} (c : cexpr F) : Prop :=
  match c with
  | CBin o l r => o <> BDiv /\ without_division l /\ without_division r
  | CUn _ e => without_division e
  | _ => True
  end.

(** What [getNumConfigs] returns for [n] configurations. *)
Definition number (n : nat) : option (outcome nat) := Some (if Nat.eqb n 0 then inr Unsat else inl n).
