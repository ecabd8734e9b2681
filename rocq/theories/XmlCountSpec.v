(** How often a model states a constraint. *)
From Coq Require Import List ZArith Arith Bool Ascii String.
From Verif Require Import Text ConstraintModel ConstraintSpec FeatureTreeModel FeatureTransactionModel SxfmModel XmlModel XmlSpec XmlTripSpec.
Import ListNotations.

(** [times h l e n]: [n] constraints of the list read [e]. *)
Inductive times (h : heap) : list mconstraint -> cexpr string -> nat -> Prop :=
| times_none e : times h [] e 0
| times_one c l e n : spelled h (c_expr c) e -> times h l e n -> times h (c :: l) e (S n)
| times_other c l e n : ~ spelled h (c_expr c) e -> times h l e n -> times h (c :: l) e n.

(** [unpaired l k]: [k] are the constraints of [l] other than "A implies B" and "A excludes B". *)
Inductive unpaired : list mconstraint -> list mconstraint -> Prop :=
| unpaired_none : unpaired [] []
| unpaired_pair c l k : pair (c_expr c) -> unpaired l k -> unpaired (c :: l) k
| unpaired_other c l k : ~ pair (c_expr c) -> unpaired l k -> unpaired (c :: l) (c :: k).

Definition implying (a b : string) : cexpr string := CBin BImplies (CFeat a) (CFeat b).
Definition excluding_text (a b : string) : cexpr string := CBin BExcludes (CFeat a) (CFeat b).

(** After a model was saved and loaded: implications between different features are there
    as often as before, those of a feature with itself twice as often, exclusions once,
    and the others one by one and in order. *)
Record counts_back (h : heap) (m : fmodel) (h' : heap) (m' : fmodel) : Prop := CountsBack {
  cb_implies : forall a b n, a <> b -> times h (all_constraints m) (implying a b) n -> times h' (m_boolean m') (implying a b) n;
  cb_self : forall a n, times h (all_constraints m) (implying a a) n -> times h' (m_boolean m') (implying a a) (2 * n);
  cb_excludes : forall a b, stated h' (m_boolean m') (excluding_text a b) -> times h' (m_boolean m') (excluding_text a b) 1;
  cb_others : forall l l', unpaired (m_boolean m) l -> unpaired (m_boolean m') l' -> Forall2 (constraint_back h h') l l'
}.

(** The constraints that are not stored as boolean ones. *)
Definition not_boolean (m : fmodel) : list mconstraint := m_nonboolean m ++ map x_con (m_mixed m).
(** The same after any number [n] of times: an implication that is stored among the
    non-boolean or mixed constraints is added to the boolean ones every time, and the
    implications of a feature with itself double every time. *)
Record counts_after (n : nat) (h : heap) (m : fmodel) (h' : heap) (m' : fmodel) : Prop := CountsAfter {
  ca_implies : forall a b p k, a <> b -> times h (m_boolean m) (implying a b) p -> times h (not_boolean m) (implying a b) k ->
    times h' (m_boolean m') (implying a b) (p + n * k);
  ca_self : forall a p k, times h (m_boolean m) (implying a a) p -> times h (not_boolean m) (implying a a) k ->
    exists x, times h' (m_boolean m') (implying a a) x /\ x + 2 * k = 2 ^ n * (p + 2 * k);
  ca_not_boolean : forall a b k, times h (not_boolean m) (implying a b) k -> times h' (not_boolean m') (implying a b) k;
  ca_excludes : forall a b, n <> 0 -> stated h' (m_boolean m') (excluding_text a b) -> times h' (m_boolean m') (excluding_text a b) 1;
  ca_others : forall l l', n <> 0 -> unpaired (m_boolean m) l -> unpaired (m_boolean m') l' -> Forall2 (constraint_back h h') l l'
}.
