(** Notions used to state the properties of source ranges. *)
From Coq Require Import List Ascii String ZArith NArith Arith Bool.
From Verif Require Import Text TextSearch SourceRangeModel.
Import ListNotations.

(** Reading order of locations: by line, then by column. *)
Definition before (a b : location) : Prop :=
  (l_line a < l_line b)%N \/ (l_line a = l_line b /\ (l_column a < l_column b)%N).

Definition one_of_three (p q r : bool) : Prop :=
  (p = true /\ q = false /\ r = false) \/ (p = false /\ q = true /\ r = false) \/
  (p = false /\ q = false /\ r = true).

(** [t] is [a], two colons and [b], and these are the last two colons in [t]. *)
Definition last_part (t a b : text) : Prop :=
  occurs_at (T "::") t a b /\
  forall a' b', occurs_at (T "::") t a' b' -> List.length a' <= List.length a.

(** Paths are the same when they differ only in how often a separator is
    repeated. *)
Inductive same_path : text -> text -> Prop :=
| SP_nil : same_path [] []
| SP_char c p q : same_path p q -> same_path (c :: p) (c :: q)
| SP_drop_l p q : same_path ("/"%char :: p) q -> same_path ("/"%char :: "/"%char :: p) q
| SP_drop_r p q : same_path p ("/"%char :: q) -> same_path p ("/"%char :: "/"%char :: q).

(** [l] splits at the first range equal to [r], which is [x]. *)
Definition first_equal (l : list source_range) (r x : source_range) (a b : list source_range) : Prop :=
  l = a ++ x :: b /\ range_eqb x r = true /\ Forall (fun y => range_eqb y r = false) a.
