(** How often a text occurs in another one, from the left and without overlaps. *)
From Coq Require Import List Ascii.
From Verif Require Import Text.
Import ListNotations.

Inductive occurs_times (p : text) : text -> nat -> Prop :=
| Occurs_end : occurs_times p [] 0
| Occurs_here t n : occurs_times p t n -> occurs_times p (p ++ t) (S n)
| Occurs_not c t n : (forall r, c :: t <> p ++ r) -> occurs_times p t n -> occurs_times p (c :: t) n.
