(** What is said about lengths, independent of the conversions. *)
From Coq Require Import List ZArith Ascii.
From Verif Require Import Text.
Import ListNotations.
Open Scope Z_scope.

Definition size (t : text) : Z := Z.of_nat (List.length t).
(** [u] are the first [n] bytes of [t]. *)
Definition first_bytes (n : Z) (t u : text) : Prop := size u = n /\ exists v, t = u ++ v.
