(** What trimming, the numbers of a text and [atoi] are. *)
From Coq Require Import List ZArith Arith Bool Ascii String.
From Verif Require Import Text SxfmModel.
Import ListNotations.
Local Open Scope string_scope.
Local Open Scope list_scope.

Definition spaces (t : text) : Prop := Forall (fun c => In (code c) [32; 9; 10; 11; 12; 13]) t.
Definition no_space (c : ascii) : Prop := ~ In (code c) [32; 9; 10; 11; 12; 13].
Definition all_digits (t : text) : Prop := Forall (fun c => 48 <= code c <= 57) t.
Definition no_digits (t : text) : Prop := Forall (fun c => ~ 48 <= code c <= 57) t.
Definition starts_not (p : ascii -> Prop) (t : text) : Prop := forall c r, t = c :: r -> ~ p c.

(** [u] is [t] without the blanks at the ends. *)
Definition trimmed_to (t u : text) : Prop :=
  exists a b, t = a ++ u ++ b /\ spaces a /\ spaces b /\ (forall c r, u = c :: r -> no_space c) /\ (forall c r, u = r ++ [c] -> no_space c).

(** The longest runs of digits in a text from left to right, each with a minus sign if it
    stands directly behind one. *)
Inductive runs : text -> list text -> Prop :=
| runs_none g : no_digits g -> runs g []
| runs_more g d r l : no_digits g -> d <> [] -> all_digits d -> starts_not (fun c => 48 <= code c <= 57) r -> runs r l ->
    runs (g ++ d ++ r) (match rev g with c :: _ => if Ascii.eqb c "-" then c :: d else d | [] => d end :: l).

(** The value of digits, and of the number at the beginning of a text; zero if there is
    none. *)
Definition digits_worth (d : text) : Z := fold_left (fun a c => 10 * a + Z.of_nat (code c - 48))%Z d 0%Z.
Definition leading_number (t : text) (z : Z) : Prop :=
  exists w s d r, t = w ++ s ++ d ++ r /\ spaces w /\ all_digits d /\ starts_not (fun c => 48 <= code c <= 57) r /\
    (s = ["-"%char] /\ z = (- digits_worth d)%Z \/
     s = ["+"%char] /\ z = digits_worth d \/
     s = [] /\ z = digits_worth d /\ starts_not (fun c => In (code c) [32; 9; 10; 11; 12; 13] \/ c = "-"%char \/ c = "+"%char) (d ++ r)).
