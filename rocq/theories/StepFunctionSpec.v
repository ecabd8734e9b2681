(** Notions used to state the properties of step functions. *)
From Coq Require Import List Ascii String ZArith NArith Arith Bool.
From Verif Require Import Text StepFunctionModel.
Import ListNotations.

Definition blanks (t : text) : Prop :=
  Forall (fun c => c = " "%char \/ c = ascii_of_nat 9 \/ c = ascii_of_nat 10 \/ c = ascii_of_nat 13) t.

Definition word_char (c : ascii) : Prop := is_alnum c = true \/ c = "_"%char.
Definition numeral_char (c : ascii) : Prop := is_digit c = true \/ c = "."%char.

(** Names: a letter, then letters, digits and underscores. *)
Definition name_text (t : text) : Prop :=
  exists c r, t = c :: r /\ is_alpha c = true /\ Forall word_char r.

(** Numerals as the lexer takes them, and those with a value: digits around at most
    one dot, at least one digit. *)
Definition numeral (t : text) : Prop := t <> [] /\ Forall numeral_char t.
Definition decimal_number (t : text) : Prop :=
  (t <> [] /\ forallb is_digit t = true) \/
  exists a b, t = a ++ "."%char :: b /\ forallb is_digit (a ++ b) = true /\ a ++ b <> [].

Definition operator_char (o : soperator) : ascii :=
  match o with SAdd => "+"%char | SMul => "*"%char | SPow => "^"%char end.

(** The end of the expression: the end of the text, or a character read as end of
    file with anything behind it. *)
Definition ends (t : text) : Prop :=
  t = [] \/ exists c r, t = c :: r /\ (code c = 0 \/ code c = 255).

(** [t] is the text [x], an operator and [y], with blanks anywhere around them. *)
Definition written (t x : text) (o : soperator) (y : text) : Prop :=
  exists b0 b1 b2 b3 e,
    t = b0 ++ x ++ b1 ++ operator_char o :: b2 ++ y ++ b3 ++ e /\
    blanks b0 /\ blanks b1 /\ blanks b2 /\ blanks b3 /\ ends e.

(** The step function a text denotes. *)
Inductive denotes {D} (value : text -> D) (t : text) : step_function D -> Prop :=
| D_name_num x o y : written t x o y -> name_text x -> decimal_number y ->
    denotes value t (StepFunction (OName x) o (ONum (value y)))
| D_num_name x o y : written t x o y -> decimal_number x -> name_text y ->
    denotes value t (StepFunction (ONum (value x)) o (OName y)).

(** A numeral without value stands at the first or second operand position. *)
Definition bad_numeral (t rest : text) : Prop :=
  exists x, numeral x /\ ~ decimal_number x /\ t = x ++ rest /\
    forall c r, rest = c :: r -> ~ numeral_char c.
Definition misread (t : text) : Prop :=
  (exists b u r, t = b ++ u /\ blanks b /\ bad_numeral u r) \/
  (exists b0 x b1 o b2 u r, t = b0 ++ x ++ b1 ++ operator_char o :: b2 ++ u /\
     blanks b0 /\ (name_text x \/ decimal_number x) /\ blanks b1 /\ blanks b2 /\ bad_numeral u r).

(** The values taken by repeated stepping: [iterates step lo vs v] holds if [vs] are
    the first values from [lo] on and [v] is the next one. *)
Inductive iterates (step : Z -> option Z) (lo : Z) : list Z -> Z -> Prop :=
| It_start : iterates step lo [] lo
| It_next vs v w : iterates step lo vs v -> step v = Some w -> iterates step lo (vs ++ [v]) w.
