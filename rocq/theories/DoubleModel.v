(** Doubles: the arithmetic of step functions (include/vara/Feature/StepFunction.h:29-55)
    and the way of integers with an exponent through [double]
    (include/vara/Feature/ConstraintParser.h:278-301).

    The doubles are those of Coq's [SpecFloat] (IEEE 754, binary64, rounding to nearest,
    ties to even).  [std::pow] is an argument. *)
From Coq Require Import List ZArith NArith Arith Bool Ascii String SpecFloat.
From Verif Require Import Text NumSpec StepFunctionModel.
Import ListNotations.
Local Open Scope Z_scope.

Definition double : Type := spec_float.
Definition prec : Z := 53.
Definition emax : Z := 1024.

(** ** Conversions *)
(** [int64_t] to [double]: the operand [Value] (StepFunction.h:29-55). *)
Definition of_int (z : Z) : double := binary_normalize prec emax z 0 false.
(** The integer part (StepFunction.h:29-55); [None] for infinities and NaN. *)
Definition truncated (d : double) : option Z :=
  match d with
  | S754_zero _ => Some 0
  | S754_finite s m e =>
      let v := if 0 <=? e then Z.pos m * 2 ^ e else Z.pos m / 2 ^ (- e) in
      Some (if s then - v else v)
  | _ => None
  end.
(** [double] to [int64_t], where [next] returns (StepFunction.h:29-55); [None]: the integer
    part is out of range, which is undefined. *)
Definition to_int (d : double) : option Z :=
  match truncated d with
  | Some z => if (- 2 ^ 63 <=? z) && (z <? 2 ^ 63) then Some z else None
  | None => None
  end.
(** [n] times ten to the [q], correctly rounded: what [APFloat::convertFromString] computes
    for a decimal numeral (StepFunctionParser.h:203, ConstraintParser.h:282). *)
Definition of_decimal (n : N) (q : Z) : double :=
  if 0 <=? q then of_int (Z.of_N n * 10 ^ q)
  else
    match n with
    | 0%N => S754_zero false
    | Npos _ =>
        let '(m, e, l) := SFdiv_core_binary prec emax (Z.of_N n) 0 (10 ^ (- q)) 0 in
        binary_round_aux prec emax false m e l
    end.

(** ** Step functions *)
(** The operations of [next] (StepFunction.h:29-55). *)
Definition double_arith (pow : double -> double -> double) : arith double :=
  Arith double (SFadd prec emax) (SFmul prec emax) pow of_int to_int.
(** [StringRef::getAsDouble] on digits with at most one dot (StepFunctionParser.h:202-203). *)
Fixpoint before_dot (t : text) : text :=
  match t with [] => [] | c :: r => if Ascii.eqb c "." then [] else c :: before_dot r end.
Fixpoint behind_dot (t : text) : text :=
  match t with [] => [] | c :: r => if Ascii.eqb c "." then r else behind_dot r end.
Definition double_value (t : text) : double :=
  of_decimal (dec_value 0 (before_dot t ++ behind_dot t)) (- Z.of_nat (List.length (behind_dot t))).

(** ** Integers with an exponent *)
(** Splits at the exponent, for [getAsDouble] (ConstraintParser.h:282; the text is in lower
    case, ConstraintParser.h:252). *)
Fixpoint mantissa (t : text) : text :=
  match t with [] => [] | c :: r => if Ascii.eqb c "e" then [] else c :: mantissa r end.
Fixpoint exponent (t : text) : text :=
  match t with [] => [] | c :: r => if Ascii.eqb c "e" then r else exponent r end.
(** [readExponent] of APFloat (ConstraintParser.h:282): a missing number is zero; reading stops as soon as the value
    reaches 24000, which is taken instead. *)
Fixpoint exponent_digits (acc : Z) (t : text) : option Z :=
  match t with
  | [] => Some acc
  | c :: r =>
      if is_digit c then
        let a := acc * 10 + Z.of_nat (code c - 48) in
        if 24000 <=? a then Some 24000 else exponent_digits a r
      else None
  end.
Definition read_exponent (t : text) : option Z :=
  match t with
  | c :: r =>
      if Ascii.eqb c "-" then match exponent_digits 0 r with Some z => Some (- z) | None => None end
      else if Ascii.eqb c "+" then exponent_digits 0 r
      else exponent_digits 0 t
  | [] => Some 0
  end.
(** [getAsDouble] on a text of digits, "e" and signs that starts with a digit
    (ConstraintParser.h:282).  Inexact results are allowed, overflow and underflow among
    them: they give infinity and zero. *)
Definition get_as_double (t : text) : option double :=
  let m := mantissa t in
  if forallb is_digit m && negb (match m with [] => true | _ => false end) then
    match read_exponent (exponent t) with
    | Some q => Some (of_decimal (dec_value 0 m) q)
    | None => None
    end
  else None.
(** The integer next to a finite double, ties to even (ConstraintParser.h:283). *)
Definition nearest (d : double) : option Z :=
  match d with
  | S754_zero _ => Some 0
  | S754_finite s m e =>
      let v := if 0 <=? e then Z.pos m * 2 ^ e
               else let (q, r) := Z.div_eucl (Z.pos m) (2 ^ (- e)) in
                    round_nearest_even q (new_location (2 ^ (- e)) r) in
      Some (if s then - v else v)
  | _ => None
  end.
(** [llvm::formatv("{0:0}", Double)]: "%.0f", or "INF" or "nan" (ConstraintParser.h:283). *)
Definition sci_double (t : text) : option text :=
  match get_as_double t with
  | Some d => Some (match nearest d with Some z => print_Z z | None => match d with S754_infinity s => T (if s then "-INF" else "INF") | _ => T "nan" end end)
  | None => None
  end.
