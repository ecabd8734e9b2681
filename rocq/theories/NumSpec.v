(** Specification of numerals, independent of the readers and printers. *)
From Coq Require Import List Ascii String ZArith NArith Arith Bool.
From Verif Require Import Text.
Import ListNotations.

(** Digit value of a character: 0-9, then letters of either case from ten. *)
Definition digit_val (c : ascii) : option N :=
  if is_digit c then Some (N.of_nat (code c - 48))
  else if is_lower c then Some (N.of_nat (code c - 97 + 10))
  else if is_upper c then Some (N.of_nat (code c - 65 + 10))
  else None.

(** Horner value in radix [R] of a text whose characters are all digits of
    radix [R]; [None] if some character is not. *)
Fixpoint radix_value (R acc : N) (t : text) : option N :=
  match t with
  | [] => Some acc
  | c :: r =>
      match digit_val c with
      | Some v => if (v <? R)%N then radix_value R (acc * R + v) r else None
      | None => None
      end
  end.

(** Value of a text of decimal digits (Horner), [acc] being the digits read so
    far. *)
Fixpoint dec_value (acc : N) (t : text) : N :=
  match t with
  | [] => acc
  | c :: r => dec_value (acc * 10 + N.of_nat (code c - 48)) r
  end.

(** A non-empty text of decimal digits. *)
Definition decimal (t : text) : Prop := t <> [] /\ forallb is_digit t = true.
