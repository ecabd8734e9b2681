(** Numerals and what they stand for; ranges of integers.  Independent of doubles. *)
From Coq Require Import List Ascii String ZArith NArith Arith Bool Sorted.
From Verif Require Import Text NumSpec StepFunctionModel StepFunctionSpec.
Import ListNotations.
Local Open Scope Z_scope.

(** Integers that are exact in 53 bits. *)
Definition within (z : Z) : Prop := - 2 ^ 53 < z < 2 ^ 53.

(** A numeral of digits, possibly with a dot, that stands for the integer [z]: 7, 7.0, 07.00. *)
Definition integral (t : text) (z : Z) : Prop :=
  exists a b, (t = a /\ b = [] \/ t = a ++ "."%char :: b) /\ a ++ b <> [] /\ forallb is_digit (a ++ b) = true /\
    Z.of_N (dec_value 0 (a ++ b)) = z * 10 ^ Z.of_nat (List.length b).

Definition operation (o : soperator) (a b : Z) : Z := match o with SAdd => a + b | SMul => a * b | SPow => a ^ b end.

(** [out] lists the numbers with [P], largest first. *)
Definition lists_down (P : Z -> Prop) (out : list Z) : Prop := (forall v, In v out <-> P v) /\ StronglySorted Z.gt out.

(** A numeral with exponent: [n] times ten to the [q].  The number behind the "e" may be
    missing. *)
Inductive scientific : text -> N -> Z -> Prop :=
| sc_plain a e b : decimal a -> e = "e"%char \/ e = "E"%char -> forallb is_digit b = true ->
    scientific (a ++ e :: b) (dec_value 0 a) (Z.of_N (dec_value 0 b))
| sc_plus a e b : decimal a -> e = "e"%char \/ e = "E"%char -> forallb is_digit b = true ->
    scientific (a ++ e :: "+"%char :: b) (dec_value 0 a) (Z.of_N (dec_value 0 b))
| sc_minus a e b : decimal a -> e = "e"%char \/ e = "E"%char -> forallb is_digit b = true ->
    scientific (a ++ e :: "-"%char :: b) (dec_value 0 a) (- Z.of_N (dec_value 0 b)).
(** [n] times ten to the [q] is the integer [z]. *)
Definition amounts (n : N) (q z : Z) : Prop := if 0 <=? q then Z.of_N n * 10 ^ q = z else Z.of_N n = z * 10 ^ (- q).
(** The integer [w] for the number [x] divided by [m]: the largest integer of 64 bits if the
    number does not fit, at most three quarters off if it has at most 53 bits before the dot,
    and at most 512 off (from the number or the largest integer) in any case. *)
Definition near (w x m : Z) : Prop :=
  (2 ^ 63 * m <= x -> w = 2 ^ 63 - 1) /\ (x < 2 ^ 53 * m -> 4 * Z.abs (w * m - x) <= 3 * m) /\ Z.abs (w * m - Z.min x ((2 ^ 63 - 1) * m)) <= 512 * m.
