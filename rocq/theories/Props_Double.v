(** Properties C65 and C66: step functions and integers with an exponent, computed on
    doubles. *)
From Coq Require Import List ZArith NArith Arith Bool Ascii String SpecFloat Lia.
From Verif Require Import Text TextProofs NumSpec ConstraintModel ConstraintParserModel ConstraintSpec ConstraintRoundTrip
  StepFunctionModel StepFunctionSpec FeatureTreeModel SxfmModel XmlModel SolverSpec
  DoubleModel DoubleSpec DoubleStepProofs DoubleSciProofs DoubleLargeProofs DoubleFinal.
Import ListNotations.
Local Open Scope Z_scope.

(** ** C65: step functions on doubles step through the integers *)

(** A feature name, an operator and an integral numeral: the next value is the result on
    the integers, as long as value and result have at most 53 bits.  Powers need a
    [std::pow] that is exact on these. *)
Theorem C65_name_first : forall pow t x o y z, written t x o y -> name_text x -> integral y z -> within z -> (o = SPow -> pow_exact pow /\ 0 <= z) ->
  exists g, read_step (double_arith pow) double_value t = SxDone (Some g) /\ forall v, within v -> within (operation o v z) -> g v = Some (operation o v z).
Proof. exact steps_name_first. Qed.
Print Assumptions C65_name_first.

Theorem C65_number_first : forall pow t x o y z, written t x o y -> integral x z -> name_text y -> within z -> (o = SPow -> pow_exact pow) ->
  exists g, read_step (double_arith pow) double_value t = SxDone (Some g) /\
    forall v, within v -> (o = SPow -> 0 <= v) -> within (operation o z v) -> g v = Some (operation o z v).
Proof. exact steps_number_first. Qed.
Print Assumptions C65_number_first.

(** A range with a positive summand is expanded to the arithmetic progression, largest
    first, and the encoding allows exactly these values. *)
Theorem C65_arithmetic_range : forall pow t x y z lo hi, written t x SAdd y -> name_text x -> integral y z -> 0 < z -> within z -> within lo -> within (hi + z) ->
  exists g n out, read_step (double_arith pow) double_value t = SxDone (Some g) /\ (forall n', (n <= n')%nat -> expand n' (Some g) lo hi = Expanded out) /\
    lists_down (fun v => exists j, 0 <= j /\ v = lo + j * z /\ v <= hi) out /\
    (forall v, allowed_value (VRange lo hi) (Some g) v <-> exists j, 0 <= j /\ v = lo + j * z /\ v <= hi) /\ leaves_range (VRange lo hi) (Some g).
Proof. exact arithmetic_range. Qed.
Print Assumptions C65_arithmetic_range.

Theorem C65_geometric_range : forall pow t x y z lo hi, written t x SMul y -> name_text x -> integral y z -> 1 < z -> within z -> 0 < lo -> within lo -> within (hi * z) ->
  exists g n out, read_step (double_arith pow) double_value t = SxDone (Some g) /\ (forall n', (n <= n')%nat -> expand n' (Some g) lo hi = Expanded out) /\
    lists_down (fun v => exists j, 0 <= j /\ v = lo * z ^ j /\ v <= hi) out /\
    (forall v, allowed_value (VRange lo hi) (Some g) v <-> exists j, 0 <= j /\ v = lo * z ^ j /\ v <= hi) /\ leaves_range (VRange lo hi) (Some g).
Proof. exact geometric_range. Qed.
Print Assumptions C65_geometric_range.

(** From 2^53 on, adding one leaves the double where it is. *)
Theorem C65_plus_one_ends_refuted : exists lo hi, lo < hi /\ forall pow, exists g,
  read_step (double_arith pow) double_value (T "x + 1") = SxDone (Some g) /\ forall n, expand n (Some g) lo hi = ExpandRunning.
Proof. exact plus_one_stalls. Qed.
Print Assumptions C65_plus_one_ends_refuted.

(** A positive summand below one is lost in the conversion back to an integer. *)
Theorem C65_positive_summand_ends_refuted : exists lo hi, lo < hi /\ forall pow, exists g,
  read_step (double_arith pow) double_value (T "x + 0.5") = SxDone (Some g) /\ forall n, expand n (Some g) lo hi = ExpandRunning.
Proof. exact half_stalls. Qed.
Print Assumptions C65_positive_summand_ends_refuted.

(** With both bounds in the range of [int64_t], the value behind the last one need not be. *)
Theorem C65_doubling_defined_refuted : exists lo hi, - 2 ^ 63 <= lo /\ hi < 2 ^ 63 /\ forall pow, exists g n,
  read_step (double_arith pow) double_value (T "x * 2") = SxDone (Some g) /\ expand n (Some g) lo hi = ExpandUndef.
Proof. exact doubling_overflows. Qed.
Print Assumptions C65_doubling_defined_refuted.

Example C65_example :
  pow_exact exact_pow /\
  written (T " opt_a * 3.0") (T "opt_a") SMul (T "3.0") /\ name_text (T "opt_a") /\ integral (T "3.0") 3 /\ within 3 /\ within (100 * 3) /\
  match read_step (double_arith exact_pow) double_value (T " opt_a * 3.0") with SxDone g => expand 20 g 2 100 = Expanded [54; 18; 6; 2] | _ => False end /\
  match read_step (double_arith exact_pow) double_value (T "x + 0020") with SxDone g => expand 20 g (-10) 45 = Expanded [30; 10; -10] | _ => False end /\
  match read_step (double_arith exact_pow) double_value (T "2 ^ x") with SxDone g => expand 20 g 1 100 = Expanded [16; 4; 2; 1] | _ => False end.
Proof.
  split; [exact exact_pow_ok|].
  split; [exact (written_ex (T "opt_a") SMul (T "3.0") (T " ") ltac:(repeat constructor))|].
  split; [exists "o"%char, (T "pt_a"); split; [reflexivity|]; split; [reflexivity|]; repeat constructor; (left; reflexivity) || (right; reflexivity)|].
  split; [exists (T "3"), (T "0"); split; [right; reflexivity|]; split; [discriminate|]; split; reflexivity|].
  split; [unfold within; lia|]. split; [unfold within; lia|]. vm_compute. repeat split.
Qed.

(** ** C66: integers with an exponent *)

(** The number is taken exactly if it is an integer with at most 53 bits, however it is
    written: 15e2, 1500000E-3, 1500e, 1500e+0. *)
Theorem C66_exact : forall t n q z, scientific t n q -> Z.abs q < 24000 -> amounts n q z -> within z -> literal_value sci_double t = z.
Proof. exact scientific_exact. Qed.
Print Assumptions C66_exact.

(** Numbers that do not fit become the largest integer; the others are at most three
    quarters off below 2^53 and at most 512 off above. *)
Theorem C66_near : forall t n q, scientific t n q -> Z.abs q < 24000 -> near (literal_value sci_double t) (Z.of_N n * 10 ^ Z.max 0 q) (10 ^ Z.max 0 (- q)).
Proof. exact scientific_near. Qed.
Print Assumptions C66_near.

(** The result is never negative, so that constraints are read back as in C01. *)
Theorem C66_never_negative : forall t d, sci_double t = Some d -> starts_with (T "-") t = false -> starts_with (T "-") d = false.
Proof. exact sci_double_nonneg. Qed.
Print Assumptions C66_never_negative.

Theorem C66_round_trip : forall c, parse_text sci_double (to_string (fun s => s) c) = Parsed (excludes_as_implies c) <-> expressible c.
Proof. exact round_trip_double. Qed.
Print Assumptions C66_round_trip.

(** An exponent of zero can change the value. *)
Theorem C66_exponent_zero_refuted : exists t, decimal t /\ literal_value sci_double (t ++ T "e0") <> literal_value sci_double t.
Proof. exact exponent_changes_value. Qed.
Print Assumptions C66_exponent_zero_refuted.

Example C66_example :
  scientific (T "1500000E-3") 1500000 (-3) /\ amounts 1500000 (-3) 1500 /\ within 1500 /\
  literal_value sci_double (T "1500000E-3") = 1500 /\ literal_value sci_double (T "15e2") = 1500 /\ literal_value sci_double (T "1500e") = 1500 /\
  scientific (T "9e+18") 9 18 /\ amounts 9 18 9000000000000000000 /\ literal_value sci_double (T "9e+18") = 9000000000000000000 /\
  literal_value sci_double (T "9007199254740993e2") = 900719925474099328 /\ literal_value sci_double (T "1e19") = 9223372036854775807 /\ literal_value sci_double (T "1e400") = 9223372036854775807 /\
  scientific (T "35e-1") 35 (-1) /\ literal_value sci_double (T "25e-1") = 2 /\ literal_value sci_double (T "35e-1") = 4 /\ literal_value sci_double (T "1e-400") = 0 /\
  parse_text sci_double (T "n = 1e3 | 2E0") = Parsed (CBin BOr (CBin BEqual (CFeat "n"%string) (CInt 1000)) (CInt 2)).
Proof.
  split; [exact (sc_minus (T "1500000") "E" (T "3") ltac:(split; [discriminate|reflexivity]) (or_intror eq_refl) eq_refl)|].
  split; [reflexivity|]. split; [unfold within; lia|]. split; [vm_compute; reflexivity|]. split; [vm_compute; reflexivity|]. split; [vm_compute; reflexivity|].
  split; [exact (sc_plus (T "9") "e" (T "18") ltac:(split; [discriminate|reflexivity]) (or_introl eq_refl) eq_refl)|]. split; [reflexivity|].
  split; [vm_compute; reflexivity|]. split; [vm_compute; reflexivity|]. split; [vm_compute; reflexivity|]. split; [vm_compute; reflexivity|].
  split; [exact (sc_minus (T "35") "e" (T "1") ltac:(split; [discriminate|reflexivity]) (or_introl eq_refl) eq_refl)|]. vm_compute. repeat split.
Qed.
