(** Counterexamples, and constraints with exponents. *)
From Coq Require Import List ZArith NArith Arith Bool Ascii String SpecFloat Lia.
From Verif Require Import Text TextProofs NumSpec ConstraintModel ConstraintParserModel ConstraintSpec ConstraintTokenSpec ConstraintLexerProofs ConstraintRoundTrip
  StepFunctionModel StepFunctionSpec StepFunctionProofs FeatureTreeModel SxfmModel XmlModel
  DoubleModel DoubleSpec DoubleProofs DoubleStepProofs DoubleSciProofs DoubleLargeProofs.
Import ListNotations.
Local Open Scope Z_scope.

Theorem plus_one_stalls : exists lo hi, lo < hi /\ forall pow, exists g, read_step (double_arith pow) double_value (T "x + 1") = SxDone (Some g) /\ forall n, expand n (Some g) lo hi = ExpandRunning.
Proof.
  exists (2 ^ 53), (2 ^ 53 + 2). split; [lia|]. intros pow. eexists. split; [reflexivity|].
  apply expand_fixed_point with (vs := []) (v := 2 ^ 53); [constructor|repeat constructor; discriminate|vm_compute; reflexivity].
Qed.
Theorem half_stalls : exists lo hi, lo < hi /\ forall pow, exists g, read_step (double_arith pow) double_value (T "x + 0.5") = SxDone (Some g) /\ forall n, expand n (Some g) lo hi = ExpandRunning.
Proof.
  exists 1, 2. split; [lia|]. intros pow. eexists. split; [reflexivity|].
  apply expand_fixed_point with (vs := []) (v := 1); [constructor|repeat constructor; discriminate|vm_compute; reflexivity].
Qed.
Theorem doubling_overflows : exists lo hi, - 2 ^ 63 <= lo /\ hi < 2 ^ 63 /\ forall pow, exists g n, read_step (double_arith pow) double_value (T "x * 2") = SxDone (Some g) /\ expand n (Some g) lo hi = ExpandUndef.
Proof.
  exists 1, (2 ^ 62). split; [lia|]. split; [lia|]. intros pow. eexists. exists 70%nat. split; [reflexivity|]. vm_compute. reflexivity.
Qed.

(** ** Integers with an exponent *)
Theorem exponent_changes_value : exists t, decimal t /\ literal_value sci_double (t ++ T "e0") <> literal_value sci_double t.
Proof. exists (T "9007199254740993"). split; [split; [discriminate|reflexivity]|]. vm_compute. discriminate. Qed.
Theorem round_trip_double c : parse_text sci_double (to_string (fun s => s) c) = Parsed (excludes_as_implies c) <-> expressible c.
Proof. exact (round_trip sci_double c sci_double_nonneg). Qed.

(** ** Examples *)
Definition exact_pow (a b : double) : double := match truncated a, truncated b with Some x, Some y => of_int (x ^ y) | _, _ => S754_nan end.
Lemma exact_pow_ok : pow_exact exact_pow.
Proof.
  intros a b A B P R. unfold exact_pow. rewrite !of_int_exact by assumption. rewrite !truncated_exact by assumption. rewrite of_int_exact by exact R.
  apply to_int_of; [apply truncated_exact; exact R|exact R].
Qed.
Lemma written_ex x o y b : blanks b -> written (b ++ x ++ b ++ operator_char o :: b ++ y) x o y.
Proof.
  intros B. exists b, b, b, [], []. split; [rewrite !app_nil_r; reflexivity|]. split; [exact B|]. split; [exact B|]. split; [exact B|]. split; [constructor|left; reflexivity].
Qed.
