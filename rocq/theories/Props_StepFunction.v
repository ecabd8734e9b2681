(** Properties C11 and C12: step functions and numeric ranges. *)
From Coq Require Import List Ascii String ZArith NArith Bool.
From Verif Require Import Text NumSpec StepFunctionModel StepFunctionSpec StepFunctionProofs.
Import ListNotations.

(** ** C11: step function texts are accepted exactly when well formed *)

Theorem C11_accepted : forall D (value : text -> D) t f, parse_step value t = SOk f <-> denotes value t f.
Proof. exact @parse_step_spec. Qed.
Print Assumptions C11_accepted.

Theorem C11_operand_order : forall D (A : arith D) value t f v, denotes value t f ->
  exists x y, written t x (sf_op f) y /\
    ((name_text x /\ next_double A f v = Some (apply_op A (sf_op f) v (value y))) \/
     (name_text y /\ next_double A f v = Some (apply_op A (sf_op f) (value x) v))).
Proof. exact @denotes_next. Qed.
Print Assumptions C11_operand_order.

(** Reading is undefined exactly on the empty text and on numerals such as [1.2.3]
    at an operand position. *)
Theorem C11_undefined : forall D (value : text -> D) t, parse_step value t = SUndef <-> t = [] \/ misread t.
Proof. exact @parse_step_undef. Qed.
Print Assumptions C11_undefined.

(** Not every non-empty text is handled without undefined behaviour. *)
Theorem C11_safe_refuted : exists t, t <> [] /\ forall D (value : text -> D), parse_step value t = SUndef.
Proof. exact parse_step_unsafe. Qed.
Print Assumptions C11_safe_refuted.

(** Integers as a stand-in for doubles. *)
Definition C11_arith : arith Z := Arith Z Z.add Z.mul Z.pow (fun z => z) (fun z => Some z).
Definition C11_value (t : text) : Z := Z.of_N (dec_value 0 t).

Example C11_example :
  parse_step C11_value (T "  2 ^ x1_ ") = SOk (StepFunction (ONum 2%Z) SPow (OName (T "x1_"))) /\
  next_double C11_arith (StepFunction (ONum 2%Z) SPow (OName (T "x1_"))) 5%Z = Some 32%Z /\
  parse_step C11_value (T "x ^ 2") = SOk (StepFunction (OName (T "x")) SPow (ONum 2%Z)) /\
  next_double C11_arith (StepFunction (OName (T "x")) SPow (ONum 2%Z)) 5%Z = Some 25%Z /\
  parse_step C11_value (T "x + y") = SFail /\ parse_step C11_value (T "1 + 2") = SFail /\
  parse_step C11_value (T "x + 1 2") = SFail /\ parse_step C11_value (T "x - 1") = SFail /\
  parse_step C11_value (T "x + 1.2.3") = SUndef.
Proof. vm_compute. repeat split. Qed.

(** ** C12: numeric ranges expand to exactly the reachable values *)

(** The expansion ends with [out] iff [out] are, last first, the iterates from the
    lower bound before the first one above the upper bound. *)
Theorem C12_values : forall step lo hi out, (exists n, expand n (Some step) lo hi = Expanded out) <->
  exists v, iterates step lo (rev out) v /\ Forall (fun x => (x <= hi)%Z) out /\ (hi < v)%Z.
Proof. exact expand_spec. Qed.
Print Assumptions C12_values.

Theorem C12_terminates : forall step lo hi,
  (forall v, (lo <= v <= hi)%Z -> exists w, step v = Some w /\ (v < w)%Z) ->
  exists n out, expand n (Some step) lo hi = Expanded out.
Proof. exact expand_terminates. Qed.
Print Assumptions C12_terminates.

Theorem C12_runs_forever : forall step lo hi, (forall n, expand n (Some step) lo hi = ExpandRunning) <->
  (forall n, exists vs v, List.length vs = n /\ iterates step lo vs v /\
     Forall (fun x => (x <= hi)%Z) (vs ++ [v])).
Proof. exact expand_diverges. Qed.
Print Assumptions C12_runs_forever.

Theorem C12_fixed_point : forall step lo hi vs v,
  iterates step lo vs v -> Forall (fun x => (x <= hi)%Z) (vs ++ [v]) -> step v = Some v ->
  forall n, expand n (Some step) lo hi = ExpandRunning.
Proof. exact expand_fixed_point. Qed.
Print Assumptions C12_fixed_point.

Theorem C12_no_step_function : forall lo hi n,
  expand (S n) None lo hi = if (lo <=? hi)%Z then ExpandUndef else Expanded [].
Proof. exact expand_null. Qed.
Print Assumptions C12_no_step_function.

(** Expansion does not always terminate: doubling from zero. *)
Theorem C12_termination_refuted : exists f lo hi,
  (exists t, parse_step C11_value t = SOk f) /\
  forall n, expand n (Some (next_int C11_arith f)) lo hi = ExpandRunning.
Proof. exact (double_from_zero C11_arith C11_value eq_refl eq_refl). Qed.
Print Assumptions C12_termination_refuted.

Example C12_example :
  expand 9 (Some (next_int C11_arith (StepFunction (OName (T "x")) SMul (ONum 2%Z)))) 1 20
    = Expanded [16; 8; 4; 2; 1]%Z /\
  expand 9 (Some (next_int C11_arith (StepFunction (OName (T "x")) SAdd (ONum 3%Z)))) (-2) 7
    = Expanded [7; 4; 1; -2]%Z.
Proof. vm_compute. repeat split. Qed.
