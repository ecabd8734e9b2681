(** The values a numeric option of a document may have. *)
From Coq Require Import List ZArith NArith Arith Bool Ascii String.
From Verif Require Import Text LlvmInt NumSpec ConstraintModel ConstraintSpec StepFunctionModel StepFunctionSpec DoubleSpec FeatureTreeModel FeatureTreeSpec FeatureTransactionModel FeatureEditSpec FeatureBuildSpec XmlModel XmlTextSpec XmlSpec SolverModel SolverSpec DescribedSpec.
Import ListNotations.
Local Open Scope string_scope.
Local Open Scope list_scope.
Local Open Scope Z_scope.

(** The integer a text stands for: digits, maybe behind a minus, and the nearest integer of 64
    bits if they are too many; or digits with an exponent that amount to an integer. *)
Inductive numbered : text -> Z -> Prop :=
| nu_plain d : decimal d -> numbered d (Z.min int64_max (Z.of_N (dec_value 0 d)))
| nu_minus d : decimal d -> numbered ("-"%char :: d) (Z.max int64_min (- Z.of_N (dec_value 0 d)))
| nu_exponent t n q z : scientific t n q -> lower t = t -> Z.abs q < 24000 -> amounts n q z -> within z -> numbered t z.

(** The text adds, or multiplies by, the positive integer [z]. *)
Definition steps_by (o : soperator) (t : text) (z : Z) : Prop :=
  exists x y, written t x o y /\ within z /\ (name_text x /\ integral y z \/ integral x z /\ name_text y).

(** The option takes the listed values; or [lo], [lo + z], ... up to [hi]; or [lo], [lo * z], ...
    up to [hi]. *)
Definition bounds (o : xml) (lo hi : Z) (t : text) : Prop :=
  exists a b c, filled "values" (elems o) = [] /\ filled "minValue" (elems o) = [a] /\ filled "maxValue" (elems o) = [b] /\ filled "stepFunction" (elems o) = [c] /\
    numbered (trimmed a) lo /\ numbered (trimmed b) hi /\ trimmed c = t.
Inductive takes (o : xml) : (Z -> Prop) -> Prop :=
| takes_listed c l zs : filled "values" (elems o) = [c] -> runs (trimmed c) l -> Forall2 numbered l zs -> zs <> [] -> takes o (fun v => In v zs)
| takes_sums lo hi t z : bounds o lo hi t -> steps_by SAdd t z -> 0 < z -> within lo -> within (hi + z) ->
    takes o (fun v => exists j, 0 <= j /\ v = lo + j * z /\ v <= hi)
| takes_products lo hi t z : bounds o lo hi t -> steps_by SMul t z -> 1 < z -> 0 < lo -> within lo -> within (hi * z) ->
    takes o (fun v => exists j, 0 <= j /\ v = lo * z ^ j /\ v <= hi).

(** A numeric option of the document that is not taken for the root. *)
Definition numeric_option (e o : xml) : Prop :=
  exists c, In c (elems e) /\ is_tag "numericOptions" c = true /\ In o (elems c) /\ option_name o <> T "root" /\ option_name o <> T "base".

(** The assignment with another number for [s]. *)
Definition with_number (s : text) (v : Z) (a : assignment) : assignment :=
  Assignment (a_bool a) (fun t => if text_eqb t s then v else a_int a t) (a_div0 a).
(** No constraint of the calls mentions [s]. *)
Definition unmentioned (cs : list bcall) (s : text) : Prop := forall k e, In (BConstraint k e) cs -> ~ In (Own s) (leaves e).

(** What enumerating needs of a description, apart from ranges: no binary option below a
    numeric one, and constraints with a truth value and without xor. *)
Record plain (cs : list bcall) (d : decl) : Prop := Plain {
  pl_parents : forall f, In f (snd d) -> f_kind f = FBinary -> ~ numeric_name d (parent_of cs d (f_name f));
  pl_constraints : forall k e a, In (k, e) (constraints_of cs) -> k = KBoolean \/ k = KNonBoolean -> exists b, has_value d false a e (Truth b);
  pl_mixed : forall r k e a, In (KMixed r k, e) (constraints_of cs) -> exists b, has_value d true a e (Truth b);
  pl_no_xor : forall k e, In (k, e) (constraints_of cs) -> xor_free e
}.
