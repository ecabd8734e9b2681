(** The valid configurations of a description: what the names, edges, groups and constraints
    handed to a model builder mean, without reference to the model that is built. *)
From Coq Require Import List ZArith Arith Bool Ascii String.
From Verif Require Import Text ConstraintModel ConstraintSpec FeatureTreeModel FeatureTreeSpec FeatureTransactionModel FeatureTransactionSpec FeatureEditSpec
  FeatureBuildSpec SxfmModel XmlModel XmlSpec ConfigurationModel SolverModel SolverSpec.
Import ListNotations.

(** The parent of the feature called [s]. *)
Definition parent_of (cs : list bcall) (d : decl) (s : text) : text := last_edge cs s (fst d).
(** The name is declared numeric. *)
Definition numeric_name (d : decl) (s : text) : Prop := exists f, In f (snd d) /\ f_name f = s /\ numeric_kind (f_kind f) = true.

(** The value of a name in a constraint, and of the constraint. *)
Inductive name_value (d : decl) (mixed : bool) (a : assignment) (s : text) : sval -> Prop :=
| nv_number : numeric_name d s -> name_value d mixed a s (Number (a_int a s))
| nv_counted : ~ numeric_name d s -> mixed = true -> name_value d mixed a s (Number (b2z (a_bool a s)))
| nv_truth : ~ numeric_name d s -> mixed = false -> name_value d mixed a s (Truth (a_bool a s)).
Inductive has_value (d : decl) (mixed : bool) (a : assignment) : cexpr cref -> sval -> Prop :=
| hv_int n : has_value d mixed a (CInt n) (Number n)
| hv_name s v : name_value d mixed a s v -> has_value d mixed a (CFeat (Own s)) v
| hv_not e b : has_value d mixed a e (Truth b) -> has_value d mixed a (CUn UNot e) (Truth (negb b))
| hv_neg e z : has_value d mixed a e (Number z) -> has_value d mixed a (CUn UNeg e) (Number (- z))
| hv_truths o l r x y v : has_value d mixed a l (Truth x) -> has_value d mixed a r (Truth y) -> truth_op xorb o x y = Some v -> has_value d mixed a (CBin o l r) v
| hv_numbers o l r x y v : has_value d mixed a l (Number x) -> has_value d mixed a r (Number y) -> number_op (a_div0 a) o x y = Some v -> has_value d mixed a (CBin o l r) v.

(** The children of [s] form a group of kind [k]: as requested by the calls, or as found in
    a document. *)
Definition requested (cs : list bcall) (s : text) (k : rkind) : Prop := In (s, k) (requests cs).
Definition found (cs : list bcall) (d : decl) (s : text) (k : rkind) : Prop := k = RAlternative /\ alternatives cs d s.

(** The assignment is a configuration of the description. *)
Record configures (cs : list bcall) (d : decl) (grouped : text -> rkind -> Prop) (a : assignment) : Prop := Configures {
  co_root : selected a (fst d);
  co_parent : forall f, In f (snd d) -> f_kind f = FBinary -> selected a (f_name f) -> selected a (parent_of cs d (f_name f));
  co_mandatory : forall f, In f (snd d) -> f_kind f = FBinary -> f_optional f = false -> (forall k, ~ grouped (parent_of cs d (f_name f)) k) ->
    selected a (parent_of cs d (f_name f)) -> selected a (f_name f);
  co_alternative : forall s, grouped s RAlternative -> selected a s ->
    exists f, below cs d s f /\ selected a (f_name f) /\ forall g, below cs d s g -> selected a (f_name g) -> f_name g = f_name f;
  co_or : forall s, grouped s ROr -> selected a s -> exists f, below cs d s f /\ selected a (f_name f);
  co_values : forall f v step, In f (snd d) -> f_kind f = FNumeric v step -> allowed_value v step (a_int a (f_name f));
  co_constraints : forall k e, In (k, e) (constraints_of cs) -> k = KBoolean \/ k = KNonBoolean -> has_value d false a e (Truth true);
  co_mixed : forall r k e, In (KMixed r k, e) (constraints_of cs) ->
    has_value d true a e (Truth (match k with ExprPos => true | ExprNeg => false end)) \/
    (r = ReqAll /\ exists s, In (Own s) (leaves e) /\ ~ numeric_name d s /\ a_bool a s = false)
}.

(** What is needed for the solver: see [supported]. *)
Record settled (cs : list bcall) (d : decl) (grouped : text -> rkind -> Prop) : Prop := Settled {
  se_kinds : forall f, In f (snd d) -> f_kind f <> FUnknown;
  se_parents : forall f, In f (snd d) -> f_kind f = FBinary -> ~ numeric_name d (parent_of cs d (f_name f));
  se_alternatives : forall s, grouped s RAlternative -> exists f, below cs d s f;
  se_ranges : forall f v step, In f (snd d) -> f_kind f = FNumeric v step -> leaves_range v step;
  se_constraints : forall k e a, In (k, e) (constraints_of cs) -> k = KBoolean \/ k = KNonBoolean -> exists b, has_value d false a e (Truth b);
  se_mixed : forall r k e a, In (KMixed r k, e) (constraints_of cs) -> exists b, has_value d true a e (Truth b);
  se_no_xor : forall k e, In (k, e) (constraints_of cs) -> xor_free e
}.

(** A configuration displays an assignment: it has exactly the declared names as options,
    with the assigned values. *)
Definition displays (d : decl) (c : config) (a : assignment) : Prop :=
  forall n s, option_value c n = Some s <->
    taken d n /\ ((numeric_name d n /\ shown a n SInt s) \/ (~ numeric_name d n /\ shown a n SBool s)).
(** The list displays all of the assignments, and each configuration once. *)
Record lists_exactly (d : decl) (P : assignment -> Prop) (l : list config) : Prop := ListsExactly {
  le_sound : forall c, In c l -> exists a, P a /\ displays d c a;
  le_complete : forall a, P a -> exists c, In c l /\ displays d c a;
  le_once : forall i j c e, nth_error l i = Some c -> nth_error l j = Some e -> i <> j -> exists n, option_value c n <> option_value e n
}.
(** The answer of an enumeration: the solver reports that there is none, or all are listed. *)
Definition answers (d : decl) (P : assignment -> Prop) (r : option (outcome (list config))) : Prop :=
  (r = Some (inr Unsat) /\ forall a, ~ P a) \/ exists l, r = Some (inl l) /\ l <> [] /\ lists_exactly d P l.
