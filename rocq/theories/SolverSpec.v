(** What constraints mean, which configurations of a model are valid, and what is
    expected of the satisfiability oracle; independent of the encoding. *)
From Coq Require Import List ZArith Arith Bool Ascii String.
From Verif Require Import Text ConstraintModel ConstraintSpec StepFunctionSpec ConfigurationModel FeatureTreeModel FeatureTreeSpec FeatureEditSpec FeatureBuildSpec SolverModel.
Import ListNotations.

(** ** Constraints *)
Inductive sval := Truth (b : bool) | Number (z : Z).

(** Operators on truth values and on numbers; the meaning of xor is a parameter. *)
Definition truth_op (xor : bool -> bool -> bool) (o : binop) (a b : bool) : option sval :=
  match o with
  | BOr => Some (Truth (a || b))
  | BAnd => Some (Truth (a && b))
  | BXor => Some (Truth (xor a b))
  | BEqual | BEquivalence => Some (Truth (Bool.eqb a b))
  | BNotEqual => Some (Truth (negb (Bool.eqb a b)))
  | BImplies => Some (Truth (negb a || b))
  | BExcludes => Some (Truth (negb (a && b)))
  | _ => None
  end.
(** The quotient with a non-negative remainder. *)
Definition quotient (div0 : Z -> Z) (x y : Z) : Z := if Z.eqb y 0 then div0 x else (Z.sgn y * (x / Z.abs y))%Z.
Definition number_op (div0 : Z -> Z) (o : binop) (x y : Z) : option sval :=
  match o with
  | BAdd => Some (Number (x + y)) | BSub => Some (Number (x - y)) | BMul => Some (Number (x * y))
  | BDiv => Some (Number (quotient div0 x y))
  | BEqual => Some (Truth (x =? y)) | BNotEqual => Some (Truth (negb (x =? y)))
  | BLess => Some (Truth (x <? y)) | BGreater => Some (Truth (y <? x))
  | BLessEqual => Some (Truth (x <=? y)) | BGreaterEqual => Some (Truth (y <=? x))
  | _ => None
  end%Z.

(** The value of a constraint; [None] if it is ill-typed. *)
Fixpoint meaning (xor : bool -> bool -> bool) (leaf : cref -> option sval) (div0 : Z -> Z) (c : cexpr cref) : option sval :=
  match c with
  | CInt n => Some (Number n)
  | CFeat r => leaf r
  | CUn UNot e => match meaning xor leaf div0 e with Some (Truth b) => Some (Truth (negb b)) | _ => None end
  | CUn UNeg e => match meaning xor leaf div0 e with Some (Number z) => Some (Number (- z)) | _ => None end
  | CBin o l r =>
      match meaning xor leaf div0 l, meaning xor leaf div0 r with
      | Some (Truth a), Some (Truth b) => truth_op xor o a b
      | Some (Number x), Some (Number y) => number_op div0 o x y
      | _, _ => None
      end
  end.
Definition not_both (a b : bool) : bool := negb (a && b).

(** A mention is of a numeric feature, or of any other feature, called [n]. *)
Definition numeric_kind (k : fkind) : bool := match k with FNumeric _ _ => true | _ => false end.
Definition mentions (h : heap) (r : cref) (numeric : bool) (n : text) : Prop :=
  match r with
  | Own s => numeric = false /\ n = s
  | Ref i => exists f, feature_at h i = Some f /\ numeric = numeric_kind (f_kind f) /\ n = f_name f
  end.
(** The value of a mention: in mixed constraints a selected feature counts as 1. *)
Definition leaf_value (h : heap) (mixed : bool) (a : assignment) (r : cref) : option sval :=
  let named (numeric : bool) n :=
    if numeric then Number (a_int a n) else if mixed then Number (b2z (a_bool a n)) else Truth (a_bool a n) in
  match r with
  | Own s => Some (named false s)
  | Ref i => match feature_at h i with Some f => Some (named (numeric_kind (f_kind f)) (f_name f)) | None => None end
  end.
Definition value_of (h : heap) (mixed : bool) (a : assignment) (c : cexpr cref) : option sval :=
  meaning xorb (leaf_value h mixed a) (a_div0 a) c.
(** The constraint has a truth value. *)
Definition well_typed (h : heap) (mixed : bool) (c : cexpr cref) : Prop :=
  forall a, exists b, value_of h mixed a c = Some (Truth b).

Fixpoint xor_free {F} (c : cexpr F) : Prop :=
  match c with
  | CBin o l r => o <> BXor /\ xor_free l /\ xor_free r
  | CUn _ e => xor_free e
  | _ => True
  end.

(** A mixed constraint: its expression, negated if so declared, is true; or all of its
    boolean features are required and one of them is not selected. *)
Definition mixed_holds (h : heap) (a : assignment) (c : cexpr cref) (k : cexprkind) (r : creq) : Prop :=
  value_of h true a c = Some (Truth (match k with ExprPos => true | ExprNeg => false end)) \/
  (r = ReqAll /\ exists x n, In x (leaves c) /\ mentions h x false n /\ a_bool a n = false).

(** ** Valid configurations *)
Definition selected (a : assignment) (n : text) : Prop := a_bool a n = true.

(** The values a numeric feature may have. *)
Definition allowed_value (v : values) (step : option (Z -> option Z)) (z : Z) : Prop :=
  match v with
  | VList vs => In z vs
  | VRange lo hi => exists g vs, step = Some g /\ iterates g lo vs z /\ Forall (fun x => (x <= hi)%Z) (vs ++ [z])
  end.
(** Stepping through a range leaves it. *)
Definition leaves_range (v : values) (step : option (Z -> option Z)) : Prop :=
  match v with
  | VList _ => True
  | VRange lo hi => (hi < lo)%Z \/ exists g vs z, step = Some g /\ iterates g lo vs z /\ Forall (fun x => (x <= hi)%Z) vs /\ (hi < z)%Z
  end.

Definition stored (h : heap) (m : fmodel) (i : nid) (f : feature) : Prop :=
  In i (map snd (m_features m)) /\ feature_at h i = Some f.
(** The group [q] of kind [k] has the parent called [n] and members called [ns]. *)
Definition group (h : heap) (m : fmodel) (k : rkind) (n : text) (ns : list text) : Prop :=
  exists q p e, In q (m_relationships m) /\ h_cells h q = Some (Cell (NRelationship k) (Some p) e) /\ name_at h p = Some n /\
    Forall2 (fun i s => name_at h i = Some s) e ns.

Record valid (h : heap) (m : fmodel) (a : assignment) : Prop := Valid {
  v_root : forall i f, stored h m i f -> f_kind f = FRoot -> selected a (f_name f);
  v_parent : forall i f p g r, stored h m i f -> f_kind f = FBinary -> hangs h i p r -> feature_at h p = Some g ->
    selected a (f_name f) -> selected a (f_name g);
  v_mandatory : forall i f p g, stored h m i f -> f_kind f = FBinary -> f_optional f = false -> hangs h i p None ->
    feature_at h p = Some g -> selected a (f_name g) -> selected a (f_name f);
  v_alternative : forall n ns, group h m RAlternative n ns -> selected a n ->
    exists s, In s ns /\ selected a s /\ forall s', In s' ns -> selected a s' -> s' = s;
  v_or : forall n ns, group h m ROr n ns -> selected a n -> exists s, In s ns /\ selected a s;
  v_values : forall i f v step, stored h m i f -> f_kind f = FNumeric v step -> allowed_value v step (a_int a (f_name f));
  v_constraints : forall c, In c (m_boolean m ++ m_nonboolean m) -> value_of h false a (c_expr c) = Some (Truth true);
  v_mixed : forall x, In x (m_mixed m) -> mixed_holds h a (c_expr (x_con x)) (x_kind x) (x_req x)
}.

(** The options are the features of the model, each once and with its sort. *)
Definition features_registered (h : heap) (m : fmodel) (vs : list (text * sort)) : Prop :=
  NoDup (map fst vs) /\
  forall n so, In (n, so) vs <-> exists i f, stored h m i f /\ n = f_name f /\ so = if numeric_kind (f_kind f) then SInt else SBool.

(** Models the solver supports: no unknown features, no binary feature below a numeric
    one, no empty alternative, finite ranges and well-typed constraints. *)
Record supported (h : heap) (m : fmodel) : Prop := Supported {
  su_kinds : forall i f, stored h m i f -> f_kind f <> FUnknown;
  su_parents : forall i f p g r, stored h m i f -> f_kind f = FBinary -> hangs h i p r -> feature_at h p = Some g ->
    numeric_kind (f_kind g) = false;
  su_alternatives : forall n ns, group h m RAlternative n ns -> ns <> [];
  su_ranges : forall i f v step, stored h m i f -> f_kind f = FNumeric v step -> leaves_range v step;
  su_constraints : forall c, In c (m_boolean m ++ m_nonboolean m) -> well_typed h false (c_expr c);
  su_mixed : forall x, In x (m_mixed m) -> well_typed h true (c_expr (x_con x))
}.
Definition no_xor (m : fmodel) : Prop :=
  forall e, In e (map c_expr (m_boolean m ++ m_nonboolean m ++ map x_con (m_mixed m))) -> xor_free e.

(** ** Enumeration *)
Definition satisfies (a : assignment) (ts : list bterm) : Prop := forall t, In t ts -> beval a t = true.

(** Two assignments give the same value to every option. *)
Definition same_values (vs : list (text * sort)) (a b : assignment) : Prop :=
  forall n t, In (n, t) vs -> match t with SBool => a_bool a n = a_bool b n | SInt => a_int a n = a_int b n end.

(** The configuration shows exactly the values of the options. *)
Definition shown (a : assignment) (n : text) (t : sort) (s : text) : Prop :=
  match t with
  | SBool => s = if a_bool a n then T "true" else T "false"
  | SInt => (0 <= a_int a n)%Z /\ s = print_Z (a_int a n) \/
            (a_int a n < 0)%Z /\ s = T "(- " ++ print_Z (- a_int a n) ++ T ")"
  end.
Definition shows (vs : list (text * sort)) (c : config) (a : assignment) : Prop :=
  (forall n t, In (n, t) vs -> exists s, option_value c n = Some s /\ shown a n t s) /\
  (forall n s, option_value c n = Some s -> exists t, In (n, t) vs).

(** The oracle decides the formulas [ts] together with any further ones that exclude
    values of options. *)
Definition excludes (vs : list (text * sort)) (a : assignment) (t : bterm) : Prop :=
  forall b, beval b t = true <-> ~ same_values vs a b.
Definition decides (check : list bterm -> option assignment) (vs : list (text * sort)) (ts : list bterm) : Prop :=
  forall us, (forall u, In u us -> exists a, excludes vs a u) ->
    match check (ts ++ us) with
    | Some a => satisfies a (ts ++ us)
    | None => forall a, ~ satisfies a (ts ++ us)
    end.

(** States reached from a new solver by any calls, failing ones included. *)
Inductive reached : solver -> Prop :=
| reached_new : reached new_solver
| reached_call s fuel c s' e : reached s -> solver_call fuel c s = Some (s', e) -> reached s'.

(** The list shows every solution of [ts] once: each entry shows a solution, each
    solution is shown by an entry, and different entries differ in an option. *)
Definition lists_solutions (vs : list (text * sort)) (ts : list bterm) (l : list config) : Prop :=
  (forall c, In c l -> exists a, satisfies a ts /\ shows vs c a) /\
  (forall i j c d, nth_error l i = Some c -> nth_error l j = Some d -> i <> j -> exists n, option_value c n <> option_value d n).
Definition lists_all_solutions (vs : list (text * sort)) (ts : list bterm) (l : list config) : Prop :=
  lists_solutions vs ts l /\ forall a, satisfies a ts -> exists c, In c l /\ shows vs c a.
