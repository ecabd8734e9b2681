(** The rules of valid configurations for single nodes of a tree. *)
From Coq Require Import List ZArith Arith Bool Ascii String.
From Verif Require Import Text ConstraintModel ConstraintSpec ConfigurationModel FeatureTreeModel FeatureTreeSpec FeatureTransactionModel FeatureEditSpec SolverModel SolverSpec XmlModel.
Import ListNotations.

(** [f] may be selected only with the feature [g] above it, *)
Definition needs (a : assignment) (g f : feature) : Prop := f_kind f = FBinary -> selected a (f_name f) -> selected a (f_name g).
(** and has to be if it is mandatory. *)
Definition follows (a : assignment) (g f : feature) : Prop := f_kind f = FBinary -> f_optional f = false -> selected a (f_name g) -> selected a (f_name f).
(** Numeric features have one of their values. *)
Definition has_value (a : assignment) (f : feature) : Prop := forall v step, f_kind f = FNumeric v step -> allowed_value v step (a_int a (f_name f)).
(** Of the members [ns] of a group below [g] exactly one is selected, or at least one. *)
Definition chosen (a : assignment) (k : rkind) (g : feature) (ns : list text) : Prop :=
  selected a (f_name g) ->
  match k with
  | RAlternative => exists s, In s ns /\ selected a s /\ forall s', In s' ns -> selected a s' -> s' = s
  | ROr => exists s, In s ns /\ selected a s
  end.
(** The names of the features among some nodes. *)
Definition names_of (us : list tree) : list text := flat_map (fun u => match rdata u with NFeature f => [f_name f] | NRelationship _ => [] end) us.

(** The rules at a node. *)
Definition rules_at (a : assignment) (u : tree) : Prop :=
  match rdata u with
  | NRelationship _ => True
  | NFeature f =>
      (f_kind f = FRoot -> selected a (f_name f)) /\ has_value a f /\
      forall k, In k (kids u) ->
        match rdata k with
        | NFeature g => needs a f g /\ follows a f g
        | NRelationship r => (forall v g, In v (kids k) -> rdata v = NFeature g -> needs a f g) /\ chosen a r f (names_of (kids k))
        end
  end.
Definition rules (a : assignment) (t : tree) : Prop := forall u, subtree u t -> rules_at a u.
(** The constraints of a model hold. *)
Definition constraints_hold (h : heap) (m : fmodel) (a : assignment) : Prop :=
  (forall c, In c (m_boolean m ++ m_nonboolean m) -> value_of h false a (c_expr c) = Some (Truth true)) /\
  (forall x, In x (m_mixed m) -> mixed_holds h a (c_expr (x_con x)) (x_kind x) (x_req x)).

(** What a constraint over names says in a model. *)
Definition said (h : heap) (m : fmodel) (mixed : bool) (a : assignment) (r : cref) : option sval :=
  match r with
  | Own s => match get_feature m s with Some i => leaf_value h mixed a (Ref i) | None => None end
  | Ref _ => None
  end.
Definition says (h : heap) (m : fmodel) (a : assignment) (k : ckind) (c : cexpr cref) : Prop :=
  match k with
  | KBoolean | KNonBoolean => meaning xorb (said h m false a) (a_div0 a) c = Some (Truth true)
  | KMixed r k =>
      meaning xorb (said h m true a) (a_div0 a) c = Some (Truth (match k with ExprPos => true | ExprNeg => false end)) \/
      (r = ReqAll /\ exists s i f, In (Own s) (leaves c) /\ get_feature m s = Some i /\ feature_at h i = Some f /\ numeric_kind (f_kind f) = false /\ a_bool a s = false)
  end.
(** All mentions are names of features. *)
Definition mentions_names (m : fmodel) (c : cexpr cref) : Prop := forall r, In r (leaves c) -> exists s i, r = Own s /\ get_feature m s = Some i.
(** No constraint mentions a node among [is]. *)
Definition unmentioned (m : fmodel) (is : list nid) : Prop :=
  forall c i, In c (all_constraints m) -> In (Ref i) (leaves (c_expr c)) -> ~ In i is.
(** The assignment with the truth value [b] for [n]. *)
Definition with_bool (a : assignment) (n : text) (b : bool) : assignment := Assignment (fun s => if text_eqb s n then b else a_bool a s) (a_int a) (a_div0 a).
