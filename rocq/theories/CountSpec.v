(** How many configurations a feature tree has, by its shape. *)
From Coq Require Import List ZArith Arith Bool Ascii.
From Verif Require Import Text FeatureTreeModel FeatureTreeSpec FeatureTransactionModel FeatureEditSpec SolverModel SolverSpec.
Import ListNotations.

Definition product (l : list nat) : nat := fold_right Nat.mul 1 l.
(** One of some members is chosen and the others are not: for each member the number of ways
    with it and without it. *)
Fixpoint one_chosen (l : list (nat * nat)) : nat :=
  match l with [] => 0 | (y, n) :: r => y * product (map snd r) + n * one_chosen r end.

Section Values.
(** The number of values of a numeric feature. *)
Variable amount : feature -> nat.

(** The ways to choose values in a part of a tree that is not selected: numeric features have
    values all the same. *)
Fixpoint idle (u : tree) : nat :=
  match u with
  | Node _ d ts => match d with NFeature f => if numeric_kind (f_kind f) then amount f else 1 | NRelationship _ => 1 end * product (map idle ts)
  end.
(** The ways to choose from a part of a tree whose feature is selected; for a group, the ways
    to choose among its members. *)
Fixpoint ways (u : tree) : nat :=
  match u with
  | Node _ (NFeature _) ts =>
      product (map (fun k =>
        match rdata k with
        | NFeature g => if numeric_kind (f_kind g) then idle k else if f_optional g then ways k + idle k else ways k
        | NRelationship _ => ways k
        end) ts)
  | Node _ (NRelationship RAlternative) ts => one_chosen (map (fun k => (ways k, idle k)) ts)
  | Node _ (NRelationship ROr) ts => product (map (fun k => ways k + idle k) ts) - product (map idle ts)
  end.
End Values.

(** The number of values that are allowed. *)
Definition amounts (amount : feature -> nat) (t : tree) : Prop :=
  forall u f v step, subtree u t -> rdata u = NFeature f -> f_kind f = FNumeric v step ->
  exists zs, NoDup zs /\ List.length zs = amount f /\ forall z, In z zs <-> allowed_value v step z.
(** Groups have binary features as members, and are not below numeric features. *)
Definition plain_groups (t : tree) : Prop :=
  forall u q k, subtree u t -> In q (kids u) -> rdata q = NRelationship k ->
  (forall f, rdata u = NFeature f -> numeric_kind (f_kind f) = false) /\
  forall v, In v (kids q) -> exists g, rdata v = NFeature g /\ f_kind g = FBinary.

(** What a feature without anything below it, added at the root, multiplies the number by. *)
Definition factor (amount : feature -> nat) (f : feature) : nat :=
  if numeric_kind (f_kind f) then amount f else if f_optional f then 2 else 1.
(** A binary feature, or a numeric feature whose values are known. *)
Definition countable (amount : feature -> nat) (f : feature) : Prop :=
  f_kind f = FBinary \/
  exists v step, f_kind f = FNumeric v step /\ leaves_range v step /\
    exists zs, NoDup zs /\ List.length zs = amount f /\ forall z, In z zs <-> allowed_value v step z.
