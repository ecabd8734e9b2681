(** What it means for an address to hold a constraint. *)
From Coq Require Import List Ascii String ZArith Arith Bool.
From Verif Require Import Text ConstraintModel ConstraintHeapModel.
Import ListNotations.

(** [holds h a p c ns fs]: in [h] the constraint [c] (leaves by name) starts at
    [a], whose parent is [p]; every node's parent link is the node above it;
    [ns] are the addresses of its nodes, [fs] those of its features. *)
Inductive holds (h : cheap) : nat -> option nat -> cexpr string -> list nat -> list nat -> Prop :=
| ho_bin a p o l r cl cr nl nr fl fr :
    h_obj h a = Some (OBin o l r) -> h_par h a = p ->
    holds h l (Some a) cl nl fl -> holds h r (Some a) cr nr fr ->
    holds h a p (CBin o cl cr) (a :: nl ++ nr) (fl ++ fr)
| ho_un a p o e c ns fs :
    h_obj h a = Some (OUn o e) -> h_par h a = p -> holds h e (Some a) c ns fs ->
    holds h a p (CUn o c) (a :: ns) fs
| ho_int a p n : h_obj h a = Some (OInt n) -> h_par h a = p -> holds h a p (CInt n) [a] []
| ho_feat a p f s : h_obj h a = Some (OFeat f) -> h_par h a = p -> h_feat h f = Some s ->
    holds h a p (CFeat s) [a] [f].

Fixpoint size {F} (c : cexpr F) : nat :=
  match c with
  | CBin _ l r => S (size l + size r)
  | CUn _ e => S (size e)
  | _ => 1
  end.

(** Addresses of a constraint are in use. *)
Definition in_use (h : cheap) (ns fs : list nat) : Prop :=
  Forall (fun a => a < h_next h) ns /\ Forall (fun f => f < h_fnext h) fs.

(** [h'] extends [h]: everything in use before is unchanged. *)
Definition extends (h h' : cheap) : Prop :=
  h_next h <= h_next h' /\ h_fnext h <= h_fnext h' /\
  (forall a, a < h_next h -> h_obj h' a = h_obj h a /\ h_par h' a = h_par h a) /\
  (forall f, f < h_fnext h -> h_feat h' f = h_feat h f).

(** The leaves of a constraint, integers and features, left to right. *)
Fixpoint all_leaves {F} (c : cexpr F) : list (Z + F) :=
  match c with
  | CBin _ l r => all_leaves l ++ all_leaves r
  | CUn _ e => all_leaves e
  | CInt n => [inl n]
  | CFeat f => [inr f]
  end.

(** Visiting a list of leaves one after the other. *)
Fixpoint visit_list {F V} (vi : Z -> V -> bool * V) (vf : F -> V -> bool * V) (l : list (Z + F)) (v : V)
  : list bool * V :=
  match l with
  | [] => ([], v)
  | x :: r =>
      let (b, v1) := match x with inl n => vi n v | inr f => vf f v end in
      let (bs, v2) := visit_list vi vf r v1 in (b :: bs, v2)
  end.

(** HTML text: no raw [<], [>]; [&] only as part of an entity. *)
Definition markup (c : ascii) : Prop := c = "<"%char \/ c = ">"%char \/ c = "&"%char.
Definition entities : list text := [T "&amp;"; T "&lt;"; T "&gt;"].
Inductive well_escaped : text -> Prop :=
| we_nil : well_escaped []
| we_plain c t : ~ markup c -> well_escaped t -> well_escaped (c :: t)
| we_entity e t : In e entities -> well_escaped t -> well_escaped (e ++ t).

(** Escaping character by character. *)
Definition escape_char (c : ascii) : text :=
  if Ascii.eqb c "<" then T "&lt;" else if Ascii.eqb c ">" then T "&gt;"
  else if Ascii.eqb c "&" then T "&amp;" else [c].
Definition escape (t : text) : text := flat_map escape_char t.

(** Operators written with a markup character. *)
Definition markup_op (o : binop) : Prop := exists c, In c (binop_text o) /\ markup c.

(** Some node of the constraint has such an operator. *)
Fixpoint has_markup_op {F} (c : cexpr F) : Prop :=
  match c with
  | CBin o l r => markup_op o \/ has_markup_op l \/ has_markup_op r
  | CUn _ e => has_markup_op e
  | _ => False
  end.

(** A node below an infix node has such an operator; prefix operators do not
    override the rendering, so everything below one counts as well. *)
Definition nested_markup_op {F} (c : cexpr F) : Prop :=
  match c with
  | CBin _ l r => has_markup_op l \/ has_markup_op r
  | CUn _ e => has_markup_op e
  | _ => False
  end.
