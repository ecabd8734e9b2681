(** Constraint objects with addresses, parent links and feature pointers.
    Models clone, setParent, getParent, getRoot and the default visitor of
    include/vara/Feature/Constraint.h and lib/Feature/Constraint.cpp. *)
From Coq Require Import List String ZArith Arith Bool.
From Verif Require Import ConstraintModel.
Import ListNotations.

(** A constraint object: operands by address (Constraint.h:113-114, 525, 593, 627),
    a feature leaf by the address of its feature. *)
Inductive cobj :=
| OBin (o : binop) (l r : nat)
| OUn (o : unop) (e : nat)
| OInt (n : Z)
| OFeat (f : nat).

(** The objects with their [Parent] pointer (Constraint.h:87), the names of the
    feature objects, and the next free addresses. *)
Record cheap := CHeap {
  h_obj : nat -> option cobj;
  h_par : nat -> option nat;
  h_feat : nat -> option string;
  h_next : nat;
  h_fnext : nat
}.

(** A new object without parent (Constraint.h:51, 87). *)
Definition alloc (h : cheap) (x : cobj) : nat * cheap :=
  let a := h_next h in
  (a, CHeap (fun b => if Nat.eqb b a then Some x else h_obj h b)
            (fun b => if Nat.eqb b a then None else h_par h b)
            (h_feat h) (S a) (h_fnext h)).

(** [setParent] (Constraint.h:60). *)
Definition set_parent (h : cheap) (a p : nat) : cheap :=
  CHeap (h_obj h) (fun b => if Nat.eqb b a then Some p else h_par h b)
        (h_feat h) (h_next h) (h_fnext h).

(** [std::make_unique<Feature>(Name)]. *)
Definition alloc_feature (h : cheap) (s : string) : nat * cheap :=
  let f := h_fnext h in
  (f, CHeap (h_obj h) (h_par h) (fun g => if Nat.eqb g f then Some s else h_feat h g)
            (h_next h) (S f)).

(** Constructors of binary and unary nodes set the parents of their operands
    (Constraint.h:96-102, 515-518). *)
Definition mk_bin (h : cheap) (o : binop) (l r : nat) : nat * cheap :=
  let (a, h1) := alloc h (OBin o l r) in (a, set_parent (set_parent h1 l a) r a).
Definition mk_un (h : cheap) (o : unop) (e : nat) : nat * cheap :=
  let (a, h1) := alloc h (OUn o e) in (a, set_parent h1 e a).

(** [clone] of every class (Constraint.h:124-127 and likewise, 533-535, 551-553,
    578-580; Constraint.cpp:24-27).  [None]: null operand, null feature or fuel
    exhausted.
    Simplification: the operands are cloned left to right; C++ leaves the order
    of argument evaluation open, which only renames addresses. *)
Fixpoint clone (fuel : nat) (h : cheap) (a : nat) : option (nat * cheap) :=
  match fuel with
  | 0 => None
  | S n =>
      match h_obj h a with
      | Some (OBin o l r) =>
          match clone n h l with
          | Some (l', h1) =>
              match clone n h1 r with
              | Some (r', h2) => Some (mk_bin h2 o l' r')
              | None => None
              end
          | None => None
          end
      | Some (OUn o e) =>
          match clone n h e with
          | Some (e', h1) => Some (mk_un h1 o e')
          | None => None
          end
      | Some (OInt z) => Some (alloc h (OInt z))
      | Some (OFeat f) =>
          match h_feat h f with
          | Some s => let (g, h1) := alloc_feature h s in Some (alloc h1 (OFeat g))
          | None => None
          end
      | None => None
      end
  end.

(** [getRoot] (Constraint.h:64-70). *)
Fixpoint get_root (fuel : nat) (h : cheap) (a : nat) : option nat :=
  match fuel with
  | 0 => None
  | S n => match h_par h a with Some p => get_root n h p | None => Some a end
  end.

(** The default visitor (Constraint.h:632-650) with overridden leaf visits [vi]
    and [vf] that may change the visitor's state; both operands are visited
    whatever the first result is. *)
Fixpoint visit {F V} (vi : Z -> V -> bool * V) (vf : F -> V -> bool * V) (c : cexpr F) (v : V) : bool * V :=
  match c with
  | CBin _ l r =>
      let (x, v1) := visit vi vf l v in
      let (y, v2) := visit vi vf r v1 in
      (x && y, v2)
  | CUn _ e => visit vi vf e v
  | CInt n => vi n v
  | CFeat f => vf f v
  end.
