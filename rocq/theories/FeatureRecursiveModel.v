(** Bulk removal in recursive mode. *)
From Coq Require Import List ZArith Arith Bool Ascii.
From Verif Require Import Text FeatureTreeModel FeatureTransactionModel.
Import ListNotations.

Section Recursive.
(** The order in which a SmallSet of nodes is iterated, the order [std::partition]
    leaves, and the addresses of nodes. *)
Variable ord : list nid -> list nid.
Variable part_order : list nref -> list nref.
Variable addr : nid -> nat.

(** Inserting into a [std::set] of pointers, which is ordered by address. *)
Fixpoint address_insert (i : nid) (l : list nid) : list nid :=
  match l with
  | [] => [i]
  | j :: r =>
      if Nat.ltb (addr i) (addr j) then i :: l
      else if Nat.ltb (addr j) (addr i) then j :: address_insert i r
      else l
  end.

(** [OtherFeatures] without the null pointer (FeatureModelTransaction.cpp:98-104). *)
Definition other_features (m : fmodel) (rs : list nref) : list nid :=
  fold_left (fun s r => match resolve m r with Some i => address_insert i s | None => s end) rs [].

(** [std::set_intersection], which takes for granted that both ranges are sorted. *)
Fixpoint intersection (xs : list nid) : list nid -> list nid :=
  fix skip ys :=
    match xs, ys with
    | x :: xs', y :: ys' =>
        if Nat.ltb (addr x) (addr y) then intersection xs' ys
        else if Nat.ltb (addr y) (addr x) then skip ys'
        else x :: intersection xs' ys'
    | _, _ => []
    end.

(** [canBeDeletedRecursively] (FeatureModelTransaction.cpp:69-86) with
    [value_or(false)].  [getChildren()] stops at the children of the node itself,
    relationships included, since every node is a [FeatureTreeNode]. *)
Definition can_be_deleted (w : world) (others : list nid) (r : nref) : option bool :=
  match resolve (snd w) r with
  | None => Some false
  | Some i =>
      let* cs := get_children ord any_node (fst w) None i in
      Some (match intersection cs others with [] => true | _ => false end)
  end.

(** The predicate of [std::partition] (FeatureModelTransaction.cpp:112-121). *)
Definition deletable (recursive : bool) (w : world) (others : list nid) (r : nref) : option bool :=
  let* b := ref_is_leaf w r in
  if (b : bool) then Some true
  else if recursive then can_be_deleted w others r else Some false.

(** [removeFeatures] (FeatureModelTransaction.cpp:88-139): the world afterwards and the
    features that were not deleted. *)
Fixpoint remove_listed (recursive : bool) (fuel : nat) (w : world) (rs : list nref) : option (world * list nref) :=
  match fuel with
  | 0 => None
  | S k =>
      match rs with
      | [] => Some (w, [])
      | _ =>
          let* (yes, no) := filter_option (deletable recursive w (other_features (snd w) rs)) rs in
          match yes with
          | [] => Some (w, part_order no)
          | _ =>
              let* t := open_modify w in
              let* (_, w1, _) := commit_modify ord (Mtx (t_open t) (map (fun r => ORemoveFeature r recursive) (part_order yes))) w in
              remove_listed recursive k w1 (part_order no)
          end
      end
  end.

End Recursive.
