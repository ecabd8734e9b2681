(** What bulk removal removes, in terms of links only. *)
From Coq Require Import List Arith Bool Ascii Permutation.
From Verif Require Import Text FeatureTreeModel FeatureTreeSpec FeatureTransactionModel FeatureEditSpec.
Import ListNotations.

(** The features a list of references means. *)
Definition listed (m : fmodel) (rs : list nref) : list nid :=
  flat_map (fun r => match resolve m r with Some i => [i] | None => [] end) rs.

(** [i] and all nodes below it are listed. *)
Definition all_listed (h : heap) (m : fmodel) (rs : list nref) (i : nid) : Prop :=
  forall j, In j (nodes m) -> reaches h j i -> In j (listed m rs).

(** The reference means a feature of that kind. *)
Definition vanishes (h : heap) (m : fmodel) (rs : list nref) (r : nref) : Prop :=
  exists i, resolve m r = Some i /\ all_listed h m rs i.

(** The nodes that are left have the same contents and parents, and the same children in
    the same order except those that are gone. *)
Definition thinned (h h' : heap) (m' : fmodel) : Prop :=
  forall i, In i (nodes m') -> exists c es, h_cells h i = Some c /\ h_cells h' i = Some (Cell (n_data c) (n_parent c) es) /\
    es = filter (fun j => mem j (nodes m')) (n_edges c).

Definition any_partition (part_order : list nref -> list nref) : Prop := forall l, Permutation (part_order l) l.
