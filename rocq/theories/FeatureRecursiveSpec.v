(** What bulk removal in recursive mode removes, in terms of links only. *)
From Coq Require Import List Arith Bool Ascii Permutation Sorted.
From Verif Require Import Text FeatureTreeModel FeatureTreeSpec FeatureTransactionModel FeatureEditSpec FeatureBulkSpec.
Import ListNotations.

(** Different nodes have different addresses. *)
Definition distinct_addresses (addr : nid -> nat) : Prop := forall i j, addr i = addr j -> i = j.

(** The children of a node are iterated in the order of their addresses. *)
Definition by_address (ord : list nid -> list nid) (addr : nid -> nat) : Prop :=
  forall l, NoDup l -> StronglySorted (fun a b => addr a < addr b) (ord l).

(** [i] is listed or below a listed feature. *)
Definition covered (h : heap) (m : fmodel) (rs : list nref) (i : nid) : Prop :=
  exists j, In j (listed m rs) /\ reaches h i j.

(** No listed feature is below another one. *)
Definition apart (h : heap) (m : fmodel) (rs : list nref) : Prop :=
  forall i j, In i (listed m rs) -> In j (listed m rs) -> reaches h i j -> i = j.

(** What is between two listed features is listed. *)
Definition gapless (h : heap) (m : fmodel) (rs : list nref) : Prop :=
  forall i j k, In i (listed m rs) -> In j (listed m rs) -> reaches h i k -> reaches h k j -> In k (listed m rs).

(** The references that do not mean a feature of the model. *)
Definition unknown (m : fmodel) (rs : list nref) : list nref :=
  filter (fun r => match resolve m r with Some _ => false | None => true end) rs.

(** Exactly what is listed or below it is gone, and only the references without a
    feature are returned. *)
Definition cleared (h : heap) (m : fmodel) (rs : list nref) (h' : heap) (m' : fmodel) (rest : list nref) : Prop :=
  Permutation rest (unknown m rs) /\
  (exists t', represents h' m' t') /\ same_rest m m' /\
  (forall i, In i (nodes m') <-> In i (nodes m) /\ ~ covered h m rs i) /\ thinned h h' m' /\
  (forall i, ~ In i (nodes m) -> h_cells h' i = h_cells h i) /\
  (forall i, In i (nodes m) -> ~ In i (nodes m') -> h_cells h' i = None).
