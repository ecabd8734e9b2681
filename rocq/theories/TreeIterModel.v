(** Programs on the iterators over the features of a model ([FeatureModel::DFSIterator],
    include/vara/Feature/FeatureModel.h:73-171), on top of the single operations in
    FeatureTreeModel.v. *)
From Coq Require Import List Bool Arith.
From Verif Require Import Text FeatureTreeModel.
Import ListNotations.
Local Open Scope list_scope.

(** What is done: [begin()] and [end()] (FeatureModel.h:163-166), an iterator that starts at a
    feature (85-89), a copy (90), [operator*] (96-102), [++I] and [I++], which both return a new
    iterator (112-143), [operator==] and [operator!=] (145-154).  Iterators are numbered in
    order of creation; assignment is deleted (91, 93). *)
Inductive place_op :=
| PBegin
| PEnd
| PFrom (f : nid)
| PCopy (i : nat)
| PGet (i : nat)
| PStep (i : nat)
| PPost (i : nat)
| PSame (i j : nat)
| PDiffer (i j : nat).

(** What is seen of an operation; [None] is the null pointer. *)
Inductive glimpse := GNothing | GFeature (f : option nid) | GTruth (b : bool).

(** Replaces the entry with number [i]. *)
Fixpoint put_nth {A} (i : nat) (x : A) (l : list A) : list A :=
  match l, i with
  | [], _ => []
  | _ :: r, 0 => x :: r
  | y :: r, S k => y :: put_nth k x r
  end.

Section Order.
Variable ord : list nid -> list nid.

(** One operation on the iterators of a model with the given root, [None] for iterators that were
    not made and for nodes that are not there. *)
Definition place_step (h : heap) (root : option nid) (o : place_op) (v : list dfs) : option (list dfs * glimpse) :=
  match o with
  | PBegin => Some (v ++ [dfs_start root], GNothing)
  | PEnd =>
      match root with
      | Some r => let* p := parent_feature h r in Some (v ++ [dfs_start p], GNothing)
      | None => Some (v ++ [dfs_start None], GNothing)
      end
  | PFrom f => Some (v ++ [dfs_start (Some f)], GNothing)
  | PCopy i => let* d := nth_error v i in Some (v ++ [d], GNothing)
  | PGet i => let* d := nth_error v i in Some (v, GFeature (hd_error (d_frontier d)))
  | PStep i =>
      let* d := nth_error v i in
      let* d' := dfs_next ord h d in
      Some (put_nth i d' v ++ [d'], GNothing)
  | PPost i =>
      let* d := nth_error v i in
      let* d' := dfs_next ord h d in
      Some (put_nth i d' v ++ [d], GNothing)
  | PSame i j =>
      let* a := nth_error v i in
      let* b := nth_error v j in
      let* e := dfs_equal h a b in
      Some (v, GTruth e)
  | PDiffer i j =>
      let* a := nth_error v i in
      let* b := nth_error v j in
      let* e := dfs_equal h a b in
      Some (v, GTruth (negb e))
  end.
(** A program: the operations in order. *)
Fixpoint place_run (h : heap) (root : option nid) (os : list place_op) (v : list dfs) : option (list glimpse) :=
  match os with
  | [] => Some []
  | o :: r => let* (v', g) := place_step h root o v in let* gs := place_run h root r v' in Some (g :: gs)
  end.
End Order.
