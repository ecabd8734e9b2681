(** Merging any number of models. *)
From Coq Require Import List Arith Bool Ascii String.
From Verif Require Import Text FeatureTreeModel FeatureTransactionModel.
Import ListNotations.

(** A program that merges models one after the other into the first one by calling
    [mergeFeatureModels] in strict mode (include/vara/Feature/FeatureModelTransaction.h:1197-1198,
    lib/Feature/FeatureModelTransaction.cpp:162-170) and stops at the first null.  The models merged
    on the way stay in memory; the code may destroy them, since a merged model shares no node with
    the ones it is made of. *)
Fixpoint merge_all (ord : list nid -> list nid) (map_order : list (text * nid) -> list (text * nid)) (h : heap) (m : fmodel) (ms : list fmodel) : option (heap * option fmodel) :=
  match ms with
  | [] => Some (h, Some m)
  | n :: r =>
      let* (h1, o) := merge_models ord map_order h m n true in
      match o with
      | None => Some (h1, None)
      | Some m1 => merge_all ord map_order h1 m1 r
      end
  end.
