(** What programs with transactions mean if a transaction is an object that has one owner. *)
From Coq Require Import List Arith Bool Ascii Permutation.
From Verif Require Import Text ConstraintModel SourceRangeModel FeatureTreeModel FeatureTreeSpec FeatureTransactionModel FeatureEditSpec MoveModel.
Import ListNotations.

(** What a variable holds: nothing after it was moved from, a transaction with its
    modifications, or one that is over. *)
Inductive hold := Nothing | Holds (os : list op) | Over.
Definition holder := nat -> option hold.
Definition put (a : holder) (v : nat) (x : option hold) : holder := fun u => if Nat.eqb u v then x else a u.

Definition sound (w : world) : Prop := exists t, represents (fst w) (snd w) t.

(** The modifications are made to the model, in order, up to the first that is refused. *)
Inductive makes (ord : list nid -> list nid) : list op -> world -> world -> Prop :=
| makes_all w : makes ord [] w w
| makes_next o os w w1 w2 : exec ord o w = Some (w1, None) -> makes ord os w1 w2 -> makes ord (o :: os) w w2
| makes_part o os w w1 e : exec ord o w = Some (w1, Some e) -> makes ord (o :: os) w w1.

(** The meaning of a statement with respect to owners; a variable that was moved from is only
    destroyed or assigned to, an open transaction is not overwritten, and the model is there
    and in good condition. *)
Inductive means (ord : list nid -> list nid) : holder * world -> tstep -> holder * world -> Prop :=
| means_open a w v : a v = None -> means ord (a, w) (TOpen v) (put a v (Some (Holds [])), w)
| means_call a w v os o : a v = Some (Holds os) -> means ord (a, w) (TCall v o) (put a v (Some (Holds (os ++ [o]))), w)
| means_move a w u v x : a u = Some x -> x <> Nothing -> a v = None -> means ord (a, w) (TMove u v) (put (put a u (Some Nothing)) v (Some x), w)
| means_assign a w u v x y : u <> v -> a u = Some x -> x <> Nothing -> a v = Some y -> y = Nothing \/ y = Over ->
    means ord (a, w) (TAssign u v) (put (put a u (Some Nothing)) v (Some x), w)
| means_commit a w w' v os : a v = Some (Holds os) -> makes ord os w w' -> means ord (a, w) (TCommit v) (put a v (Some Over), w')
| means_abort a w v x : a v = Some x -> x <> Nothing -> means ord (a, w) (TAbort v) (put a v (Some Over), w)
| means_last a w w' v os : a v = Some (Holds os) -> makes ord os w w' -> means ord (a, w) (TDestroy v) (put a v None, w')
| means_end a w v x : a v = Some x -> x = Nothing \/ x = Over -> means ord (a, w) (TDestroy v) (put a v None, w).
Inductive meaning (ord : list nid -> list nid) : holder * world -> list tstep -> holder * world -> Prop :=
| meaning_none s : meaning ord s [] s
| meaning_step a w c s1 p s2 : sound w -> means ord (a, w) c s1 -> sound (snd s1) -> meaning ord s1 p s2 -> meaning ord (a, w) (c :: p) s2.

(** The modifications queued by a program, and those that it executed. *)
Definition queued (p : list tstep) : list op := flat_map (fun c => match c with TCall _ o => [o] | _ => [] end) p.
Definition executed (es : list event) : list op := flat_map fst es.

(** The program neither aborts nor overwrites transactions, and queues modifications in open
    transactions only. *)
Definition lossless (ord : list nid -> list nid) (w : world) (p : list tstep) : Prop :=
  (forall v, ~ In (TAbort v) p) /\ (forall u v, ~ In (TAssign u v) p) /\
  forall p1 v o p2 s es, p = p1 ++ TCall v o :: p2 -> t_run ord (t_start w) p1 = Some (s, es) -> exists os, var (p_vars s) v = Some (Mtx true os).

(** All modifications are made. *)
Inductive makes_each (ord : list nid -> list nid) : list op -> world -> world -> Prop :=
| each_none w : makes_each ord [] w w
| each_next o os w w1 w2 : exec ord o w = Some (w1, None) -> makes_each ord os w1 w2 -> makes_each ord (o :: os) w w2.
