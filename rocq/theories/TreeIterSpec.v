(** What programs on iterators see if every iterator is a list of the features to come. *)
From Coq Require Import List Bool Arith.
From Verif Require Import Text FeatureTreeModel FeatureTreeSpec TreeIterModel.
Import ListNotations.
Local Open Scope list_scope.

(** Both at the end, or at features whose names differ in case at most. *)
Inductive at_same (low : nid -> text) : list nid -> list nid -> Prop :=
| same_end : at_same low [] []
| same_name f g k l : low f = low g -> at_same low (f :: k) (g :: l).

(** The iterators with the given numbers after one operation, and what is seen.  [from f] are
    the features from [f] on, [low f] is the name of [f] in lower case. *)
Inductive sees (from : nid -> list nid) (low : nid -> text) (root : nid) (v : list (list nid)) :
  place_op -> list (list nid) -> glimpse -> Prop :=
| SBegin : sees from low root v PBegin (v ++ [from root]) GNothing
| SEnd : sees from low root v PEnd (v ++ [[]]) GNothing
| SFrom f : sees from low root v (PFrom f) (v ++ [from f]) GNothing
| SCopy i l : nth_error v i = Some l -> sees from low root v (PCopy i) (v ++ [l]) GNothing
| SGetEnd i : nth_error v i = Some [] -> sees from low root v (PGet i) v (GFeature None)
| SGet i f l : nth_error v i = Some (f :: l) -> sees from low root v (PGet i) v (GFeature (Some f))
| SStep i a l b : v = a ++ l :: b -> length a = i ->
    sees from low root v (PStep i) (a ++ tl l :: b ++ [tl l]) GNothing
| SPost i a l b : v = a ++ l :: b -> length a = i ->
    sees from low root v (PPost i) (a ++ tl l :: b ++ [l]) GNothing
| SSame i j k l b : nth_error v i = Some k -> nth_error v j = Some l -> (b = true <-> at_same low k l) ->
    sees from low root v (PSame i j) v (GTruth b)
| SDiffer i j k l b : nth_error v i = Some k -> nth_error v j = Some l -> (b = false <-> at_same low k l) ->
    sees from low root v (PDiffer i j) v (GTruth b).

Inductive views (from : nid -> list nid) (low : nid -> text) (root : nid) :
  list (list nid) -> list place_op -> list glimpse -> Prop :=
| views_nil v : views from low root v [] []
| views_cons v o v' g os gs : sees from low root v o v' g -> views from low root v' os gs ->
    views from low root v (o :: os) (g :: gs).

(** Every operation is about iterators made before and starts at features of the tree. *)
Definition makes (o : place_op) : nat :=
  match o with PGet _ | PSame _ _ | PDiffer _ _ => 0 | _ => 1 end.
Definition uses (o : place_op) : list nat :=
  match o with
  | PBegin | PEnd | PFrom _ => []
  | PCopy i | PGet i | PStep i | PPost i => [i]
  | PSame i j | PDiffer i j => [i; j]
  end.
Fixpoint proper (t : tree) (n : nat) (os : list place_op) : Prop :=
  match os with
  | [] => True
  | o :: r => Forall (fun i => i < n) (uses o) /\ (forall f, o = PFrom f -> In f (feature_ids t)) /\ proper t (n + makes o) r
  end.

(** No two features have names that differ in case at most. *)
Definition distinct_names (t : tree) : Prop :=
  forall u v, subtree u t -> subtree v t -> is_feature (rdata u) = true -> is_feature (rdata v) = true ->
    lname u = lname v -> u = v.
(** All iterators come from [begin()] and [end()]. *)
Definition only_begin_end (os : list place_op) : Prop := forall f, ~ In (PFrom f) os.
