(** Iterators as one place in a list. *)
From Coq Require Import List Bool Arith.
From Verif Require Import FeatureTreeModel ConfigurationModel SolverModel IteratorModel.
Import ListNotations.
Local Open Scope list_scope.

(** The list of configurations, the place reached in it ([None] before the first) and
    the iterators that have been ended. *)
Record place := Place { pl_at : option nat; pl_ended : list nat; pl_made : nat }.
Definition start : place := Place None [] 0.

(** The next place, if there is one. *)
Definition next_place (l : list config) (p : place) : option nat :=
  let n := match pl_at p with None => 0 | Some k => S k end in
  if n <? List.length l then Some n else None.
Definition move (p : place) (n : nat) : place := Place (Some n) (pl_ended p) (pl_made p).
Definition at_place (l : list config) (n : nat) : outcome config :=
  match nth_error l n with Some c => inl c | None => inr Unsat end.
Definition ended (p : place) (i : nat) : bool := existsb (Nat.eqb i) (pl_ended p).
Definition usable (p : place) (i : nat) : bool := (i <? pl_made p) && negb (ended p i).

(** The configuration at the place; the place becomes the first if there was none. *)
Definition look (l : list config) (p : place) : place * outcome config :=
  match pl_at p with
  | Some n => (p, at_place l n)
  | None => match l with [] => (p, inr Unsat) | c :: _ => (move p 0, inl c) end
  end.
Definition advance (l : list config) (p : place) : place * outcome config :=
  match next_place l p with Some n => (move p n, at_place l n) | None => (p, inr Unsat) end.

(** One operation, on the place that all iterators share. *)
Inductive does (l : list config) : iterator_op -> place -> place -> seen -> Prop :=
| do_begin p : does l OpBegin p (Place (pl_at p) (pl_ended p) (S (pl_made p))) SeenNothing
| do_copy p i : i < pl_made p ->
    does l (OpCopy i) p (Place (pl_at p) (if ended p i then pl_made p :: pl_ended p else pl_ended p) (S (pl_made p))) SeenNothing
| do_get p i : usable p i = true -> does l (OpGet i) p (fst (look l p)) (SeenConfig (snd (look l p)))
| do_step p i n : usable p i = true -> next_place l p = Some n -> does l (OpStep i) p (move p n) SeenNothing
| do_end p i : usable p i = true -> next_place l p = None ->
    does l (OpStep i) p (Place (pl_at p) (i :: pl_ended p) (pl_made p)) SeenNothing
| do_same p i j b : i < pl_made p -> j < pl_made p -> (b = true <-> (ended p i = ended p j)) -> does l (OpSame i j) p p (SeenTruth b)
| do_ended p i : i < pl_made p -> does l (OpEnded i) p p (SeenTruth (ended p i))
| do_current p : does l OpCurrent p (fst (look l p)) (SeenConfig (snd (look l p)))
| do_next p : does l OpNext p (fst (advance l p)) (SeenConfig (snd (advance l p)))
| do_ask p : does l OpAsk p p (SeenAnswer (match pl_at p with Some _ => inr IllegalState | None => inl (negb (List.length l =? 0)) end)).

Inductive does_all (l : list config) : list iterator_op -> place -> list seen -> Prop :=
| all_done p : does_all l [] p []
| all_next o os p p' e es : does l o p p' e -> does_all l os p' es -> does_all l (o :: os) p (e :: es).

(** What loops over the same iterable get: the first gets the whole list, every further
    one the last entry.  Without configurations every loop gets an error once. *)
Definition one_loop (l : list config) : list (outcome config) :=
  match l with [] => [inr Unsat] | _ => map inl l end.
Definition later_loop (l : list config) : list (outcome config) :=
  match rev l with [] => [inr Unsat] | c :: _ => [inl c] end.
