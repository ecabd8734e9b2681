(** The iterators of [ConfigurationIterable] (ConfigurationFactory.h:16-61) and the
    solver they share. *)
From Coq Require Import List Bool Arith.
From Verif Require Import FeatureTreeModel ConfigurationModel SolverModel.
Import ListNotations.
Local Open Scope list_scope.

(** What is done to an iterable: [begin()] (ConfigurationFactory.h:55), a copy of an
    iterator (implicit), [operator*] and [operator++] (ConfigurationFactory.h:28-39),
    [operator==] on two iterators and on an iterator and [end()]
    (ConfigurationFactory.h:41-44,57), and calls on the solver itself through a pointer
    kept from before the solver was moved into the iterable (ConfigurationFactory.h:50-51,60).
    Iterators are numbered in order of creation. *)
Inductive iterator_op :=
| OpBegin
| OpCopy (i : nat)
| OpGet (i : nat)
| OpStep (i : nat)
| OpSame (i j : nat)
| OpEnded (i : nat)
| OpCurrent
| OpNext
| OpAsk.

(** What is seen of an operation. *)
Inductive seen :=
| SeenNothing
| SeenConfig (r : outcome config)
| SeenTruth (b : bool)
| SeenAnswer (r : outcome bool).

(** An iterator is a pointer to the solver or null (ConfigurationFactory.h:26,47): [true]
    stands for the pointer. *)
Record iterable := Iterable { it_solver : solver; it_live : list bool }.

(** The iterable made of a solver (ConfigurationFactory.h:50-51,72-76). *)
Definition new_iterable (s : solver) : iterable := Iterable s [].

(** Replaces the entry with number [i]. *)
Fixpoint set_nth (i : nat) (b : bool) (l : list bool) : list bool :=
  match l, i with
  | [], _ => []
  | _ :: r, 0 => b :: r
  | x :: r, S k => x :: set_nth k b r
  end.

Section Oracle.
Variable check : list bterm -> option assignment.

(** One operation; [None] for iterators that were not made and for dereferencing the
    null pointer (ConfigurationFactory.h:30,34), which is undefined. *)
Definition iterator_step (o : iterator_op) (x : iterable) : option (iterable * seen) :=
  let (s, v) := x in
  match o with
  | OpBegin => Some (Iterable s (v ++ [true]), SeenNothing)
  | OpCopy i => let* b := nth_error v i in Some (Iterable s (v ++ [b]), SeenNothing)
  | OpGet i =>
      match nth_error v i with
      | Some true => let (s', r) := get_current check s in Some (Iterable s' v, SeenConfig r)
      | _ => None
      end
  | OpStep i =>
      match nth_error v i with
      | Some true =>
          let (s', r) := get_next check s in
          Some (Iterable s' (if result_bool r then v else set_nth i false v), SeenNothing)
      | _ => None
      end
  | OpSame i j => let* a := nth_error v i in let* b := nth_error v j in Some (x, SeenTruth (Bool.eqb a b))
  | OpEnded i => let* a := nth_error v i in Some (x, SeenTruth (negb a))
  | OpCurrent => let (s', r) := get_current check s in Some (Iterable s' v, SeenConfig r)
  | OpNext => let (s', r) := get_next check s in Some (Iterable s' v, SeenConfig r)
  | OpAsk => Some (x, SeenAnswer (has_valid check s))
  end.
(** A program: the operations in order. *)
Fixpoint iterator_run (os : list iterator_op) (x : iterable) : option (list seen) :=
  match os with
  | [] => Some []
  | o :: r => let* (x', e) := iterator_step o x in let* es := iterator_run r x' in Some (e :: es)
  end.

(** [for (auto R : Iterable)]: what the body gets and the solver afterwards; [None] if
    the loop runs longer than [fuel].  The comparison with [end()] at the start never
    ends the loop, as the pointer is not null. *)
Fixpoint for_each (fuel : nat) (s : solver) : option (list (outcome config) * solver) :=
  match fuel with
  | 0 => None
  | S k =>
      let (s1, r) := get_current check s in
      let (s2, n) := get_next check s1 in
      if result_bool n then let* (l, s3) := for_each k s2 in Some (r :: l, s3) else Some ([r], s2)
  end.
(** The loop several times on the same iterable: what the bodies get, loop by loop. *)
Fixpoint for_each_times (fuel n : nat) (s : solver) : option (list (list (outcome config))) :=
  match n with
  | 0 => Some []
  | S k => let* (l, s') := for_each fuel s in let* r := for_each_times fuel k s' in Some (l :: r)
  end.
End Oracle.
