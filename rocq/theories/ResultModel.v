(** Model of include/vara/Utils/Result.h ([Result<ErrorTy, ValueTy>] with [Ok] and [Error]).

    A result is a value or an error (the [std::variant] in line 148).  Values that are moved
    from ([extractValue], 124-127) are given by [left].  With assertions switched on, asking
    an error for a value or a value for an error fails ([None]). *)
From Coq Require Import List Bool.
Import ListNotations.

Section Result.
Variables (E V : Type).
(** What a value is after it was moved from: itself for numbers, null for [unique_ptr]. *)
Variable left : V -> V.
(** Whether values can be constructed from a bool ([std::is_constructible_v<ValueTy, bool>]),
    and which one it is: so for bool, the integers and floating point numbers, and for
    vectors, which then have that length, but not for pointers. *)
Variable of_bool : option (bool -> V).

Definition res := (V + E)%type.

(** [Result(Ok<ValueTy>)], [Result(Error<ErrorTy>)] and the constructors from the arguments of
    a value or of an error (94-110). *)
Definition of_value (v : V) : res := inl v.
Definition of_error (e : E) : res := inr e.

(** [operator bool] (113-115). *)
Definition res_test (r : res) : bool := match r with inl _ => true | inr _ => false end.
(** [operator*() &] (117-120) and [getError() &] (129-132), which return copies. *)
Definition res_value (r : res) : option V := match r with inl v => Some v | inr _ => None end.
Definition res_error (r : res) : option E := match r with inl _ => None | inr e => Some e end.
(** [extractValue] (124-127): the value, and the result afterwards.  Errors are plain codes
    everywhere in the repository, and extracting them (136-139) changes nothing. *)
Definition res_extract (r : res) : option (V * res) := match r with inl v => Some (v, inl (left v)) | inr _ => None end.

(** How a result is passed on: moved, copied from a constant, or copied from a variable that is
    not constant.  In the last case the constructor template in 98-103 is a better match
    than the copy constructor, as it takes a reference that is not constant; it is
    enabled if the value can be constructed from a result, that is, through
    [operator bool], from a bool. *)
Inductive pass := ByMove | ByConstCopy | ByCopy.
Definition passed (p : pass) (r : res) : res :=
  match p, of_bool with
  | ByCopy, Some f => inl (f (res_test r))
  | _, _ => r
  end.
Definition passed_all (ps : list pass) (r : res) : res := fold_left (fun r p => passed p r) ps r.
End Result.
