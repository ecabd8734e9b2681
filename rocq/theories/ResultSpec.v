(** What can be observed of a result, and the copies that are taken of it. *)
From Coq Require Import List Bool Arith.
From Verif Require Import ResultModel.
Import ListNotations.

Section Result.
Variables (E V : Type).

(** Test, value and error of a result. *)
Definition shows (r : res E V) (b : bool) (v : option V) (e : option E) : Prop := res_test E V r = b /\ res_value E V r = v /\ res_error E V r = e.
Definition same_result (r r' : res E V) : Prop := forall b v e, shows r b v e <-> shows r' b v e.
End Result.

(** The number of copies that are taken of variables that are not constant. *)
Definition copies (ps : list pass) : nat := List.length (filter (fun p => match p with ByCopy => true | _ => false end) ps).
