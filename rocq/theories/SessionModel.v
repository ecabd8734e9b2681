(** Model of a program that adds options and constraints to a solver between asking it for
    configurations (lib/Solver/Z3Solver.cpp:9-192, 233-248). *)
From Coq Require Import List Bool.
From Verif Require Import FeatureTreeModel ConfigurationModel SolverModel.
Import ListNotations.
Local Open Scope list_scope.

(** The calls of the interface of the solver (include/vara/Solver/Solver.h:36-132): those that
    add options or constraints, [getNextConfiguration] (184-192), [getCurrentConfiguration]
    (233-248) and [hasValidConfigurations] (171-182). *)
Inductive session_call := Add (c : scall) | Next | Current | Ask.
(** What is returned. *)
Inductive answer := Said (e : option scode) | Gave (r : outcome config) | Told (r : outcome bool).

Section Oracle.
Variable check : list bterm -> option assignment.
(** Bounds the loop that expands a range, as in SolverModel.v. *)
Variable fuel : nat.

Definition session_step (x : session_call) (s : solver) : option (solver * answer) :=
  match x with
  | Add c => let* (s1, e) := solver_call fuel c s in Some (s1, Said e)
  | Next => let (s1, r) := get_next check s in Some (s1, Gave r)
  | Current => let (s1, r) := get_current check s in Some (s1, Gave r)
  | Ask => Some (s, Told (has_valid check s))
  end.
Fixpoint session_run (p : list session_call) (s : solver) : option (solver * list answer) :=
  match p with
  | [] => Some (s, [])
  | x :: r => let* (s1, e) := session_step x s in let* (s2, es) := session_run r s1 in Some (s2, e :: es)
  end.
End Oracle.
