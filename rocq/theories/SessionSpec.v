(** What is expected of a program that adds to a solver while it enumerates. *)
From Coq Require Import List ZArith Bool Ascii.
From Verif Require Import Text ConfigurationModel FeatureTreeModel SolverModel SolverSpec SessionModel.
Import ListNotations.
Local Open Scope list_scope.

(** The program without asking, and the answers to what is left of it. *)
Definition adds (x : session_call) : bool := match x with Add _ => true | _ => false end.
Definition said (e : answer) : bool := match e with Said _ => true | _ => false end.
Definition asks (x : session_call) : Prop := x = Next \/ x = Current.

(** The oracle is right about these formulas. *)
Definition right_about (check : list bterm -> option assignment) (ts : list bterm) : Prop :=
  match check ts with
  | Some a => satisfies a ts
  | None => forall a, ~ satisfies a ts
  end.

(** The configuration [c] has a value that [d] does not have, for an option of [d]. *)
Definition differs (c d : config) : Prop := exists n v, option_value d n = Some v /\ option_value c n <> Some v.
(** The configuration [c] has all values of [d]. *)
Definition agrees_with (c d : config) : Prop := forall n v, option_value d n = Some v -> option_value c n = Some v.

(** The configuration [d] was given by the program [p], which then had the options [vs]. *)
Definition given_with (fuel : nat) (p : list session_call) (es : list answer) (vs : list (text * sort)) (d : config) : Prop :=
  exists p1 x p2 s1 ns, p = p1 ++ x :: p2 /\ asks x /\ nth_error es (List.length p1) = Some (Gave (inl d)) /\
    session_run (fun _ => None) fuel (filter adds p1) new_solver = Some (s1, ns) /\ vs = s_vars s1.

(** No option is added after the program has asked for a configuration. *)
Definition no_late_options (fuel : nat) (p : list session_call) : Prop :=
  forall p1 x p2 s1 ns s2 ms, p = p1 ++ x :: p2 -> asks x ->
    session_run (fun _ => None) fuel (filter adds p1) new_solver = Some (s1, ns) -> session_run (fun _ => None) fuel (filter adds p) new_solver = Some (s2, ms) -> s_vars s1 = s_vars s2.
