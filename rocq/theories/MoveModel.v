(** Model of modify transactions as variables of a program that are opened, moved, committed,
    aborted and destroyed (include/vara/Feature/FeatureModelTransaction.h:46-92, 976-1007,
    1093-1095).  All transactions are opened for the same model, which may be destroyed while
    they are still there. *)
From Coq Require Import List Arith Bool Ascii.
From Verif Require Import Text ConstraintModel SourceRangeModel FeatureTreeModel FeatureTransactionModel.
Import ListNotations.

(** The statements of a program, with the variables they use. *)
Inductive tstep :=
| TOpen (v : nat)               (* auto v = openTransaction(FM) *)
| TCall (v : nat) (o : op)      (* v.addFeature(...) and so on *)
| TMove (u v : nat)             (* auto v = std::move(u) *)
| TAssign (u v : nat)           (* v = std::move(u) *)
| TCommit (v : nat)
| TAbort (v : nat)
| TDestroy (v : nat)            (* end of the scope of v *)
| TDelete.                      (* the model is destroyed *)

(** The variables that are in scope, and the model. *)
Record tstate := TState { p_vars : list (nat * mtx); p_world : option world }.
Definition t_start (w : world) : tstate := TState [] (Some w).

Fixpoint var (l : list (nat * mtx)) (v : nat) : option mtx :=
  match l with [] => None | (u, t) :: r => if Nat.eqb u v then Some t else var r v end.
Fixpoint set_var (l : list (nat * mtx)) (v : nat) (t : mtx) : list (nat * mtx) :=
  match l with [] => [] | (u, x) :: r => if Nat.eqb u v then (u, t) :: r else (u, x) :: set_var r v t end.
Fixpoint drop_var (l : list (nat * mtx)) (v : nat) : list (nat * mtx) :=
  match l with [] => [] | (u, x) :: r => if Nat.eqb u v then r else (u, x) :: drop_var r v end.

(** What a program does to the model: the queues that were executed, each with the result. *)
Definition event := (list op * option ftcode)%type.

(** What is left of a transaction that was moved from (FeatureModelTransaction.h:59-62 with
    the members in 1093-1095): the defaulted move copies the flag and the pointer to the
    model and moves the vector, which is empty then. *)
Definition moved_from (t : mtx) : mtx := Mtx (t_open t) [].

Section Order.
Variable ord : list nid -> list nid.

(** [commit] (82, 978-997): an open transaction accesses the model. *)
Definition commit_var (t : mtx) (w : option world) : option (mtx * option world * list event * option ftcode) :=
  if t_open t then
    let* w0 := w in
    let* (t1, w1, e) := commit_modify ord t w0 in
    Some (t1, Some w1, [(t_queue t, e)], e)
  else Some (Mtx false (t_queue t), w, [], Some ABORTED).

(** One statement.  Opening asserts a consistent model (49-53); the destructor commits what is
    open (63-76).  A variable moved to itself is excluded, since what a moved vector is
    then is not specified. *)
Definition t_step (s : tstate) (c : tstep) : option (tstate * list event) :=
  match c with
  | TOpen v =>
      match var (p_vars s) v with
      | Some _ => None
      | None => let* w := p_world s in let* t := open_modify w in Some (TState ((v, t) :: p_vars s) (Some w), [])
      end
  | TCall v o =>
      let* t := var (p_vars s) v in
      let* t1 := enqueue t o in
      Some (TState (set_var (p_vars s) v t1) (p_world s), [])
  | TMove u v =>
      let* t := var (p_vars s) u in
      match var (p_vars s) v with
      | Some _ => None
      | None => Some (TState ((v, t) :: set_var (p_vars s) u (moved_from t)) (p_world s), [])
      end
  | TAssign u v =>
      if Nat.eqb u v then None
      else
        let* t := var (p_vars s) u in
        let* _ := var (p_vars s) v in
        Some (TState (set_var (set_var (p_vars s) u (moved_from t)) v t) (p_world s), [])
  | TCommit v =>
      let* t := var (p_vars s) v in
      let* (t1, w1, es, _) := commit_var t (p_world s) in
      Some (TState (set_var (p_vars s) v t1) w1, es)
  | TAbort v =>
      let* t := var (p_vars s) v in
      Some (TState (set_var (p_vars s) v (abort_modify t)) (p_world s), [])
  | TDestroy v =>
      let* t := var (p_vars s) v in
      if t_open t then
        let* (_, w1, es, _) := commit_var t (p_world s) in
        Some (TState (drop_var (p_vars s) v) w1, es)
      else Some (TState (drop_var (p_vars s) v) (p_world s), [])
  | TDelete => let* _ := p_world s in Some (TState (p_vars s) None, [])
  end.

Fixpoint t_run (s : tstate) (p : list tstep) : option (tstate * list event) :=
  match p with
  | [] => Some (s, [])
  | c :: r => let* (s1, e1) := t_step s c in let* (s2, e2) := t_run s1 r in Some (s2, e1 ++ e2)
  end.
End Order.
