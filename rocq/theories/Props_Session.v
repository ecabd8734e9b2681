(** Property C94: adding to a solver while it enumerates. *)
From Coq Require Import List ZArith Bool Ascii.
From Verif Require Import Text ConfigurationModel FeatureTreeModel SolverModel SolverSpec SessionModel SessionSpec SessionProofs SessionExamples.
Import ListNotations.

(** ** C94 *)
(** Whatever a program has added and asked before, the next configuration is valid with respect
    to all that was added and differs from every configuration given before, in an option that
    one has; if there is none, every valid assignment was given, as far as the options went
    at that time. *)
Theorem C94_next_is_new_and_valid : forall check fuel p s es,
  session_run check fuel p new_solver = Some (s, es) -> right_about check (s_asserted s) ->
  exists s0, session_run (fun _ => None) fuel (filter adds p) new_solver = Some (s0, filter said es) /\
  match snd (get_next check s) with
  | inl c => (exists a, satisfies a (s_asserted s0) /\ shows (s_vars s0) c a) /\ forall d, In (Gave (inl d)) es -> differs c d
  | inr e => e = Unsat /\ forall a, satisfies a (s_asserted s0) -> exists vs d, given_with fuel p es vs d /\ shows vs d a
  end.
Proof. exact next_answers. Qed.
Print Assumptions C94_next_is_new_and_valid.

(** If no option is added after the first question, UNSAT means that all configurations that
    are valid now were given. *)
Theorem C94_exhausted_when_all_given : forall check fuel p s es,
  session_run check fuel p new_solver = Some (s, es) -> right_about check (s_asserted s) -> no_late_options fuel p ->
  exists s0, session_run (fun _ => None) fuel (filter adds p) new_solver = Some (s0, filter said es) /\
  (snd (get_next check s) = inr Unsat <-> forall a, satisfies a (s_asserted s0) -> exists d, In (Gave (inl d)) es /\ shows (s_vars s0) d a).
Proof. exact exhausted. Qed.
Print Assumptions C94_exhausted_when_all_given.

(** The current configuration is the next one as long as none was given; afterwards it has all
    values of the one given last, and a value for every option added since. *)
Theorem C94_current_is_the_last : forall check fuel p s es,
  session_run check fuel p new_solver = Some (s, es) ->
  (forall d, ~ In (Gave (inl d)) es) /\ get_current check s = get_next check s \/
  exists es1 d es2 c s0, es = es1 ++ Gave (inl d) :: es2 /\ (forall d', ~ In (Gave (inl d')) es2) /\ get_current check s = (s, inl c) /\ agrees_with c d /\
    session_run (fun _ => None) fuel (filter adds p) new_solver = Some (s0, filter said es) /\ forall n, option_value c n <> None <-> In n (map fst (s_vars s0)).
Proof. exact current_answers. Qed.
Print Assumptions C94_current_is_the_last.

(** Whether there are valid configurations is answered until one was given. *)
Theorem C94_asked_in_time : forall check fuel p s es,
  session_run check fuel p new_solver = Some (s, es) -> right_about check (s_asserted s) ->
  exists s0, session_run (fun _ => None) fuel (filter adds p) new_solver = Some (s0, filter said es) /\
  match has_valid check s with
  | inr e => e = IllegalState /\ exists d, In (Gave (inl d)) es
  | inl b => (forall d, ~ In (Gave (inl d)) es) /\ (b = true <-> exists a, satisfies a (s_asserted s0))
  end.
Proof. exact ask_answers. Qed.
Print Assumptions C94_asked_in_time.

(** Asking changes neither whether the program is defined nor, with the theorems above, what
    adding answers. *)
Theorem C94_asking_is_harmless : forall check fuel p,
  session_run check fuel p new_solver = None <-> session_run (fun _ => None) fuel (filter adds p) new_solver = None.
Proof. exact asking_harmless. Qed.
Print Assumptions C94_asking_is_harmless.

(** Configurations with options that are added late can be missed altogether. *)
Theorem C94_late_options_are_enumerated_refuted : exists check fuel p s es s0 a, session_run check fuel p new_solver = Some (s, es) /\ right_about check (s_asserted s) /\
  session_run (fun _ => None) fuel (filter adds p) new_solver = Some (s0, filter said es) /\ satisfies a (s_asserted s0) /\
  snd (get_next check s) = inr Unsat /\ forall d, In (Gave (inl d)) es -> forall a', ~ shows (s_vars s0) d a'.
Proof. exact late_options. Qed.
Print Assumptions C94_late_options_are_enumerated_refuted.

(** The current configuration need not be valid. *)
Theorem C94_current_is_valid_refuted : exists check fuel p s es s0 c, session_run check fuel p new_solver = Some (s, es) /\ right_about check (s_asserted s) /\
  session_run (fun _ => None) fuel (filter adds p) new_solver = Some (s0, filter said es) /\ (exists a, satisfies a (s_asserted s0)) /\
  snd (get_current check s) = inl c /\ forall a, satisfies a (s_asserted s0) -> ~ shows (s_vars s0) c a.
Proof. exact stale_current. Qed.
Print Assumptions C94_current_is_valid_refuted.
