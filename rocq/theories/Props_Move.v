(** Property C88: transactions that are moved. *)
From Coq Require Import List Arith Bool Ascii String Permutation.
From Verif Require Import Text FeatureTreeModel FeatureTreeSpec FeatureTransactionModel FeatureEditSpec FeatureTransactionExamples MoveModel MoveSpec MoveFinal MoveExamples.
Import ListNotations.

(** ** C88 *)
(** A program that treats a transaction as an object with one owner, which is moved between
    variables, runs and has the effect on the model that its meaning in terms of owners has. *)
Theorem C88_transactions_have_one_owner :
  forall ord w p a w', meaning ord (fun _ => None, w) p (a, w') ->
  exists s es, t_run ord (t_start w) p = Some (s, es) /\ p_world s = Some w' /\ forall v, a v = None <-> var (p_vars s) v = None.
Proof. exact owners. Qed.
Print Assumptions C88_transactions_have_one_owner.

(** Committing then tells whether all modifications were made, and that there are none to be
    made if the transaction is over. *)
Theorem C88_commits_report :
  forall ord w p a w', meaning ord (fun _ => None, w) p (a, w') ->
  exists s es, t_run ord (t_start w) p = Some (s, es) /\ forall v t, var (p_vars s) v = Some t ->
  (a v = Some Over -> exists t', commit_var ord t (p_world s) = Some (t', Some w', [], Some ABORTED)) /\
  (forall os w2, a v = Some (Holds os) -> makes ord os w' w2 -> sound w2 ->
     exists t' e, commit_var ord t (p_world s) = Some (t', Some w2, [(os, e)], e) /\ (e = None <-> makes_each ord os w' w2)).
Proof. exact commits_report. Qed.
Print Assumptions C88_commits_report.

(** Whatever a program does with its transactions, no modification is executed twice and none
    that was not asked for. *)
Theorem C88_no_modification_twice :
  forall ord w p s es, t_run ord (t_start w) p = Some (s, es) -> exists rest, Permutation (executed es ++ rest) (queued p).
Proof. exact at_most_once. Qed.
Print Assumptions C88_no_modification_twice.

(** If it neither aborts nor overwrites transactions and all of them are destroyed, each
    modification is passed on exactly once. *)
Theorem C88_every_modification_once :
  forall ord w p s es, t_run ord (t_start w) p = Some (s, es) -> lossless ord w p -> p_vars s = [] -> Permutation (executed es) (queued p).
Proof. exact exactly_once. Qed.
Print Assumptions C88_every_modification_once.

(** A variable that was moved from is not done with: its destructor still accesses the model. *)
Theorem C88_moved_from_needs_no_model_refuted : exists ord w p s es, is_order ord /\ sound w /\ t_run ord (t_start w) p = Some (s, es) /\
  In (TMove 0 1) p /\ (forall c, In c p -> c <> TCommit 0) /\ t_run ord (t_start w) (p ++ [TDestroy 0]) = None /\
  exists s' es', t_run ord (t_start w) ([TOpen 0; TCall 0 (OSetName (T "n")); TCommit 0; TDelete] ++ [TDestroy 0]) = Some (s', es').
Proof. exact moved_from_accesses. Qed.
Print Assumptions C88_moved_from_needs_no_model_refuted.

(** Committing it is reported as a success. *)
Theorem C88_moved_from_is_aborted_refuted : exists ord w s, is_order ord /\ sound w /\
  t_run ord (t_start w) [TOpen 0; TCall 0 (OSetName (T "n")); TMove 0 1; TCommit 0] = Some (s, [([], None)]) /\ p_world s = Some w.
Proof. exact moved_from_commits. Qed.
Print Assumptions C88_moved_from_is_aborted_refuted.

(** Unlike destroying it, assigning to an open transaction loses its modifications. *)
Theorem C88_assigning_commits_refuted : exists ord w p s es, is_order ord /\ sound w /\ t_run ord (t_start w) p = Some (s, es) /\ p_vars s = [] /\ (forall v, ~ In (TAbort v) p) /\
  queued p = [OSetName (T "n")] /\ executed es = [] /\ p_world s = Some w.
Proof. exact assigned_over. Qed.
Print Assumptions C88_assigning_commits_refuted.

(** Not every modification that is asked of a committed transaction fails an assertion: some
    are dropped. *)
Theorem C88_late_calls_fail_refuted : exists ord w s es, is_order ord /\ sound w /\
  t_run ord (t_start w) [TOpen 0; TCommit 0; TCall 0 (ORemoveFeature (ByName (T "a")) false); TDestroy 0] = Some (s, es) /\ p_world s = Some w /\ executed es = [] /\
  t_run ord (t_start w) [TOpen 0; TCommit 0; TCall 0 (OSetName (T "n")); TDestroy 0] = None.
Proof. exact late_calls. Qed.
Print Assumptions C88_late_calls_fail_refuted.
