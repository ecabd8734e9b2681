(** Examples for moving transactions. *)
From Coq Require Import List ZArith Arith Bool Ascii String Permutation Lia.
From Verif Require Import Text ConstraintModel SourceRangeModel FeatureTreeModel FeatureTreeSpec FeatureTreeExamples FeatureTransactionModel FeatureEditSpec FeatureTransactionExamples FeatureHistoryProofs
  MoveModel MoveSpec MoveFinal.
Import ListNotations.
Local Open Scope string_scope.
Local Open Scope list_scope.

(** A transaction that is moved into another variable, used there and committed by the
    destructor; the first variable is destroyed before and the second, moved again, after. *)
Definition program88 : list tstep :=
  [TOpen 0; TCall 0 (OSetName (T "n")); TMove 0 1; TCall 1 (OSetCommit (T "c")); TDestroy 0; TMove 1 2; TDestroy 2; TDestroy 1].
Definition w88 : world := (heap1, model1).
Definition w88' : world := (heap1, with_commit (with_name model1 (T "n")) (T "c")).
Lemma sound88 : sound w88 /\ sound w88'.
Proof.
  pose proof represents1 as R. split; exists tree1; [exact R|]. destruct R; constructor; assumption.
Qed.
Lemma move_example : exists a, meaning order (fun _ => None, w88) program88 (a, w88') /\ (forall v, v <= 2 -> a v = None) /\ lossless order w88 program88 /\ queued program88 = [OSetName (T "n"); OSetCommit (T "c")].
Proof.
  destruct sound88 as (S & S'). eexists. split; [|split; [|split]].
  - unfold program88.
    eapply meaning_step; [exact S|apply means_open; reflexivity|exact S|].
    eapply meaning_step; [exact S|apply means_call; reflexivity|exact S|].
    eapply meaning_step; [exact S|eapply means_move; [reflexivity|discriminate|reflexivity]|exact S|].
    eapply meaning_step; [exact S|apply means_call; reflexivity|exact S|].
    eapply meaning_step; [exact S|eapply means_end; [reflexivity|left; reflexivity]|exact S|].
    eapply meaning_step; [exact S|eapply means_move; [reflexivity|discriminate|reflexivity]|exact S|].
    eapply meaning_step; [exact S|eapply means_last; [reflexivity|]|exact S'|].
    { eapply makes_next; [reflexivity|]. eapply makes_next; [reflexivity|]. apply makes_all. }
    eapply meaning_step; [exact S'|eapply means_end; [reflexivity|left; reflexivity]|exact S'|].
    apply meaning_none.
  - intros v V. do 3 (destruct v as [|v]; [reflexivity|]). lia.
  - split; [|split].
    + intros v X. cbn in X. intuition discriminate.
    + intros u v X. cbn in X. intuition discriminate.
    + intros p1 v o p2 s es E R. pose proof (represents_consistent _ _ _ represents1) as C. unfold program88 in E.
      do 2 (destruct p1 as [|c p1]; [try discriminate E|injection E as <- E]).
      * injection E as <- <- <-. cbn [t_run t_step t_start p_vars p_world var bind] in R. unfold open_modify, w88 in R. cbn [fst snd] in R. rewrite C in R. cbn [bind] in R. injection R as <- <-. eexists. reflexivity.
      * do 2 (destruct p1 as [|c p1]; [try discriminate E|injection E as <- E]); [|do 4 (destruct p1 as [|c p1]; [discriminate E|injection E as <- E]); destruct p1; discriminate E].
        injection E as <- <- <-. cbn [t_run t_step t_start p_vars p_world var bind] in R. unfold open_modify, w88 in R. cbn [fst snd] in R. rewrite C in R. vm_compute in R. injection R as <- <-. eexists. reflexivity.
  - reflexivity.
Qed.

(** One transaction is over and one is open and was moved. *)
Definition open88 : list tstep := [TOpen 0; TAbort 0; TOpen 1; TCall 1 (OSetName (T "n")); TCall 1 (OSetCommit (T "c")); TMove 1 2].
Lemma report_example : exists a, meaning order (fun _ => None, w88) open88 (a, w88) /\ a 0 = Some Over /\ a 2 = Some (Holds [OSetName (T "n"); OSetCommit (T "c")]) /\
  makes order [OSetName (T "n"); OSetCommit (T "c")] w88 w88' /\ makes_each order [OSetName (T "n"); OSetCommit (T "c")] w88 w88' /\ sound w88'.
Proof.
  destruct sound88 as (S & S'). eexists. split; [|split; [|split; [|split; [|split]]]].
  - unfold open88.
    eapply meaning_step; [exact S|apply means_open; reflexivity|exact S|].
    eapply meaning_step; [exact S|eapply means_abort; [reflexivity|discriminate]|exact S|].
    eapply meaning_step; [exact S|apply means_open; reflexivity|exact S|].
    eapply meaning_step; [exact S|apply means_call; reflexivity|exact S|].
    eapply meaning_step; [exact S|apply means_call; reflexivity|exact S|].
    eapply meaning_step; [exact S|eapply means_move; [reflexivity|discriminate|reflexivity]|exact S|].
    apply meaning_none.
  - reflexivity.
  - reflexivity.
  - eapply makes_next; [reflexivity|]. eapply makes_next; [reflexivity|]. apply makes_all.
  - eapply each_next; [reflexivity|]. eapply each_next; [reflexivity|]. apply each_none.
  - exact S'.
Qed.

(** The destructor of a variable that was moved from accesses the model. *)
Definition left88 : list tstep := [TOpen 0; TCall 0 (OSetName (T "n")); TMove 0 1; TCommit 1; TDestroy 1; TDelete].
Lemma moved_from_accesses : exists ord w p s es, is_order ord /\ sound w /\ t_run ord (t_start w) p = Some (s, es) /\
  In (TMove 0 1) p /\ (forall c, In c p -> c <> TCommit 0) /\ t_run ord (t_start w) (p ++ [TDestroy 0]) = None /\
  exists s' es', t_run ord (t_start w) ([TOpen 0; TCall 0 (OSetName (T "n")); TCommit 0; TDelete] ++ [TDestroy 0]) = Some (s', es').
Proof.
  exists order, w88, left88. eexists _, _. split; [exact order_ok|]. split; [exact (proj1 sound88)|]. split; [vm_compute; reflexivity|]. split; [cbn; tauto|].
  split; [intros c X; cbn in X; intuition (subst; discriminate)|]. split; [vm_compute; reflexivity|]. eexists _, _. vm_compute. reflexivity.
Qed.

(** Committing a variable that was moved from is reported as a success. *)
Lemma moved_from_commits : exists ord w s, is_order ord /\ sound w /\
  t_run ord (t_start w) [TOpen 0; TCall 0 (OSetName (T "n")); TMove 0 1; TCommit 0] = Some (s, [([], None)]) /\ p_world s = Some w.
Proof. exists order, w88. eexists. split; [exact order_ok|]. split; [exact (proj1 sound88)|]. split; vm_compute; reflexivity. Qed.

(** Assigning to an open transaction loses its modifications. *)
Lemma assigned_over : exists ord w p s es, is_order ord /\ sound w /\ t_run ord (t_start w) p = Some (s, es) /\ p_vars s = [] /\ (forall v, ~ In (TAbort v) p) /\
  queued p = [OSetName (T "n")] /\ executed es = [] /\ p_world s = Some w.
Proof.
  exists order, w88, [TOpen 0; TCall 0 (OSetName (T "n")); TOpen 1; TAssign 1 0; TDestroy 0; TDestroy 1]. eexists _, _. split; [exact order_ok|]. split; [exact (proj1 sound88)|].
  split; [vm_compute; reflexivity|]. split; [reflexivity|]. split; [intros v X; cbn in X; intuition discriminate|]. split; [reflexivity|]. split; vm_compute; reflexivity.
Qed.

(** Some modifications can be asked of a committed transaction and are dropped; others fail an
    assertion. *)
Lemma late_calls : exists ord w s es, is_order ord /\ sound w /\
  t_run ord (t_start w) [TOpen 0; TCommit 0; TCall 0 (ORemoveFeature (ByName (T "a")) false); TDestroy 0] = Some (s, es) /\ p_world s = Some w /\ executed es = [] /\
  t_run ord (t_start w) [TOpen 0; TCommit 0; TCall 0 (OSetName (T "n")); TDestroy 0] = None.
Proof. exists order, w88. eexists _, _. split; [exact order_ok|]. split; [exact (proj1 sound88)|]. split; [vm_compute; reflexivity|]. split; [reflexivity|]. split; vm_compute; reflexivity. Qed.
