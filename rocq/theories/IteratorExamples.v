(** Programs on the solver of [SolverExamples]. *)
From Coq Require Import List ZArith Arith Bool Ascii String Lia.
From Verif Require Import Text FeatureTreeModel ConfigurationModel ConfigurationSpec SolverModel SolverSpec SolverFinal SolverExamples IteratorModel IteratorSpec IteratorFinal.
Import ListNotations.
Local Open Scope list_scope.
Local Open Scope string_scope.

(** The values of a, b and n in what is seen. *)
Definition brief (r : outcome config) : option (list (option text)) :=
  match r with inl c => Some (map (option_value c) [T "a"; T "b"; T "n"]) | inr _ => None end.
Definition briefly (e : seen) : seen * option (list (option text)) :=
  match e with SeenConfig r => (SeenNothing, brief r) | _ => (e, None) end.
Definition first9 := Some [Some (T "true"); Some (T "false"); Some (T "2")].
Definition second9 := Some [Some (T "false"); Some (T "true"); Some (T "2")].
Definition third9 := Some [Some (T "false"); Some (T "true"); Some (T "4")].
Definition seen9 (os : list iterator_op) := option_map (map briefly) (iterator_run (trying tried9) os (new_iterable solver9)).
Definition config9 (c : option (list (option text))) : seen * option (list (option text)) := (SeenNothing, c).
Definition nothing : seen * option (list (option text)) := (SeenNothing, None).

Lemma iterator_example :
  reached solver9 /\ decides (trying tried9) (s_vars solver9) (s_asserted solver9) /\
  seen9 [OpAsk; OpBegin; OpGet 0; OpAsk; OpCopy 0; OpStep 0; OpGet 1; OpSame 0 1; OpNext; OpStep 0; OpEnded 0; OpEnded 1; OpSame 0 1; OpGet 1; OpNext] =
    Some [(SeenAnswer (inl true), None); nothing; config9 first9; (SeenAnswer (inr IllegalState), None); nothing; nothing; config9 second9; (SeenTruth true, None);
          config9 third9; nothing; (SeenTruth true, None); (SeenTruth false, None); (SeenTruth false, None); config9 third9; nothing] /\
  iterator_run (trying tried9) [OpBegin; OpNext; OpNext; OpNext; OpStep 0; OpGet 0] (new_iterable solver9) = None /\
  option_map (map (map brief)) (for_each_times (trying tried9) 4 3 solver9) = Some [[first9; second9; third9]; [third9]; [third9]].
Proof. split; [exact reached9|]. split; [exact decides9|]. repeat split; vm_compute; reflexivity. Qed.
Lemma no_configuration_example :
  reached solver10 /\ decides (trying []) (s_vars solver10) (s_asserted solver10) /\ (forall a, ~ satisfies a (s_asserted solver10)) /\
  iterator_run (trying []) [OpBegin; OpEnded 0; OpGet 0; OpAsk; OpStep 0; OpEnded 0] (new_iterable solver10) =
    Some [SeenNothing; SeenTruth false; SeenConfig (inr Unsat); SeenAnswer (inl false); SeenNothing; SeenTruth true] /\
  for_each_times (trying []) 1 2 solver10 = Some [[inr Unsat]; [inr Unsat]].
Proof. split; [exact reached10|]. split; [exact decides10|]. split; [exact unsat10|]. split; vm_compute; reflexivity. Qed.

(** A second loop does not list the configurations again. *)
Lemma second_loop_refuted : exists check s fuel a b,
  reached s /\ decides check (s_vars s) (s_asserted s) /\ for_each_times check fuel 2 s = Some [a; b] /\ List.length a = 3 /\ List.length b = 1.
Proof.
  assert (X : match for_each_times (trying tried9) 4 2 solver9 with Some [a; b] => (Nat.eqb (List.length a) 3) && (Nat.eqb (List.length b) 1) | _ => false end = true) by (vm_compute; reflexivity).
  exists (trying tried9), solver9, 4. destruct (for_each_times (trying tried9) 4 2 solver9) as [[|a [|b [|c r]]]|]; try discriminate. exists a, b.
  apply andb_prop in X. destruct X as (A & B). split; [exact reached9|]. split; [exact decides9|]. split; [reflexivity|]. split; apply Nat.eqb_eq; assumption.
Qed.
(** An iterator that is moved before it is looked at still stands at the first configuration. *)
Lemma early_step_refuted : exists check s c,
  reached s /\ decides check (s_vars s) (s_asserted s) /\
  iterator_run check [OpBegin; OpGet 0] (new_iterable s) = Some [SeenNothing; SeenConfig (inl c)] /\
  iterator_run check [OpBegin; OpStep 0; OpGet 0] (new_iterable s) = Some [SeenNothing; SeenNothing; SeenConfig (inl c)].
Proof. exists (trying tried9), solver9. eexists. split; [exact reached9|]. split; [exact decides9|]. split; vm_compute; reflexivity. Qed.
(** Moving one iterator moves the others. *)
Lemma own_place_refuted : exists check s c d n,
  reached s /\ decides check (s_vars s) (s_asserted s) /\
  iterator_run check [OpBegin; OpCopy 0; OpGet 0; OpStep 1; OpGet 0] (new_iterable s) =
    Some [SeenNothing; SeenNothing; SeenConfig (inl c); SeenNothing; SeenConfig (inl d)] /\ option_value c n <> option_value d n.
Proof.
  exists (trying tried9), solver9. eexists. eexists. exists (T "a"). split; [exact reached9|]. split; [exact decides9|]. split; [vm_compute; reflexivity|]. vm_compute. discriminate.
Qed.
