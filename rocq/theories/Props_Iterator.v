(** Property C92: iterators over configurations. *)
From Coq Require Import List ZArith Bool Arith.
From Verif Require Import Text FeatureTreeModel ConfigurationModel ConfigurationSpec SolverModel SolverSpec SolverExamples
  IteratorModel IteratorSpec IteratorFinal IteratorExamples.
Import ListNotations.
Local Open Scope list_scope.

(** ** C92 *)
(** There is one list of all configurations, each once, such that every program on the iterators
    of an iterable and on its solver sees what one place in this list shows, moved by all of
    them; it is undefined exactly if an ended iterator is used.  The list is what
    [getAllConfigs] returns, the first loop gets it, and each further loop gets its last entry. *)
Theorem C92_iterators_share_one_place :
  forall check s, reached s -> decides check (s_vars s) (s_asserted s) ->
  exists L, lists_all_solutions (s_vars s) (s_asserted s) L /\
    (forall os es, iterator_run check os (new_iterable s) = Some es <-> does_all L os start es) /\
    exists N, forall fuel, N <= fuel ->
      get_all check fuel s = Some (match L with [] => inr Unsat | _ => inl L end) /\
      forall n, for_each_times check fuel (S n) s = Some (one_loop L :: repeat (later_loop L) n).
Proof. exact iterators_share. Qed.
Print Assumptions C92_iterators_share_one_place.
Example C92_example :
  reached solver9 /\ decides (trying tried9) (s_vars solver9) (s_asserted solver9) /\
  seen9 [OpAsk; OpBegin; OpGet 0; OpAsk; OpCopy 0; OpStep 0; OpGet 1; OpSame 0 1; OpNext; OpStep 0; OpEnded 0; OpEnded 1; OpSame 0 1; OpGet 1; OpNext] =
    Some [(SeenAnswer (inl true), None); nothing; config9 first9; (SeenAnswer (inr IllegalState), None); nothing; nothing; config9 second9; (SeenTruth true, None);
          config9 third9; nothing; (SeenTruth true, None); (SeenTruth false, None); (SeenTruth false, None); config9 third9; nothing] /\
  iterator_run (trying tried9) [OpBegin; OpNext; OpNext; OpNext; OpStep 0; OpGet 0] (new_iterable solver9) = None /\
  option_map (map (map brief)) (for_each_times (trying tried9) 4 3 solver9) = Some [[first9; second9; third9]; [third9]; [third9]].
Proof. exact iterator_example. Qed.
Example C92_no_configuration_example :
  reached solver10 /\ decides (trying []) (s_vars solver10) (s_asserted solver10) /\ (forall a, ~ satisfies a (s_asserted solver10)) /\
  iterator_run (trying []) [OpBegin; OpEnded 0; OpGet 0; OpAsk; OpStep 0; OpEnded 0] (new_iterable solver10) =
    Some [SeenNothing; SeenTruth false; SeenConfig (inr Unsat); SeenAnswer (inl false); SeenNothing; SeenTruth true] /\
  for_each_times (trying []) 1 2 solver10 = Some [[inr Unsat]; [inr Unsat]].
Proof. exact no_configuration_example. Qed.

(** That a second loop over the same iterable lists the configurations again is false. *)
Theorem C92_second_loop_refuted : exists check s fuel a b,
  reached s /\ decides check (s_vars s) (s_asserted s) /\ for_each_times check fuel 2 s = Some [a; b] /\ List.length a = 3 /\ List.length b = 1.
Proof. exact second_loop_refuted. Qed.
Print Assumptions C92_second_loop_refuted.

(** That an iterator moved before it is looked at stands at the second configuration is false. *)
Theorem C92_early_step_refuted : exists check s c,
  reached s /\ decides check (s_vars s) (s_asserted s) /\
  iterator_run check [OpBegin; OpGet 0] (new_iterable s) = Some [SeenNothing; SeenConfig (inl c)] /\
  iterator_run check [OpBegin; OpStep 0; OpGet 0] (new_iterable s) = Some [SeenNothing; SeenNothing; SeenConfig (inl c)].
Proof. exact early_step_refuted. Qed.
Print Assumptions C92_early_step_refuted.

(** That an iterator shows the same configuration until it is moved is false. *)
Theorem C92_own_place_refuted : exists check s c d n,
  reached s /\ decides check (s_vars s) (s_asserted s) /\
  iterator_run check [OpBegin; OpCopy 0; OpGet 0; OpStep 1; OpGet 0] (new_iterable s) =
    Some [SeenNothing; SeenNothing; SeenConfig (inl c); SeenNothing; SeenConfig (inl d)] /\ option_value c n <> option_value d n.
Proof. exact own_place_refuted. Qed.
Print Assumptions C92_own_place_refuted.
