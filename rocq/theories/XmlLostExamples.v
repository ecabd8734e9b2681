(** Examples for documents whose root has a parent. *)
From Coq Require Import List ZArith NArith Arith Bool Ascii String Permutation Lia.
From Verif Require Import Text TextProofs LlvmInt ConstraintModel ConstraintParserModel ConstraintSpec SourceRangeModel StepFunctionModel FeatureTreeModel FeatureTreeSpec FeatureTransactionModel
  FeatureEditSpec FeatureTransactionExamples FeatureBuildSpec FeatureBuildExamples SxfmModel SxfmExamples XmlModel XmlWriterModel XmlSpec XmlReadProofs XmlFinal XmlExamples
  OutcomeSpec OutcomeProofs OutcomeFinal OutcomeExamples XmlOutcomeSpec XmlOutcomeProofs XmlOutcomeExamples XmlLostSpec.
Import ListNotations.
Local Open Scope string_scope.
Local Open Scope list_scope.
Local Open Scope nat_scope.

Lemma above_accepted : acceptable above_calls (T "root", [two "x"; two "y"]).
Proof.
  constructor.
  - unfold above_calls, default_root. cbn [app edge_of].
    repeat first [apply dec_nil | apply dec_same | apply dec_feature; [intros [Y|Y]; cbn in Y; intuition discriminate|cbn] | apply dec_other; [exact Logic.I|]].
  - intros c I. among_calls; try exact Logic.I; (split; [taken_name|split; [taken_name|intros Y; discriminate Y]]).
  - intros c I. among_calls; exact Logic.I.
Qed.
Lemma above_lost : lost above_calls (T "root", [two "x"; two "y"]).
Proof.
  split; [exists (T "x"); cbn; tauto|].
  assert (N : forall s, leads (fun t => last_edge above_calls t (T "root")) (T "root") s -> s = T "x" \/ s = T "y" -> False).
  { intros s L. induction L as [|s L IH]; intros [E|E]; try discriminate; subst s; apply IH; vm_compute; auto. }
  intros s Ts L. destruct Ts as [->|Ts]; [discriminate|]. exfalso. cbn in Ts. destruct Ts as [<-|[<-|[]]]; exact (N _ L ltac:(auto)).
Qed.

(** The root below a, and a below the root. *)
Definition doc_loop : xml := vm [elem "binaryOptions" [with_parent "root" "a"; with_parent "a" "root"; with_parent "b" "a"]].
Definition loop_calls : list bcall := [BName (T "m"); BPath (T "/tmp"); BCommit []; BEdge (T "a") (T "root"); BRoot (T "root")] ++ edge_of "a" "root" ++ edge_of "b" "a".
Lemma loop_stands : stands no_sci no_step (T "/tmp") doc_loop loop_calls.
Proof. apply read_vm_iff; vm_compute; reflexivity. Qed.
Lemma loop_accepted : acceptable loop_calls (T "root", [two "a"; two "b"]).
Proof.
  constructor.
  - unfold loop_calls, default_root. cbn [app edge_of].
    repeat first [apply dec_nil | apply dec_same | apply dec_feature; [intros [Y|Y]; cbn in Y; intuition discriminate|cbn] | apply dec_other; [exact Logic.I|]].
  - intros c I. among_calls; try exact Logic.I; (split; [taken_name|split; [taken_name|intros Y; discriminate Y]]).
  - intros c I. among_calls; exact Logic.I.
Qed.
Lemma loop_found : ~ lost loop_calls (T "root", [two "a"; two "b"]).
Proof. intros [_ L]. apply (L (T "a")); [right; left; reflexivity|apply leads_up; vm_compute; apply leads_root|reflexivity]. Qed.
Lemma lost_examples :
  (valid doc_above = true /\ stands no_sci no_step (T "/tmp") doc_above above_calls /\ acceptable above_calls (T "root", [two "x"; two "y"]) /\ lost above_calls (T "root", [two "x"; two "y"])) /\
  (valid doc_loop = true /\ stands no_sci no_step (T "/tmp") doc_loop loop_calls /\ acceptable loop_calls (T "root", [two "a"; two "b"]) /\ ~ lost loop_calls (T "root", [two "a"; two "b"]) /\
   exists h' m', read_xml order no_sci no_step (T "/tmp") heap0 doc_loop = SxDone (h', Some m')).
Proof.
  split; [split; [vm_compute; reflexivity|]; split; [exact above_stands|]; split; [exact above_accepted|exact above_lost]|].
  split; [vm_compute; reflexivity|]. split; [exact loop_stands|]. split; [exact loop_accepted|]. split; [exact loop_found|]. eexists _, _. vm_compute. reflexivity.
Qed.
