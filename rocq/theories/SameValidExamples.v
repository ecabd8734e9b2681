(** Examples for the configurations of models loaded again. *)
From Coq Require Import List ZArith NArith Arith Bool Ascii String Permutation Lia.
From Verif Require Import Text TextProofs NumSpec ConstraintModel ConstraintParserModel ConstraintSpec ConstraintRoundTrip SourceRangeModel FeatureTreeModel FeatureTreeSpec FeatureTreeExamples FeatureTransactionModel
  FeatureTransactionSpec FeatureEditSpec FeatureTransactionExamples FeatureCloneSpec FeatureBuildSpec FeatureBuildExamples SxfmModel SxfmExamples XmlModel XmlWriterModel XmlSpec XmlExamples XmlTripSpec XmlTripFinal XmlTripExamples
  XmlCycleSpec XmlCycleFinal ConfigurationModel SolverModel SolverSpec SolverExamples ValidSpec ValidProofs ValidTripProofs ValidFinal ValidExamples.
Import ListNotations.
Local Open Scope string_scope.
Local Open Scope list_scope.
Local Open Scope nat_scope.

Fixpoint reloaded (n : nat) (h : heap) (m : fmodel) : option (heap * fmodel) :=
  match n with
  | O => Some (h, m)
  | S n => let* (h, m) := reloaded n h m in let* doc := write_xml order h m in SxfmExamples.outcome (read_xml (fun l => l) no_sci no_step (T "/tmp") heap0 doc)
  end.
Lemma reloaded_cycles n h0 m0 : forall h m, reloaded n h0 m0 = Some (h, m) -> cycles n h0 m0 h m.
Proof.
  induction n as [|n IH]; cbn [reloaded]; intros h m E; [injection E as <- <-; constructor|]. destruct (reloaded n h0 m0) as [(h1, m1)|]; [|discriminate]. cbn [bind] in E. destruct (write_xml order h1 m1) as [doc|] eqn:Ew; [|discriminate]. cbn [bind] in E.
  destruct (read_xml (fun l => l) no_sci no_step (T "/tmp") heap0 doc) as [(h2, [m2|])| | | |] eqn:Er; try discriminate. cbn [SxfmExamples.outcome] in E. injection E as <- <-.
  exact (cycles_more n h0 m0 h1 m1 order (fun l => l) no_sci no_step (T "/tmp") heap0 doc h2 m2 (IH h1 m1 eq_refl) order_ok kept_order no_sci_ok heap0_ok Ew Er).
Qed.
Definition members15 (w : option (heap * fmodel)) : option (list (list (option string))) :=
  let* (h, m) := w in let* s := SolverModel.load order 9 h m in let* r := get_all (trying tried13) 20 s in
  match r with inl l => Some (map (fun c => map (fun n => option_map U (option_value c (T n))) ["a"; "b"]) l) | inr _ => None end.
Lemma same_valid_example :
  represents heap13 model13 tree13 /\ enrolled heap13 model13 /\ all_resolved model13 /\ writable heap13 model13 /\
  (exists h1 m1 t1 h2 m2 t2, reloaded 1 heap13 model13 = Some (h1, m1) /\ reloaded 2 heap13 model13 = Some (h2, m2) /\ cycles 1 heap13 model13 h1 m1 /\ cycles 2 heap13 model13 h2 m2 /\
    represents h1 m1 t1 /\ represents h2 m2 t2 /\ all_resolved m1 /\ all_resolved m2 /\ same_model h1 m1 h2 m2 /\ supported h1 m1 /\ no_xor m1) /\
  listing13 (reloaded 2 heap13 model13) = Some [[Some "true"; Some "false"; Some "true"; Some "1"]; [Some "true"; Some "false"; Some "true"; Some "2"]; [Some "true"; Some "false"; Some "false"; Some "1"]; [Some "true"; Some "false"; Some "false"; Some "2"]] /\
  members15 (reloaded 0 heap15 model15) = Some [[Some "true"; Some "true"]; [Some "true"; Some "false"]; [Some "false"; Some "true"]] /\
  members15 (reloaded 1 heap15 model15) = Some [[Some "true"; Some "false"]; [Some "false"; Some "true"]] /\
  members15 (reloaded 2 heap15 model15) = members15 (reloaded 1 heap15 model15).
Proof.
  split; [exact represents13|]. split; [exact enrolled13|]. split; [exact resolved13|]. split; [exact writable13|]. split.
  - assert (X : forall n, match reloaded n heap13 model13 with Some _ => true | None => false end = true -> exists h m, reloaded n heap13 model13 = Some (h, m) /\ cycles n heap13 model13 h m)
      by (intros n N; destruct (reloaded n heap13 model13) as [(h, m)|] eqn:E; [exists h, m; split; [reflexivity|exact (reloaded_cycles n _ _ h m E)]|discriminate]).
    destruct (X 1) as (h1 & m1 & E1 & C1); [vm_compute; reflexivity|]. destruct (X 2) as (h2 & m2 & E2 & C2); [vm_compute; reflexivity|].
    destruct (cycle_states 1 _ _ _ h1 m1 represents13 enrolled13 resolved13 writable13 C1) as ((t1 & R1) & _ & Re1 & _ & B1).
    destruct (cycle_states 2 _ _ _ h2 m2 represents13 enrolled13 resolved13 writable13 C2) as ((t2 & R2) & _ & Re2 & _).
    assert (Mb : model_back heap13 model13 h1 m1) by (apply B1; discriminate).
    exists h1, m1, t1, h2, m2, t2. split; [exact E1|]. split; [exact E2|]. split; [exact C1|]. split; [exact C2|]. split; [exact R1|]. split; [exact R2|]. split; [exact Re1|]. split; [exact Re2|].
    split; [exact (cycles_same _ _ _ 0 1 h1 m1 h2 m2 represents13 enrolled13 resolved13 writable13 C1 C2)|].
    split; [exact (trip_supported _ _ _ _ _ represents13 Mb resolved13 Re1 supported13 neat13 listed13 narrow13 proper13 exclusive13)|].
    exact (trip_no_xor _ _ _ _ _ represents13 Mb resolved13 Re1 supported13 neat13 listed13 narrow13 proper13 exclusive13 no_xor13).
  - split; [vm_compute; reflexivity|]. split; [vm_compute; reflexivity|]. split; vm_compute; reflexivity.
Qed.
