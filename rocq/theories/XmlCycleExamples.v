(** Example for saving and loading several times. *)
From Coq Require Import List ZArith NArith Arith Bool Ascii String Permutation Lia.
From Verif Require Import Text TextProofs NumSpec ConstraintModel ConstraintParserModel ConstraintSpec ConstraintRoundTrip SourceRangeModel FeatureTreeModel FeatureTreeSpec FeatureTreeExamples FeatureTransactionModel
  FeatureTransactionSpec FeatureEditSpec FeatureTransactionExamples FeatureCloneSpec FeatureBuildSpec FeatureBuildExamples SxfmModel SxfmExamples XmlModel XmlWriterModel XmlSpec XmlExamples XmlTripSpec XmlTripFinal XmlTripExamples XmlCycleSpec XmlCycleFinal.
Import ListNotations.
Local Open Scope string_scope.
Local Open Scope list_scope.
Local Open Scope nat_scope.

Fixpoint times (n : nat) : option (heap * fmodel) :=
  match n with
  | O => Some (heap11, model11)
  | S n => let* (h, m) := times n in let* doc := write_xml order h m in outcome (read_xml (fun l => l) no_sci no_step (T "/tmp") heap0 doc)
  end.
Lemma times_cycles n : forall h m, times n = Some (h, m) -> cycles n heap11 model11 h m.
Proof.
  induction n as [|n IH]; cbn [times]; intros h m E; [injection E as <- <-; constructor|]. destruct (times n) as [(h1, m1)|]; [|discriminate]. cbn [bind] in E. destruct (write_xml order h1 m1) as [doc|] eqn:Ew; [|discriminate]. cbn [bind] in E.
  destruct (read_xml (fun l => l) no_sci no_step (T "/tmp") heap0 doc) as [(h2, [m2|])| | | |] eqn:Er; try discriminate. cbn [outcome] in E. injection E as <- <-.
  exact (cycles_more n heap11 model11 h1 m1 order (fun l => l) no_sci no_step (T "/tmp") heap0 doc h2 m2 (IH h1 m1 eq_refl) order_ok kept_order no_sci_ok heap0_ok Ew Er).
Qed.
(** The group, the values and the constraints. *)
Definition seen (n : nat) :=
  let* (h, m) := times n in let* i := get_feature m (T "n") in let* g := feature_at h i in
  let* a := get_feature m (T "a") in let* c := h_cells h a in let* q := n_parent c in let* d := h_cells h q in
  let* b := map_option (constraint_text h) (m_boolean m) in let* x := map_option (fun x => constraint_text h (x_con x)) (m_mixed m) in
  Some (n_data d, f_kind g, map U b, map U x).
Lemma cycle_example :
  represents heap11 model11 tree11 /\ enrolled heap11 model11 /\ all_resolved model11 /\ writable heap11 model11 /\
  (exists h m, times 1 = Some (h, m) /\ cycles 1 heap11 model11 h m) /\ (exists h m, times 3 = Some (h, m) /\ cycles 3 heap11 model11 h m) /\
  seen 0 = Some (NRelationship ROr, FNumeric (VList [1; 4294967301; 4294967302]%Z) None, ["(n => a)"; "(a | b)"], ["(b => !(n > 2))"]) /\
  seen 1 = Some (NRelationship RAlternative, FNumeric (VList [1; 5; 4294967302]%Z) None, ["(a => !b)"; "(b => !a)"; "(n => a)"; "(a | b)"], ["(b => !(n > 2))"]) /\
  seen 3 = seen 1.
Proof.
  split; [exact represents11|]. split; [exact enrolled11|]. split; [exact resolved11|]. split; [exact writable11|].
  assert (X : forall n, match times n with Some _ => true | None => false end = true -> exists h m, times n = Some (h, m) /\ cycles n heap11 model11 h m) by (intros n N; destruct (times n) as [(h, m)|] eqn:E; [exists h, m; split; [reflexivity|exact (times_cycles n h m E)]|discriminate]).
  split; [apply X; vm_compute; reflexivity|]. split; [apply X; vm_compute; reflexivity|]. split; [vm_compute; reflexivity|]. split; vm_compute; reflexivity.
Qed.
