(** Property C91: builders and readers that are used again. *)
From Coq Require Import List ZArith Bool Ascii String.
From Verif Require Import Text ConstraintModel FeatureTreeModel FeatureTransactionModel FeatureTransactionExamples FeatureBuildExamples SxfmModel SxfmExamples XmlModel XmlExamples
  ReuseModel ReuseSpec ReuseFinal ReuseExamples.
Import ListNotations.

(** ** C91 *)
(** What happens to a builder in any sequence of calls and buildings is decided by the calls
    before the first building: if it gives a model, nothing more can be built; if it fails, all
    later ones fail. *)
Theorem C91_builders_build_once :
  forall ord h us,
  match after_first us with
  | None => exists h', use_builder ord h us = Some (h', [])
  | Some r =>
      match build_calls ord h (first_calls us) with
      | None => use_builder ord h us = None
      | Some (h', Some m) => (Forall unchecked r /\ builds r = 0 -> use_builder ord h us = Some (h', [Some m])) /\ (~ (Forall unchecked r /\ builds r = 0) -> use_builder ord h us = None)
      | Some (h', None) => (Forall unchecked r -> use_builder ord h us = Some (h', repeat None (S (builds r)))) /\ (~ Forall unchecked r -> use_builder ord h us = None)
      end
  end.
Proof. exact builders_once. Qed.
Print Assumptions C91_builders_build_once.
Example C91_example :
  after_first (map UCall calls7 ++ [UBuild; late_constraint]) = Some [late_constraint] /\ first_calls (map UCall calls7 ++ [UBuild; late_constraint]) = calls7 /\
  made (use_builder order heap0 (map UCall calls7 ++ [UBuild; late_constraint])) = Some [true] /\
  made (use_builder order heap0 (map UCall calls7 ++ [UBuild; UBuild])) = None /\
  made (use_builder order heap0 (map UCall calls7 ++ [UBuild; UCall (BName (T "x"))])) = None /\
  made (use_builder order heap0 (map UCall (calls7 ++ [BEdge (T "z") (T "b")]) ++ [UBuild; late_constraint; UBuild; UBuild])) = Some [false; false; false].
Proof. exact builder_example. Qed.

(** So at most one building gives a model. *)
Theorem C91_at_most_one_model :
  forall ord h us h' ms, use_builder ord h us = Some (h', ms) ->
  forall i j m m', nth_error ms i = Some (Some m) -> nth_error ms j = Some (Some m') -> i = j.
Proof. exact one_model. Qed.
Print Assumptions C91_at_most_one_model.

(** A new reader reads a document as said in C52 and C68. *)
Theorem C91_first_reading :
  forall ord sci step cwd h e,
  let (h1, r) := new_reader h in
  match read_with ord sci step cwd h1 r e with
  | SxDone (h', m, _) => read_xml ord sci step cwd h e = SxDone (h', m)
  | SxRefused => read_xml ord sci step cwd h e = SxRefused
  | SxThrown => read_xml ord sci step cwd h e = SxThrown
  | SxUndefined => read_xml ord sci step cwd h e = SxUndefined
  | SxEndless => read_xml ord sci step cwd h e = SxEndless
  end.
Proof. exact first_reading. Qed.
Print Assumptions C91_first_reading.

(** A document a new reader refuses is refused by a reader that has begun, whatever it has read
    of this or another document. *)
Theorem C91_refused_stays_refused :
  forall ord sci step cwd h e r h2, begun h (fst (new_reader h)) r ->
  read_with ord sci step cwd (fst (new_reader h)) (snd (new_reader h)) e = SxRefused -> read_with ord sci step cwd h2 r e = SxRefused.
Proof. exact refused_again. Qed.
Print Assumptions C91_refused_stays_refused.
Example C91_refused_example : begun heap0 (fst (new_reader heap0)) partly /\
  read_with order no_sci no_step (T "/tmp") (fst (new_reader heap0)) (snd (new_reader heap0)) doc2 = SxRefused.
Proof. exact reader_example. Qed.

(** A reader that came to building, with or without success, fails an assertion when it is
    asked again, unless the document is not valid. *)
Theorem C91_readers_read_once :
  forall ord sci step cwd h r e h' m r' e' h2, read_with ord sci step cwd h r e = SxDone (h', m, r') ->
  read_with ord sci step cwd h2 r' e' = if valid e' then SxUndefined else SxRefused.
Proof. exact built_once. Qed.
Print Assumptions C91_readers_read_once.

(** It is not the case that a reader can be asked twice for the model of its document. *)
Theorem C91_reading_twice_refuted : exists ord sci step cwd h e h' m r, valid e = true /\
  read_with ord sci step cwd (fst (new_reader h)) (snd (new_reader h)) e = SxDone (h', Some m, r) /\ read_with ord sci step cwd h' r e = SxUndefined.
Proof. exact read_twice_refuted. Qed.
Print Assumptions C91_reading_twice_refuted.
(** Nor that a constraint handed to a builder after building is reported: with it the
    building would have failed. *)
Theorem C91_late_constraints_refuted : exists ord h us c h' ms, use_builder ord h (us ++ [UBuild; UCall c]) = Some (h', ms) /\ use_builder ord h (us ++ [UBuild]) = Some (h', ms) /\
  made (use_builder ord h (us ++ [UCall c; UBuild])) = Some [false].
Proof. exact late_lost_refuted. Qed.
Print Assumptions C91_late_constraints_refuted.
