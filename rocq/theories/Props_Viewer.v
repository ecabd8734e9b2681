(** C62: what the viewer shows. *)
From Coq Require Import List ZArith NArith Arith Bool Ascii String Permutation.
From Verif Require Import Text TextProofs FeatureTreeModel FeatureTreeSpec FeatureTransactionModel FeatureEditSpec FeatureTransactionExamples FeatureBuildSpec FeatureBuildExamples SxfmModel SxfmExamples XmlModel XmlSpec XmlExamples
  GeneratorModel GraphvizExamples DumpSpec ViewerModel ViewerSpec ViewerFinal ViewerExamples.
Import ListNotations.
Local Open Scope string_scope.
Local Open Scope list_scope.

(** With --dump an entry is printed for every described feature. *)
Theorem C62_dumps_tell_the_description : forall ord sci step map_order ptr this cwd, is_order ord -> (forall l, Permutation (map_order l) l) ->
  forall y c h e cs d, heap_ok h -> v_file c <> [] -> documents (y_files y) (v_file c) = Document e -> XmlModel.valid e = true -> stands sci step cwd e cs -> describes cs d ->
  v_dump c = true -> exists es, view ord sci step map_order ptr this cwd y c h = Viewed 0 (dumped es) None NotShown /\ tells_all cs d es.
Proof. exact dumping. Qed.
Print Assumptions C62_dumps_tell_the_description.

(** With -o the drawing of the description is put into the file. *)
Theorem C62_files_picture_the_description : forall ord sci step map_order ptr this cwd, is_order ord -> (forall l, Permutation (map_order l) l) ->
  forall y c h e cs d, heap_ok h -> v_file c <> [] -> documents (y_files y) (v_file c) = Document e -> XmlModel.valid e = true -> stands sci step cwd e cs -> describes cs d ->
  v_dump c = false -> v_out c <> [] -> can_write (y_files y) (v_out c) = true ->
  exists g, view ord sci step map_order ptr this cwd y c h = Viewed 0 [] (Some (v_out c, g)) NotShown /\ pictured ptr this cs d g.
Proof. exact writing. Qed.
Print Assumptions C62_files_picture_the_description.

(** Otherwise it is put into a temporary file, which is opened. *)
Theorem C62_viewers_picture_the_description : forall ord sci step map_order ptr this cwd, is_order ord -> (forall l, Permutation (map_order l) l) ->
  forall y c h e cs d, heap_ok h -> v_file c <> [] -> documents (y_files y) (v_file c) = Document e -> XmlModel.valid e = true -> stands sci step cwd e cs -> describes cs d ->
  forall f, v_dump c = false -> v_out c = [] -> y_temporary y = Some f ->
  exists g s, view ord sci step map_order ptr this cwd y c h = Viewed 0 [] (Some (f, g)) s /\ pictured ptr this cs d g /\
    (forall q, v_viewer c <> [] -> y_programs y (v_viewer c) = Some q -> s = ShownBy q) /\ (v_viewer c = [] \/ y_programs y (v_viewer c) = None -> s = ShownSomehow).
Proof. exact displaying. Qed.
Print Assumptions C62_viewers_picture_the_description.

(** Documents that describe a model fail only for lack of a temporary file, *)
Theorem C62_descriptions_are_shown : forall ord sci step map_order ptr this cwd, is_order ord -> (forall l, Permutation (map_order l) l) ->
  forall y c h e cs d, heap_ok h -> v_file c <> [] -> documents (y_files y) (v_file c) = Document e -> XmlModel.valid e = true -> stands sci step cwd e cs -> describes cs d ->
  (exists out file s, view ord sci step map_order ptr this cwd y c h = Viewed 1 out file s) <-> v_dump c = false /\ v_out c = [] /\ y_temporary y = None.
Proof. exact failing. Qed.
Print Assumptions C62_descriptions_are_shown.
(** and what is not a valid document is refused. *)
Theorem C62_other_files_are_refused : forall ord sci step map_order ptr this cwd y c h, v_file c = [] \/ (forall e, documents (y_files y) (v_file c) = Document e -> XmlModel.valid e = false) ->
  view ord sci step map_order ptr this cwd y c h = Viewed 1 [] None NotShown.
Proof. exact refusing. Qed.
Print Assumptions C62_other_files_are_refused.

(** Nothing is written but the requested file or a temporary one. *)
Theorem C62_nothing_else_is_written : forall ord sci step map_order ptr this cwd y c h code out f g s, view ord sci step map_order ptr this cwd y c h = Viewed code out (Some (f, g)) s ->
  code = 0 /\ out = [] /\ v_dump c = false /\ ((v_out c <> [] /\ f = v_out c /\ s = NotShown) \/ (v_out c = [] /\ y_temporary y = Some f /\ s <> NotShown)).
Proof. exact writes. Qed.
Print Assumptions C62_nothing_else_is_written.

(** The option --verify makes no difference, *)
Theorem C62_verify_makes_no_difference : forall ord sci step map_order ptr this cwd y c h b,
  view ord sci step map_order ptr this cwd y (ViewCommand (v_file c) b (v_viewer c) (v_out c) (v_dump c)) h = view ord sci step map_order ptr this cwd y c h.
Proof. exact verifying. Qed.
Print Assumptions C62_verify_makes_no_difference.
(** though it is to verify and exit. *)
Theorem C62_verify_exits_refuted : exists ord sci step map_order ptr this cwd y c h e f g q, documents (y_files y) (v_file c) = Document e /\ XmlModel.valid e = true /\ v_verify c = true /\
  view ord sci step map_order ptr this cwd y c h = Viewed 0 [] (Some (f, g)) (ShownBy q).
Proof. exact verify_goes_on. Qed.
Print Assumptions C62_verify_exits_refuted.
(** That a file was not written does not show in the exit code. *)
Theorem C62_exit_codes_report_failures_refuted : exists ord sci step map_order ptr this cwd y c h, v_file c <> [] /\ v_dump c = false /\ v_out c <> [] /\
  view ord sci step map_order ptr this cwd y c h = Viewed 0 [] None NotShown.
Proof. exact unwritable. Qed.
Print Assumptions C62_exit_codes_report_failures_refuted.

(** Hypotheses are met: root with the alternatives a and b, and n below a. *)
Example C62_example :
  is_order order /\ (forall l : list (text * nid), Permutation l l) /\ heap_ok heap0 /\ documents files34 (T "m.xml") = Document doc1 /\ XmlModel.valid doc1 = true /\ stands no_sci no_step (T "/tmp") doc1 calls1 /\ describes calls1 decl1 /\
  can_write files34 (T "o.dot") = true /\ brief (run34 None (file34 "o.dot")) = Some (0, Some (T "o.dot"), NotShown) /\
  [List.length (mentioning calls1 (T "a")); List.length (mentioning calls1 (T "b")); List.length (mentioning calls1 (T "n"))] = [4; 3; 2].
Proof. destruct viewer_example as (A & B & C & D & E & F & G & H & _ & I & _). exact (conj A (conj B (conj C (conj D (conj E (conj F (conj G (conj H (conj I mentions_example))))))))). Qed.
