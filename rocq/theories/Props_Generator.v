(** Property C56: the configuration generator writes what the document describes. *)
From Coq Require Import List ZArith NArith Arith Bool Ascii String.
From Verif Require Import Text ConstraintModel ConstraintSpec FeatureTreeModel FeatureTreeSpec FeatureTransactionModel FeatureTransactionSpec FeatureEditSpec FeatureTransactionExamples FeatureBuildSpec FeatureBuildExamples
  SxfmModel SxfmExamples XmlModel XmlSpec XmlExamples ConfigurationModel SolverModel SolverSpec SolverExamples SampleModel SampleSpec DescribedSpec DescribedExamples GeneratorModel GeneratorSpec GeneratorFinal GeneratorExamples.
Import ListNotations.
Local Open Scope string_scope.
Local Open Scope list_scope.
Local Open Scope nat_scope.

(** All configurations: the run fails if the description has none; else the output file has one
    entry per configuration with the flags of the selected features in the order of the tree. *)
Theorem C56_all_configurations_are_written :
  forall ord sci step cwd check h w c e cs d, is_order ord -> heap_ok h -> g_file c <> [] -> documents w (g_file c) = Document e -> XmlModel.valid e = true -> stands sci step cwd e cs -> describes cs d ->
  settled cs d (found cs d) -> g_choice c = GenAll ->
  exists h' m', read_xml ord sci step cwd h e = SxDone (h', Some m') /\ exists N, forall fuel, N <= fuel -> exists s, SolverModel.load ord fuel h' m' = Some s /\
    (decides check (s_vars s) (s_asserted s) -> exists M, forall fuel', M <= fuel' -> let r := generate ord sci step cwd check fuel fuel' h w c in
      ((forall a, ~ configures cs d (found cs d) a) /\ r = Exit 1 None) \/
      exists assigns ns es, assigns <> [] /\ each_once d (configures cs d (found cs d)) assigns /\ listing cs d (fst d) ns /\ (NoDup ns /\ forall s, In s ns <-> taken d s) /\
        entries (fun a fs => collected (emits d a) ns fs) assigns es /\ delivered w c es r).
Proof. exact generated_all. Qed.
Print Assumptions C56_all_configurations_are_written.

(** Sample sets: one entry per row of the table, the last row first. *)
Theorem C56_samples_are_written :
  forall ord sci step cwd check fuel fuel' h w c e cs d tab, is_order ord -> heap_ok h -> g_file c <> [] -> documents w (g_file c) = Document e -> XmlModel.valid e = true -> stands sci step cwd e cs -> describes cs d ->
  g_choice c = GenSample -> g_csv c <> [] -> tables w (g_csv c) = Some tab ->
  let r := generate ord sci step cwd check fuel fuel' h w c in
  (t_rows tab = [] /\ r = Exit 0 None) \/
  exists ns es, listing cs d (fst d) ns /\ (NoDup ns /\ forall s, In s ns <-> taken d s) /\ entries (fun row fs => collected (cell_emits d (t_columns tab) row) ns fs) (rev (t_rows tab)) es /\ delivered w c es r.
Proof. exact generated_sample. Qed.
Print Assumptions C56_samples_are_written.

(** No file name, no valid document, a refused document, no sampling, no table: exit code 1 and
    no output. *)
Theorem C56_bad_input_is_refused :
  forall ord sci step cwd check fuel fuel' h w c,
  g_file c = [] \/ (forall e, documents w (g_file c) = Document e -> XmlModel.valid e = false) \/
  (exists e, documents w (g_file c) = Document e /\ XmlModel.valid e = true /\ read_xml ord sci step cwd h e = SxRefused) \/
  (exists e r, documents w (g_file c) = Document e /\ read_xml ord sci step cwd h e = SxDone r /\ (g_choice c = GenStrategy \/ (g_choice c = GenSample /\ g_csv c = []))) ->
  generate ord sci step cwd check fuel fuel' h w c = Exit 1 None.
Proof. exact generate_refuses. Qed.
Print Assumptions C56_bad_input_is_refused.

(** A run that ends does so with exit code 1 and no output, or with exit code 0 for a valid
    document. *)
Theorem C56_success_needs_a_valid_document :
  forall ord sci step cwd check fuel fuel' h w c code out, generate ord sci step cwd check fuel fuel' h w c = Exit code out ->
  (code = 1 /\ out = None) \/
  (code = 0 /\ g_file c <> [] /\ (exists e cs, documents w (g_file c) = Document e /\ XmlModel.valid e = true /\ stands sci step cwd e cs) /\
   g_choice c <> GenStrategy /\ (g_choice c = GenSample -> g_csv c <> []) /\ (out <> None -> g_out c <> [] /\ can_write w (g_out c) = true)).
Proof. exact generate_succeeds. Qed.
Print Assumptions C56_success_needs_a_valid_document.

(** Only verified files are loaded, and nothing unreadable is verified. *)
Theorem C56_only_verified_files_are_loaded :
  forall ord sci step cwd w h p,
    (forall r, load_model ord sci step cwd w h p = SxDone r -> verify_model w p = true) /\
    (verify_model w p = false -> load_model ord sci step cwd w h p = SxRefused) /\
    (documents w p = Missing \/ documents w p = Malformed -> verify_model w p = false).
Proof. exact verified_loaded. Qed.
Print Assumptions C56_only_verified_files_are_loaded.

(** A numeric feature is written as its output string followed by its value: false for negative
    values, which are written as the solver prints them. *)
Theorem C56_values_are_written_as_numbers_refuted :
  exists ord sci step cwd check fuel fuel' h w c e cs d es a f, is_order ord /\ heap_ok h /\ documents w (g_file c) = Document e /\ XmlModel.valid e = true /\ stands sci step cwd e cs /\ describes cs d /\ settled cs d (found cs d) /\ solves ord sci step cwd check fuel h e /\
    generate ord sci step cwd check fuel fuel' h w c = Exit 0 (Some es) /\ configures cs d (found cs d) a /\ In f (snd d) /\ numeric_kind (f_kind f) = true /\ f_output f <> [] /\
    forall k v x y, In (k, v) es -> v <> x ++ (f_output f ++ print_Z (a_int a (f_name f))) ++ y.
Proof. exact negative_garbled. Qed.
Print Assumptions C56_values_are_written_as_numbers_refuted.

(** Different configurations have different entries: false if features have no output strings. *)
Theorem C56_configurations_are_told_apart_refuted :
  exists ord sci step cwd check fuel fuel' h w c e cs d es k k' v, is_order ord /\ heap_ok h /\ documents w (g_file c) = Document e /\ XmlModel.valid e = true /\ stands sci step cwd e cs /\ describes cs d /\ settled cs d (found cs d) /\ solves ord sci step cwd check fuel h e /\
    generate ord sci step cwd check fuel fuel' h w c = Exit 0 (Some es) /\ k <> k' /\ In (k, v) es /\ In (k', v) es.
Proof. exact entries_alike. Qed.
Print Assumptions C56_configurations_are_told_apart_refuted.

(** The document of C55 and a table with two rows; failing runs. *)
Example C56_example :
  is_order order /\ heap_ok heap0 /\ documents files17 (T "m.xml") = Document doc16 /\ XmlModel.valid doc16 = true /\ stands no_sci no_step (T "/tmp") doc16 calls16 /\ describes calls16 decl16 /\ settled calls16 decl16 (found calls16 decl16) /\
  decides (trying tried17) (s_vars solver17) (s_asserted solver17) /\
  run17 all17 = Exit 0 (Some (texts [("0", "[""-n1"", ""-a"", ""-x""]"); ("1", "[""-n1"", ""-a""]"); ("2", "[""-n(- 2)"", ""-a""]"); ("3", "[""-n1"", ""-x""]"); ("4", "[""-n1""]"); ("5", "[""-n(- 2)""]")])) /\
  run17 sample17 = Exit 0 (Some (texts [("0", "[""-n-3""]"); ("1", "[""-n7"", ""-a""]")])) /\
  run17 (Command (T "bad.xml") GenAll [] (T "o.yml")) = Exit 1 None /\ run17 (Command (T "m.xml") GenStrategy [] (T "o.yml")) = Exit 1 None /\
  run17 (Command (T "m.xml") GenSample [] (T "o.yml")) = Exit 1 None /\ run17 (Command (T "m.xml") GenAll [] (T "elsewhere")) = Exit 1 None /\ run17 (Command (T "m.xml") GenAll [] []) = Exit 0 None.
Proof. exact generator_example. Qed.
Example C56_listing_example : listing calls16 decl16 (T "root") (map T ["root"; "n"; "p"; "a"; "b"; "x"]).
Proof. exact listing_example. Qed.
