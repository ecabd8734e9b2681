(** Builders and readers used again. *)
From Coq Require Import List ZArith Bool Ascii String.
From Verif Require Import Text TextProofs ConstraintModel SourceRangeModel FeatureTreeModel FeatureTreeSpec FeatureTransactionModel FeatureEditSpec FeatureTransactionExamples FeatureBuildSpec FeatureBuildExamples
  SxfmModel SxfmExamples XmlModel XmlExamples ReuseModel ReuseSpec ReuseFinal.
Import ListNotations.
Local Open Scope string_scope.
Local Open Scope list_scope.

Definition made (r : option (heap * list (option fmodel))) : option (list bool) :=
  match r with Some (_, ms) => Some (map (fun m => match m with Some _ => true | None => false end) ms) | None => None end.
(** A second building, or a feature after the first, is not possible; a constraint after
    the first is lost.  After a failure every building fails. *)
Definition late_constraint : use := UCall (BConstraint KBoolean (CFeat (Own (T "a")))).
Lemma builder_example :
  after_first (map UCall calls7 ++ [UBuild; late_constraint]) = Some [late_constraint] /\ first_calls (map UCall calls7 ++ [UBuild; late_constraint]) = calls7 /\
  made (use_builder order heap0 (map UCall calls7 ++ [UBuild; late_constraint])) = Some [true] /\
  made (use_builder order heap0 (map UCall calls7 ++ [UBuild; UBuild])) = None /\
  made (use_builder order heap0 (map UCall calls7 ++ [UBuild; UCall (BName (T "x"))])) = None /\
  made (use_builder order heap0 (map UCall (calls7 ++ [BEdge (T "z") (T "b")]) ++ [UBuild; late_constraint; UBuild; UBuild])) = Some [false; false; false].
Proof. repeat split; vm_compute; reflexivity. Qed.

(** A document that names two parents is refused, whatever was called before. *)
Definition partly : reader := match fold_left (fun o c => let* b := o in builder_call b c) [BName (T "m"); BEdge (T "root") (T "b")] (Some (snd (builder_start heap0))) with
  | Some b => Reader b [BName (T "m"); BEdge (T "root") (T "b")] | None => snd (new_reader heap0) end.
Lemma reader_example : begun heap0 (fst (new_reader heap0)) partly /\
  read_with order no_sci no_step (T "/tmp") (fst (new_reader heap0)) (snd (new_reader heap0)) doc2 = SxRefused.
Proof.
  split; [|vm_compute; reflexivity]. unfold partly. destruct (fold_left _ _ _) as [b|] eqn:E; [|vm_compute in E; discriminate]. exact (begun_at heap0 _ b E).
Qed.
Lemma read_twice_refuted : exists ord sci step cwd h e h' m r, valid e = true /\
  read_with ord sci step cwd (fst (new_reader h)) (snd (new_reader h)) e = SxDone (h', Some m, r) /\ read_with ord sci step cwd h' r e = SxUndefined.
Proof.
  assert (X : match read_with order no_sci no_step (T "/tmp") (fst (new_reader heap0)) (snd (new_reader heap0)) doc1 with SxDone (_, Some _, _) => true | _ => false end = true) by (vm_compute; reflexivity).
  assert (V : valid doc1 = true) by (vm_compute; reflexivity).
  destruct (read_with order no_sci no_step (T "/tmp") (fst (new_reader heap0)) (snd (new_reader heap0)) doc1) as [((h', [m|]), r)| | | |] eqn:E; try discriminate X.
  exists order, no_sci, no_step, (T "/tmp"), heap0, doc1, h', m, r. split; [exact V|]. split; [exact E|]. rewrite (built_once _ _ _ _ _ _ _ _ _ _ doc1 h' E), V. reflexivity.
Qed.
(** Calls after building are taken and lost. *)
Lemma first_of cs r : first_calls (map UCall cs ++ UBuild :: r) = cs /\ after_first (map UCall cs ++ UBuild :: r) = Some r.
Proof. induction cs as [|c cs IH]; [split; reflexivity|]. cbn. destruct IH as (-> & ->). auto. Qed.
Lemma built7 : match build_calls order heap0 calls7 with Some (_, Some _) => true | _ => false end = true.
Proof. vm_compute. reflexivity. Qed.
Lemma too_late : made (use_builder order heap0 (map UCall calls7 ++ [UCall (BConstraint KBoolean (CFeat (Own (T "z")))); UBuild])) = Some [false].
Proof. vm_compute. reflexivity. Qed.
Lemma late_lost_refuted : exists ord h us c h' ms, use_builder ord h (us ++ [UBuild; UCall c]) = Some (h', ms) /\ use_builder ord h (us ++ [UBuild]) = Some (h', ms) /\
  made (use_builder ord h (us ++ [UCall c; UBuild])) = Some [false].
Proof.
  pose proof built7 as B. destruct (build_calls order heap0 calls7) as [(h', [m'|])|] eqn:E; try discriminate B. clear B.
  exists order, heap0, (map UCall calls7), (BConstraint KBoolean (CFeat (Own (T "z")))), h', [Some m'].
  pose proof (builders_once order heap0 (map UCall calls7 ++ [UBuild; UCall (BConstraint KBoolean (CFeat (Own (T "z"))))])) as X.
  pose proof (builders_once order heap0 (map UCall calls7 ++ [UBuild])) as Y.
  rewrite (proj1 (first_of _ _)), (proj2 (first_of _ _)), E in X. rewrite (proj1 (first_of _ _)), (proj2 (first_of _ _)), E in Y. split; [apply (proj1 X); split; [repeat constructor|reflexivity]|]. split; [apply (proj1 Y); split; [constructor|reflexivity]|]. exact too_late.
Qed.
