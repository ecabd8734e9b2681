(** Runs of the viewer. *)
From Coq Require Import List ZArith NArith Arith Bool Ascii String Permutation.
From Verif Require Import Text TextProofs FeatureTreeModel FeatureTreeSpec FeatureTransactionModel FeatureEditSpec FeatureTransactionExamples FeatureBuildSpec FeatureBuildExamples SxfmModel SxfmExamples XmlModel XmlSpec XmlExamples
  GeneratorModel GraphvizExamples ViewerModel ViewerSpec ViewerFinal.
Import ListNotations.
Local Open Scope string_scope.
Local Open Scope list_scope.

(** The document of [XmlExamples] in m.xml, and a file that can be written. *)
Definition files34 : files := Files (fun s => if text_eqb s (T "m.xml") then Document doc1 else if text_eqb s (T "bad.xml") then Malformed else Missing) (fun _ => None) (fun s => text_eqb s (T "o.dot")).
Definition system34 (tmp : option text) : system := System files34 tmp (fun s => if text_eqb s (T "xdot") then Some (T "/usr/bin/xdot") else None).
Definition run34 (tmp : option text) (c : view_command) : viewing := view order no_sci no_step (fun l => l) ptr30 (T "0x1") (T "/tmp") (system34 tmp) c heap0.
Definition dump34 : view_command := ViewCommand (T "m.xml") false [] [] true.
Definition file34 (f : string) : view_command := ViewCommand (T "m.xml") false [] (T f) false.
Definition open34 (v : bool) (p : string) : view_command := ViewCommand (T "m.xml") v (T p) [] false.
Definition lines (l : list string) : text := flat_map (fun s => T s ++ [ascii_of_nat 10]) l.
Definition brief (v : viewing) : option (nat * option text * display) := match v with Viewed n _ f s => Some (n, option_map fst f, s) | ViewStuck => None end.

Lemma viewer_example :
  is_order order /\ (forall l : list (text * nid), Permutation l l) /\ heap_ok heap0 /\ documents files34 (T "m.xml") = Document doc1 /\ XmlModel.valid doc1 = true /\ stands no_sci no_step (T "/tmp") doc1 calls1 /\ describes calls1 decl1 /\
  can_write files34 (T "o.dot") = true /\
  run34 None dump34 = Viewed 0 (lines ["{"; "  name: ""root"","; "  optional: false,"; "  children: []"; "}";
    "{"; "  name: ""a"","; "  optional: false,"; "  locations: [a.c:3:4–3:9],"; "  parent: root,"; "  children: [n,]"; "}";
    "{"; "  name: ""b"","; "  optional: false,"; "  parent: root,"; "  children: []"; "}";
    "{"; "  name: ""n"","; "  optional: true,"; "  parent: a,"; "  children: [],"; "  values: [1,-2,3,]"; "}"; ""]) None NotShown /\
  brief (run34 None (file34 "o.dot")) = Some (0, Some (T "o.dot"), NotShown) /\
  brief (run34 (Some (T "/tmp/x.dot")) (open34 false "xdot")) = Some (0, Some (T "/tmp/x.dot"), ShownBy (T "/usr/bin/xdot")) /\
  brief (run34 (Some (T "/tmp/x.dot")) (open34 false "dotty")) = Some (0, Some (T "/tmp/x.dot"), ShownSomehow) /\
  brief (run34 None (open34 false "xdot")) = Some (1, None, NotShown) /\ brief (run34 None (ViewCommand (T "bad.xml") false [] [] true)) = Some (1, None, NotShown).
Proof.
  split; [exact order_ok|]. split; [intros l; apply Permutation_refl|]. split; [exact heap0_ok|]. split; [reflexivity|]. split; [vm_compute; reflexivity|]. split; [exact stands1|]. split; [exact describes1|]. split; [reflexivity|].
  split; [vm_compute; reflexivity|]. split; [vm_compute; reflexivity|]. split; [vm_compute; reflexivity|]. split; [vm_compute; reflexivity|]. split; vm_compute; reflexivity.
Qed.
Lemma mentions_example : [List.length (mentioning calls1 (T "a")); List.length (mentioning calls1 (T "b")); List.length (mentioning calls1 (T "n"))] = [4; 3; 2].
Proof. vm_compute. reflexivity. Qed.

Definition opened34 : text := match run34 (Some (T "/tmp/x.dot")) (open34 true "xdot") with Viewed _ _ (Some (_, g)) _ => g | _ => [] end.
(** With --verify the graph is opened all the same. *)
Lemma verify_goes_on : exists ord sci step map_order ptr this cwd y c h e f g q, documents (y_files y) (v_file c) = Document e /\ XmlModel.valid e = true /\ v_verify c = true /\
  view ord sci step map_order ptr this cwd y c h = Viewed 0 [] (Some (f, g)) (ShownBy q).
Proof.
  exists order, no_sci, no_step, (fun l => l), ptr30, (T "0x1"), (T "/tmp"), (system34 (Some (T "/tmp/x.dot"))), (open34 true "xdot"), heap0, doc1, (T "/tmp/x.dot"), opened34, (T "/usr/bin/xdot").
  split; [reflexivity|]. split; [vm_compute; reflexivity|]. split; [reflexivity|]. vm_compute. reflexivity.
Qed.
(** Nothing is written to a file that cannot be written, and the exit code is 0. *)
Lemma unwritable : exists ord sci step map_order ptr this cwd y c h, v_file c <> [] /\ v_dump c = false /\ v_out c <> [] /\ view ord sci step map_order ptr this cwd y c h = Viewed 0 [] None NotShown.
Proof.
  exists order, no_sci, no_step, (fun l => l), ptr30, (T "0x1"), (T "/tmp"), (system34 None), (file34 "/proc/x"), heap0. split; [discriminate|]. split; [reflexivity|]. split; [discriminate|]. vm_compute. reflexivity.
Qed.
