(** Examples for undoing modifications. *)
From Coq Require Import List ZArith Arith Bool Ascii String Permutation Lia.
From Verif Require Import Text TextProofs ConstraintModel ConstraintSpec SourceRangeModel FeatureTreeModel FeatureTreeSpec FeatureTreeExamples FeatureTransactionModel FeatureEditSpec FeatureTransactionExamples FeatureBuildExamples FeatureRecursiveExamples FeatureMergeExamples
  FeatureHistoryProofs UndoSpec UndoFinal.
Import ListNotations.
Local Open Scope string_scope.
Local Open Scope list_scope.

Definition after (o : op) (w : world) : world := match exec order o w with Some (w1, _) => w1 | None => w end.
(** A new feature x below c, with a source range, and a taken out of its group and put below D. *)
Definition done88 : list op := [OAddFeature (bin7 "x") (Some 5); OAddLocation (ByName (T "x")) (at_file "l"); OAddChild (ByPtr 3) (ByName (T "a")); OSetCommit (T "c9")].
Definition undone88 : list op := [OSetCommit []; OAddChild (ByPtr 4) (ByName (T "a")); ORemoveLocation (ByName (T "x")) (at_file "l"); ORemoveFeature (ByName (T "x")) true].
Definition world1 : world := after (OAddFeature (bin7 "x") (Some 5)) (heap1, model1).
Definition world2 : world := after (OAddLocation (ByName (T "x")) (at_file "l")) world1.
Definition world3 : world := after (OAddChild (ByPtr 3) (ByName (T "a"))) world2.
Definition world4 : world := after (OSetCommit (T "c9")) world3.
Lemma undo_example : represents heap1 model1 tree1 /\ undoable order (heap1, model1) done88 undone88.
Proof.
  split; [exact represents1|]. unfold done88. change undone88 with ((((([] ++ [OSetCommit []]) ++ [OAddChild (ByPtr 4) (ByName (T "a"))]) ++ [ORemoveLocation (ByName (T "x")) (at_file "l")]) ++ [ORemoveFeature (ByName (T "x")) true])).
  apply undoable_step with (w1 := world1); [apply (undo_add heap1 model1 (bin7 "x") (Some 5) true); [discriminate|reflexivity|]| |].
  { intros q X. injection X as <-. vm_compute. tauto. }
  { vm_compute. reflexivity. }
  assert (P : forall w : world, w = (fst w, snd w)) by (intros [a b]; reflexivity).
  rewrite (P world1). apply undoable_step with (w1 := world2).
  { apply (undo_location _ _ _ _ 6 (bin7 "x")); [vm_compute; reflexivity|vm_compute; tauto|vm_compute; reflexivity|constructor]. }
  { rewrite <- P. vm_compute. reflexivity. }
  rewrite (P world2). apply undoable_step with (w1 := world3).
  { apply (undo_move _ _ _ _ _ 3 1 4 (Cell (binary "a") (Some 4) []) (Cell (NRelationship RAlternative) (Some 0) [2; 1]) [2]); try (vm_compute; reflexivity); try (vm_compute; tauto).
    intros X. climb X. }
  { rewrite <- P. vm_compute. reflexivity. }
  rewrite (P world3). apply undoable_step with (w1 := world4).
  { change (OSetCommit []) with (OSetCommit (m_commit (snd world3))). apply undo_commit. }
  { rewrite <- P. vm_compute. reflexivity. }
  apply undoable_nil.
Qed.
Lemma undo_shown : (let* (w, e) := run order done88 (heap1, model1) in let* a := h_cells (fst w) 1 in Some (map fst (m_features (snd w)), n_parent a, m_commit (snd w), e)) =
    Some ([T "root"; T "B"; T "c"; T "a"; T "D"; T "x"], Some 3, T "c9", None).
Proof. vm_compute. reflexivity. Qed.

(** ** What is not undone *)
(** The feature had an equal range of another revision: that one is removed. *)
Definition old_range : source_range := SourceRange (T "f") None None Necessary None (Some (Revisions (T "1") None)).
Definition new_range : source_range := SourceRange (T "f") None None Necessary None (Some (Revisions (T "2") None)).
Definition tree90 : tree := Node 0 (rootd "r") [Node 1 (feature_in FBinary "a" false [old_range]) []; Node 2 (binary "b") []].
Definition heap90 : heap := plant 3 tree90.
Definition model90 : fmodel := model_of tree90.
Lemma represents90 : represents heap90 model90 tree90.
Proof. planted. Qed.
Lemma range_exchanged : exists ord h m t s i f l w1 h2 f2, is_order ord /\ represents h m t /\ get_feature m s = Some i /\ feature_at h i = Some f /\
  exec ord (OAddLocation (ByName s) l) (h, m) = Some (w1, None) /\ exec ord (ORemoveLocation (ByName s) l) w1 = Some ((h2, m), None) /\ feature_at h2 i = Some f2 /\ f_locations f2 <> f_locations f.
Proof.
  exists order, heap90, model90, tree90, (T "a"), 1, (new_feature FBinary (T "a") false [old_range] []), new_range, (after (OAddLocation (ByName (T "a")) new_range) (heap90, model90)),
    (fst (after (ORemoveLocation (ByName (T "a")) new_range) (after (OAddLocation (ByName (T "a")) new_range) (heap90, model90)))), (new_feature FBinary (T "a") false [new_range] []).
  split; [exact order_ok|]. split; [exact represents90|]. split; [reflexivity|]. split; [reflexivity|]. split; [vm_compute; reflexivity|]. split; [vm_compute; reflexivity|]. split; [vm_compute; reflexivity|]. discriminate.
Qed.
(** Moved back, a child is the last one. *)
Lemma child_last : exists ord h m t p c q h1 h2 cq cq2, is_order ord /\ represents h m t /\ ~ reaches h p c /\ (exists cc, h_cells h c = Some cc /\ n_parent cc = Some q) /\
  exec ord (OAddChild (ByPtr p) (ByPtr c)) (h, m) = Some ((h1, m), None) /\ exec ord (OAddChild (ByPtr q) (ByPtr c)) (h1, m) = Some ((h2, m), None) /\
  h_cells h q = Some cq /\ h_cells h2 q = Some cq2 /\ n_edges cq2 <> n_edges cq.
Proof.
  exists order, heap90, model90, tree90, 2, 1, 0, (fst (after (OAddChild (ByPtr 2) (ByPtr 1)) (heap90, model90))),
    (fst (after (OAddChild (ByPtr 0) (ByPtr 1)) (after (OAddChild (ByPtr 2) (ByPtr 1)) (heap90, model90)))), (Cell (rootd "r") None [1; 2]), (Cell (rootd "r") None [2; 1]).
  split; [exact order_ok|]. split; [exact represents90|]. split; [intros X; climb X|]. split; [eexists; split; [reflexivity|reflexivity]|].
  split; [vm_compute; reflexivity|]. split; [vm_compute; reflexivity|]. split; [reflexivity|]. split; [vm_compute; reflexivity|]. discriminate.
Qed.
(** A root that comes back has lost its source ranges. *)
Definition tree91 : tree := Node 0 (feature_in FRoot "r" false [at_file "l"]) [Node 1 (binary "a") []].
Definition heap91 : heap := plant 2 tree91.
Definition model91 : fmodel := model_of tree91.
Lemma represents91 : represents heap91 model91 tree91.
Proof. planted. Qed.
Lemma root_emptied : exists ord h m t s u r f w1 h2 m2 r2 f2, is_order ord /\ represents h m t /\ get_feature m s = None /\ m_root m = Some r /\ feature_at h r = Some f /\ f_name f = u /\
  exec ord (OSetRoot s) (h, m) = Some (w1, None) /\ exec ord (OSetRoot u) w1 = Some ((h2, m2), None) /\ m_root m2 = Some r2 /\ feature_at h2 r2 = Some f2 /\ f_locations f2 <> f_locations f.
Proof.
  exists order, heap91, model91, tree91, (T "n"), (T "r"), 0, (new_feature FRoot (T "r") false [at_file "l"] []), (after (OSetRoot (T "n")) (heap91, model91)),
    (fst (after (OSetRoot (T "r")) (after (OSetRoot (T "n")) (heap91, model91)))), (snd (after (OSetRoot (T "r")) (after (OSetRoot (T "n")) (heap91, model91)))), 3, (root_feature (T "r")).
  split; [exact order_ok|]. split; [exact represents91|]. split; [reflexivity|]. split; [reflexivity|]. split; [reflexivity|]. split; [reflexivity|]. split; [vm_compute; reflexivity|]. split; [vm_compute; reflexivity|].
  split; [vm_compute; reflexivity|]. split; [vm_compute; reflexivity|]. discriminate.
Qed.
