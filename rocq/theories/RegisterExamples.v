(** Examples for the constraints that features know. *)
From Coq Require Import List ZArith NArith Arith Bool Ascii String Permutation Lia.
From Verif Require GraphvizModel.
From Verif Require Import Text TextProofs LlvmInt ConstraintModel ConstraintParserModel ConstraintSpec SourceRangeModel StepFunctionModel FeatureTreeModel FeatureTreeSpec FeatureTransactionModel
  FeatureTransactionExamples FeatureBuildSpec FeatureBuildExamples SxfmModel SxfmExamples XmlModel XmlSpec XmlExamples FeatureEditSpec DescribedFinal RegisterSpec RegisterProofs RegisterFinal.
Import ListNotations.
Local Open Scope string_scope.
Local Open Scope list_scope.
Local Open Scope nat_scope.

(** The options a and b exclude each other, n implies a and is mentioned once more. *)
Notation read1 := (read_xml order no_sci no_step (T "/tmp") heap0 doc1).
Definition resolved_b (m : fmodel) : bool :=
  forallb (fun c => forallb (fun r => match r with Own _ => false | Ref i => existsb (fun e => match get_feature m (fst e) with Some j => Nat.eqb i j | None => false end) (m_features m) end) (leaves (c_expr c))) (all_constraints m).
Lemma resolved_b_ok m : resolved_b m = true -> all_resolved m.
Proof.
  intros H c r Ic Ir. unfold resolved_b in H. rewrite forallb_forall in H. specialize (H c Ic). rewrite forallb_forall in H. specialize (H r Ir). destruct r as [s|i]; [discriminate|].
  apply existsb_exists in H. destruct H as (e & _ & H). destruct (get_feature m (fst e)) as [j|] eqn:G; [|discriminate]. apply Nat.eqb_eq in H. subst j. exists (fst e), i. auto.
Qed.
Definition drop : mtx := Mtx true [ORemoveFeature (ByName (T "n")) false].
Definition knows (h : heap) (m : fmodel) (s : string) : option (nat * nat * nat) :=
  match get_feature m (T s) with
  | Some i => match feature_at h i with Some f => Some (List.length (f_constraints f), List.length (f_excludes f), List.length (f_implications f)) | None => None end
  | None => None
  end.
Definition lost_b (w : world) : bool :=
  existsb (fun c => existsb (fun r => match r with Ref i => match feature_at (fst w) i with None => true | Some _ => false end | Own _ => false end) (leaves (c_expr c))) (all_constraints (snd w)).
Definition result1 : bool :=
  match read1 with
  | SxDone (h, Some m) =>
      resolved_b m &&
      (match knows h m "a" with Some (4, 2, 1) => true | _ => false end) && (match knows h m "n" with Some (2, 0, 1) => true | _ => false end) && (match knows h m "root" with Some (0, 0, 0) => true | _ => false end) &&
      match commit_modify order drop (h, m) with
      | Some (_, w, None) => lost_b w && (match knows (fst w) (snd w) "a" with Some (4, 2, 1) => true | _ => false end) && (match clone_model order (fun l => l) (fst w) (snd w) with None => true | Some _ => false end) && match GraphvizModel.write_graph (fun _ => []) [] (fst w) (snd w) [] with None => true | Some _ => false end
      | _ => false
      end
  | _ => false
  end.
Lemma result1_true : result1 = true.
Proof. vm_compute. reflexivity. Qed.
Lemma knows_some h m s a b c : knows h m s = Some (a, b, c) ->
  exists i f, get_feature m (T s) = Some i /\ feature_at h i = Some f /\ List.length (f_constraints f) = a /\ List.length (f_excludes f) = b /\ List.length (f_implications f) = c.
Proof. unfold knows. destruct (get_feature m (T s)) as [i|]; [|discriminate]. destruct (feature_at h i) as [f|] eqn:F; [|discriminate]. intros E. injection E as <- <- <-. exists i, f. auto. Qed.
Lemma knows_test h m s a b c : match knows h m s with Some (x, y, z) => Nat.eqb x a && Nat.eqb y b && Nat.eqb z c | None => false end = true -> knows h m s = Some (a, b, c).
Proof. destruct (knows h m s) as [((x & y) & z)|]; [|discriminate]. rewrite !andb_true_iff, !Nat.eqb_eq. intros ((-> & ->) & ->). reflexivity. Qed.
Lemma drop_fresh : forall o, In o (t_queue drop) -> fresh_op o.
Proof. intros o [<-|[]]. exact I. Qed.

Ltac known := match goal with H : match knows ?h ?m ?s with _ => _ end = true |- _ => destruct (knows h m s) as [((? & ?) & ?)|] eqn:?; [|discriminate H]; repeat match type of H with match ?n with _ => _ end = true => destruct n; try discriminate H end; clear H end.
Lemma example61 : exists h m, obtained order h m /\ all_resolved m /\ (exists t, represents h m t) /\
  (exists i f, get_feature m (T "a") = Some i /\ feature_at h i = Some f /\ List.length (f_constraints f) = 4 /\ List.length (f_excludes f) = 2 /\ List.length (f_implications f) = 1) /\
  (exists i f, get_feature m (T "n") = Some i /\ feature_at h i = Some f /\ List.length (f_constraints f) = 2 /\ List.length (f_excludes f) = 0 /\ List.length (f_implications f) = 1) /\
  (forall o, In o (t_queue drop) -> fresh_op o) /\ (forall k c, ~ In (OAddConstraint k c) (t_queue drop)) /\ exists t w, commit_modify order drop (h, m) = Some (t, w, None).
Proof.
  pose proof result1_true as Hr. unfold result1 in Hr. destruct read1 as [(h & [m|])| | | |] eqn:E; try discriminate Hr. exists h, m. rewrite !andb_true_iff in Hr. destruct Hr as ((((A & B) & C) & D) & G).
  split; [exact (ob_xml order no_sci no_step (T "/tmp") heap0 doc1 h m heap0_ok E)|]. split; [exact (resolved_b_ok m A)|]. split.
  { destruct (read_described order no_sci no_step order_ok (T "/tmp") heap0 doc1 calls1 decl1 heap0_ok ltac:(vm_compute; reflexivity) stands1 describes1) as (h' & m' & t & cs' & Er & R & _).
    rewrite E in Er. assert (Heq : forall (a b : heap * option fmodel), SxDone a = SxDone b -> a = b) by (intros a b X; injection X; auto). apply Heq in Er. injection Er as -> ->. exists t. exact R. }
  split; [apply knows_some; clear C D; known; reflexivity|]. split; [apply knows_some; clear B D; known; reflexivity|]. split; [exact drop_fresh|]. split; [intros k c [X|[]]; discriminate X|].
  destruct (commit_modify order drop (h, m)) as [((t & w) & [e|])|]; try discriminate G. exists t, w. reflexivity.
Qed.
(** The removed feature is still mentioned, and the model can be neither cloned nor drawn. *)
Lemma removed_features_stay_mentioned : exists ord h m r t w, obtained ord h m /\ all_resolved m /\ commit_modify ord (Mtx true [ORemoveFeature r false]) (h, m) = Some (t, w, None) /\
  (exists c i, In c (all_constraints (snd w)) /\ In (Ref i) (leaves (c_expr c)) /\ feature_at (fst w) i = None) /\ clone_model ord (fun l => l) (fst w) (snd w) = None /\ GraphvizModel.write_graph (fun _ => []) [] (fst w) (snd w) [] = None.
Proof.
  pose proof result1_true as Hr. unfold result1 in Hr. destruct read1 as [(h & [m|])| | | |] eqn:E; try discriminate Hr. rewrite !andb_true_iff in Hr. destruct Hr as ((((A & B) & C) & D) & G).
  destruct (commit_modify order drop (h, m)) as [((t & w) & [e|])|] eqn:K; try discriminate G. rewrite !andb_true_iff in G. destruct G as (((G1 & _) & G2) & G3).
  exists order, h, m, (ByName (T "n")), t, w. split; [exact (ob_xml order no_sci no_step (T "/tmp") heap0 doc1 h m heap0_ok E)|]. split; [exact (resolved_b_ok m A)|]. split; [exact K|]. split.
  - unfold lost_b in G1. apply existsb_exists in G1. destruct G1 as (c & Ic & G1). apply existsb_exists in G1. destruct G1 as (r & Ir & G1). destruct r as [s|i]; [discriminate G1|]. exists c, i. destruct (feature_at (fst w) i); [discriminate G1|]. auto.
  - split; [destruct (clone_model order (fun l => l) (fst w) (snd w)); [discriminate G2|reflexivity]|]. destruct (GraphvizModel.write_graph (fun _ => []) [] (fst w) (snd w) []); [discriminate G3|reflexivity].
Qed.
