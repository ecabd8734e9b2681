(** Examples for cloning and the model builder. *)
From Coq Require Import List ZArith Arith Bool Ascii String Permutation Lia.
From Verif Require Import Text TextProofs ConstraintModel ConstraintSpec SourceRangeModel FeatureTreeModel FeatureTreeSpec FeatureTreeProofs FeatureTreeExamples
  FeatureTreeFinal FeatureTransactionModel FeatureEditSpec FeatureTransactionSpec FeatureEditProofs FeatureTransactionExamples FeatureBuildSpec FeatureCloneSpec.
Import ListNotations.
Local Open Scope string_scope.
Local Open Scope list_scope.

Definition heap0 : heap := Heap (fun _ => None) 0.
Lemma heap0_ok : heap_ok heap0.
Proof. intros i _. reflexivity. Qed.

(** Root r with a group of a and b, the numeric feature n below a, and c below n. *)
Definition num6 : feature := new_feature (FNumeric (VRange 0 9) (Some (fun x => Some (x + 1)%Z))) (T "n") true [] (T "-n").
Definition tree6 : tree :=
  Node 0 (rootd "r") [Node 1 (NRelationship RAlternative) [Node 2 (binary "a") [Node 4 (NFeature num6) [Node 5 (binary "c") []]]; Node 3 (binary "b") []]].
Definition heap6 : heap := plant 6 tree6.
Definition model6 : fmodel := FModel (T "m") (Some 0) (T "p") [] (named tree6)
  [MConstraint 100 (CBin BExcludes (CFeat (Ref 3)) (CFeat (Own (T "c"))))] [] [] [1].
Lemma represents6 : represents heap6 model6 tree6.
Proof.
  assert (represents heap6 (model_of tree6) tree6) as R by planted. destruct R; constructor; assumption.
Qed.
Lemma connected6 : all_connected heap6 model6.
Proof.
  intros e [<-|[]] r [<-|[<-|[]]].
  - exists (T "b"), 3. split; reflexivity.
  - exists (T "c"), 5. split; reflexivity.
Qed.
Lemma free6 : root_name_free model6.
Proof. intros i E. vm_compute in E. discriminate E. Qed.

Lemma clone_example :
  represents heap6 model6 tree6 /\ all_connected heap6 model6 /\ root_name_free model6 /\
  exists h' m', clone_model order (@rev _) heap6 model6 = Some (h', m') /\
    map fst (m_features m') = [T "b"; T "c"; T "n"; T "a"; T "r"] /\ get_feature m' (T "r") = m_root m' /\
    (let* i := get_feature m' (T "n") in let* f := feature_at h' i in Some (f_output f, f_optional f)) = Some ([], true) /\
    (let* i := get_feature model6 (T "n") in let* f := feature_at heap6 i in Some (f_output f, f_optional f)) = Some (T "-n", true).
Proof.
  split; [exact represents6|]. split; [exact connected6|]. split; [exact free6|]. eexists _, _. split; [vm_compute; reflexivity|].
  repeat split; vm_compute; reflexivity.
Qed.

(** The feature "root" below the root r. *)
Definition tree8 : tree := Node 0 (rootd "r") [Node 1 (binary "root") []].
Lemma represents8 : represents (plant 2 tree8) (model_of tree8) tree8.
Proof. planted. Qed.
Lemma clone_order_refuted :
  exists h m t h' m', represents h m t /\ all_connected h m /\
    clone_model (fun l => l) (fun l => l) h m = Some (h', m') /\ clone_model (fun l => l) (@rev _) h m = None.
Proof.
  exists (plant 2 tree8), (model_of tree8), tree8. eexists _, _. split; [exact represents8|]. split; [intros e []|].
  split; vm_compute; reflexivity.
Qed.

Definition bin7 (s : string) : feature := new_feature FBinary (T s) true [] [].
Definition calls7 : list bcall :=
  [BEdge (T "a") (T "b"); BFeature (bin7 "a"); BFeature (bin7 "b"); BName (T "model"); BRelationship ROr (T "a"); BFeature (bin7 "c"); BRoot (T "r");
   BEdge (T "r") (T "c"); BEdge (T "a") (T "c"); BConstraint KBoolean (CBin BImplies (CFeat (Own (T "b"))) (CFeat (Own (T "c"))))].
Definition decl7 : decl := (T "r", [bin7 "a"; bin7 "b"; bin7 "c"]).
Ltac names := repeat (first [left; reflexivity|right]).
Lemma describes7 : describes calls7 decl7.
Proof.
  constructor.
  - unfold calls7. apply dec_other; [exact I|]. apply dec_feature; [vm_compute; intuition congruence|].
    apply dec_feature; [vm_compute; intuition congruence|]. apply dec_other; [exact I|]. apply dec_other; [exact I|].
    apply dec_feature; [vm_compute; intuition congruence|]. apply dec_root; [vm_compute; intuition congruence|].
    do 3 (apply dec_other; [exact I|]). apply dec_nil.
  - intros c X. repeat (destruct X as [<-|X]; [first [exact I|discriminate]|]). destruct X.
  - intros c X. repeat (destruct X as [<-|X]; [first [exact I|vm_compute; intuition congruence]|]). destruct X.
  - intros p s X. repeat (destruct X as [E|X]; [first [discriminate E|injection E as <- <-; vm_compute; discriminate]|]). destruct X.
  - intros f X. assert (leads (fun s => last_edge calls7 s (fst decl7)) (fst decl7) (T "a")) as A.
    { apply leads_up. change (leads (fun s => last_edge calls7 s (fst decl7)) (fst decl7) (fst decl7)). apply leads_root. }
    destruct X as [<-|[<-|[<-|[]]]]; [exact A| |]; apply leads_up; exact A.
  - intros c X. repeat (destruct X as [<-|X]; [first [exact I|vm_compute; tauto|idtac]|]); [|destruct X].
    intros r [<-|[<-|[]]]; eexists; (split; [reflexivity|vm_compute; tauto]).
  - repeat constructor. intros [].
Qed.
Lemma build_example :
  heap_ok heap0 /\ describes calls7 decl7 /\
  exists h' m', build_calls order heap0 calls7 = Some (h', Some m') /\
    map fst (m_features m') = [T "a"; T "b"; T "c"; T "r"] /\ m_name m' = T "model" /\
    (let* i := get_feature m' (T "b") in let* q := parent_feature h' i in let* p := q in name_at h' p) = Some (T "a").
Proof.
  split; [exact heap0_ok|]. split; [exact describes7|]. eexists _, _. split; [vm_compute; reflexivity|]. repeat split; vm_compute; reflexivity.
Qed.
Lemma build_failing_examples :
  clashes decl7 (BFeature (bin7 "b")) /\ ~ taken decl7 (T "z") /\
  (exists h, build_calls order heap0 (calls7 ++ [BFeature (bin7 "b")]) = Some (h, None)) /\
  (exists h, build_calls order heap0 (calls7 ++ [BEdge (T "z") (T "b")]) = Some (h, None)) /\
  (exists h, build_calls order heap0 (calls7 ++ [BConstraint KBoolean (CFeat (Own (T "z")))]) = Some (h, None)) /\
  build_calls order heap0 (calls7 ++ [BRelationship ROr (T "z")]) = None.
Proof.
  split; [vm_compute; tauto|]. split; [vm_compute; intuition congruence|].
  split; [eexists; vm_compute; reflexivity|]. split; [eexists; vm_compute; reflexivity|]. split; [eexists; vm_compute; reflexivity|]. vm_compute. reflexivity.
Qed.
