(** Examples for the effect of modifications on valid configurations. *)
From Coq Require Import List ZArith Arith Bool Ascii String Permutation Lia.
From Verif Require Import Text TextProofs ConstraintModel ConstraintSpec SourceRangeModel ConfigurationModel FeatureTreeModel FeatureTreeSpec FeatureTreeProofs FeatureTreeExamples FeatureTransactionModel FeatureTransactionSpec FeatureEditSpec FeatureEditProofs FeatureOpsProofs FeatureDataProofs FeatureBuildSpec
  FeatureHistoryProofs FeatureTransactionFinal FeatureTransactionExamples SolverModel SolverSpec SolverLoadProofs GeneratorProofs XmlTripWrite XmlModel XmlSpec EditValidSpec EditValidProofs EditValidOps EditValidFinal EditValidData.
Import ListNotations.
Local Open Scope string_scope.
Local Open Scope list_scope.

(** The first tree with the constraint that D excludes a. *)
Definition model35 : fmodel := with_boolean model1 [MConstraint 9 (CBin BExcludes (CFeat (Ref 3)) (CFeat (Ref 1)))].
Lemma represents35 : represents heap1 model35 tree1.
Proof. destruct represents1. constructor; assumption. Qed.
Lemma resolved35 : all_resolved model35.
Proof. intros c r [<-|[]] [<-|[<-|[]]]; [exists (T "D"), 3|exists (T "a"), 1]; split; reflexivity. Qed.
(** Everything but a is selected. *)
Definition config35 : assignment := Assignment (fun n => negb (text_eqb n (T "a"))) (fun _ => 0%Z) (fun _ => 0%Z).
Ltac obeys :=
  repeat match goal with
  | |- rules _ (Node _ _ _) => apply rules_node; split
  | |- rules_at _ (Node _ (NRelationship _) _) => exact I
  | |- rules_at _ (Node _ (NFeature _) _) => apply rules_at_feature; split; [split; [intros X; first [discriminate X|reflexivity]|intros ? ? X; discriminate X]|]
  | |- forall k, In k _ -> _ => let k := fresh in intros k; cbn [In]; intuition subst; cbn [rdata binary]
  | |- rules _ _ => unfold binary, rootd
  end.
Lemma rules35 : rules config35 tree1.
Proof.
  unfold tree1, binary, rootd. obeys.
  - split; [intros v g [<-|[<-|[]]] E; injection E as <-; intros _ _; reflexivity|]. intros _. exists (T "B"). split; [left; reflexivity|]. split; [reflexivity|]. intros s [<-|[<-|[]]] E; [reflexivity|discriminate E].
  - split; intros _; reflexivity.
  - split; intros _; reflexivity.
Qed.
Lemma valid35 : SolverSpec.valid heap1 model35 config35.
Proof.
  apply (valid_rules heap1 model35 tree1 represents35). split; [exact rules35|]. split; [intros c [<-|[]]; reflexivity|intros x []].
Qed.
Lemma subtree_top1 : subtree tree1 tree1.
Proof. constructor. Qed.
Lemma subtree_group : subtree (Node 4 (NRelationship RAlternative) [Node 2 (binary "B") [Node 5 (binary "c") []]; Node 1 (binary "a") []]) tree1.
Proof. eapply sub_kid; [left; reflexivity|]. constructor. Qed.
Lemma apart35 : ~ reaches heap1 3 5.
Proof. intros Re. apply reaches_climbs with (k := 5) in Re. vm_compute in Re. discriminate Re. Qed.
Lemma unmentioned35 is : ~ In 1 is -> ~ In 3 is -> unmentioned model35 is.
Proof. intros A B c i [<-|[]] [E|[E|[]]]; injection E as <-; assumption. Qed.
Lemma stored35 : stored heap1 model35 3 (new_feature FBinary (T "D") false [] []).
Proof. split; [cbn; tauto|reflexivity]. Qed.
Lemma added35 : exists h' m', exec order (OAddFeature feature_x (Some 3)) (heap1, model35) = Some ((h', m'), None).
Proof. eexists _, _. vm_compute. reflexivity. Qed.
Lemma removed35 : exists h' m', exec order (ORemoveFeature (ByName (T "c")) false) (heap1, model35) = Some ((h', m'), None).
Proof. eexists _, _. vm_compute. reflexivity. Qed.
Lemma member35 : exists h' m', exec order (ORemoveFeature (ByName (T "B")) true) (heap1, model35) = Some ((h', m'), None).
Proof. eexists _, _. vm_compute. reflexivity. Qed.
Lemma moved35 : exists h' m', exec order (OAddChild (ByName (T "D")) (ByName (T "c"))) (heap1, model35) = Some ((h', m'), None).
Proof. eexists _, _. vm_compute. reflexivity. Qed.
Lemma grouped35 : exists h1 m1 h2 m2, exec order (OAddRelationship ROr (ByName (T "B"))) (heap1, model35) = Some ((h1, m1), None) /\ exec order (ORemoveRelationship (ByName (T "B"))) (h1, m1) = Some ((h2, m2), None).
Proof. eexists _, _, _, _. split; vm_compute; reflexivity. Qed.
Lemma rooted35 : exists h' m', exec order (OSetRoot (T "new")) (heap1, model35) = Some ((h', m'), None).
Proof. eexists _, _. vm_compute. reflexivity. Qed.
(** c implies D, and the same with numbers: c + D > 1. *)
Definition implies35 : cexpr cref := CBin BImplies (CFeat (Own (T "c"))) (CFeat (Own (T "D"))).
Definition sum35 : cexpr cref := CBin BGreater (CBin BAdd (CFeat (Own (T "c"))) (CFeat (Own (T "D")))) (CInt 1).
Lemma names35 : mentions_names model35 implies35 /\ mentions_names model35 sum35.
Proof. split; intros r [<-|[<-|[]]]; eexists _, _; split; reflexivity. Qed.
Lemma constrained35 : exists h' m', exec order (OAddConstraint KBoolean implies35) (heap1, model35) = Some ((h', m'), None).
Proof. eexists _, _. vm_compute. reflexivity. Qed.
Lemma mixed35 : exists h' m', exec order (OAddConstraint (KMixed ReqAll ExprPos) sum35) (heap1, model35) = Some ((h', m'), None).
Proof. eexists _, _. vm_compute. reflexivity. Qed.
Lemma says35 : says heap1 model35 config35 KBoolean implies35 /\ says heap1 model35 config35 (KMixed ReqAll ExprPos) sum35 /\ ~ says heap1 model35 (with_bool config35 (T "D") false) KBoolean implies35.
Proof. split; [vm_compute; reflexivity|]. split; [left; vm_compute; reflexivity|]. vm_compute. discriminate. Qed.
Lemma located35 : exists h' m', exec order (OAddLocation (ByName (T "a")) (SourceRange (T "f") None None Necessary None None)) (heap1, model35) = Some ((h', m'), None).
Proof. eexists _, _. vm_compute. reflexivity. Qed.

(** A root with a group that has a single member. *)
Definition tree36 : tree := Node 0 (rootd "root") [Node 1 (NRelationship ROr) [Node 2 (binary "a") []]].
Definition heap36 : heap := plant 3 tree36.
Definition model36 : fmodel := model_of tree36.
Lemma represents36 : represents heap36 model36 tree36.
Proof. planted. Qed.
Definition config36 : assignment := Assignment (fun _ => true) (fun _ => 0%Z) (fun _ => 0%Z).
Lemma valid36 : SolverSpec.valid heap36 model36 config36.
Proof.
  apply (valid_rules heap36 model36 tree36 represents36). split; [|split; [intros c []|intros x []]]. unfold tree36, binary, rootd. obeys.
  split; [intros v g [<-|[]] E; injection E as <-; intros _ _; reflexivity|]. intros _. exists (T "a"). split; [left; reflexivity|reflexivity].
Qed.
Lemma emptied : exists ord h m t r h' m' a, is_order ord /\ represents h m t /\ SolverSpec.valid h m a /\ all_constraints m = [] /\
  exec ord (ORemoveFeature r false) (h, m) = Some ((h', m'), None) /\ forall b, ~ SolverSpec.valid h' m' b.
Proof.
  exists order, heap36, model36, tree36, (ByName (T "a")). do 2 eexists. exists config36. split; [exact order_ok|]. split; [exact represents36|]. split; [exact valid36|]. split; [reflexivity|]. split; [vm_compute; reflexivity|].
  intros b V. assert (Ro : selected b (T "root")) by (refine (v_root _ _ _ V 0 (root_feature (T "root")) _ eq_refl); split; [left; reflexivity|reflexivity]).
  destruct (v_or _ _ _ V (T "root") [] ltac:(exists 1, 0, []; split; [left; reflexivity|]; split; [reflexivity|]; split; [reflexivity|constructor]) Ro) as (s & [] & _).
Qed.
