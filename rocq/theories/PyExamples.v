(** Examples for the edit functions and the Python builder. *)
From Coq Require Import List ZArith Arith Bool Ascii String Permutation Lia.
From Verif Require Import Text TextProofs ConstraintModel ConstraintSpec SourceRangeModel FeatureTreeModel FeatureTreeSpec FeatureTreeExamples FeatureTransactionModel FeatureEditSpec FeatureEditProofs FeatureTransactionSpec FeatureTransactionExamples
  FeatureBuildSpec FeatureBuildExamples OutcomeSpec OutcomeProofs OutcomeFinal OutcomeExamples SolverModel SolverSpec DescribedSpec DescribedFinal EditCallModel EditCallSpec EditCallProofs PyModel PySpec PyProofs.
Import ListNotations.
Local Open Scope string_scope.
Local Open Scope list_scope.

(** The features x, y and x again: y is added, the second x and z are not. *)
Definition wanted1 : list (feature * option nid) := [(bin7 "x", Some 2); (bin7 "y", None); (bin7 "x", None); (bin7 "z", None)].
Lemma plantable1 : plantable model1 wanted1.
Proof. intros f p I. cbn in I. destruct I as [E|[E|[E|[E|[]]]]]; injection E as <- <-; (split; [discriminate|]); intros q E; try discriminate. injection E as <-. vm_compute. tauto. Qed.
Lemma add_example : represents heap1 model1 tree1 /\ plantable model1 wanted1 /\ fresh_start model1 wanted1 [(bin7 "x", Some 2); (bin7 "y", None)] /\
  exists h' m', call_add_features order wanted1 (heap1, model1) = Some (h', m') /\ map fst (m_features m') = map fst (m_features model1) ++ [T "x"; T "y"].
Proof.
  split; [exact represents1|]. split; [exact plantable1|]. split.
  - exists [(bin7 "x", None); (bin7 "z", None)]. split; [reflexivity|]. split; [repeat constructor; cbn; intuition discriminate|]. split.
    + intros x [<-|[<-|[]]]; vm_compute; reflexivity.
    + intros y r E. injection E as <- _. right. left. reflexivity.
  - eexists _, _. split; vm_compute; reflexivity.
Qed.
Lemma edit_examples :
  get_feature model1 (T "a") = Some 1 /\ call_add_feature order (bin7 "a") None (heap1, model1) = Some (heap1, model1) /\
  (exists h' m', call_remove_feature order (ByName (T "B")) true (heap1, model1) = Some (h', m') /\ get_feature m' (T "B") = None /\ get_feature m' (T "c") = None) /\
  call_remove_feature order (ByName (T "B")) false (heap1, model1) = Some (heap1, model1) /\
  call_remove_feature order (ByName (T "root")) true (heap1, model1) = None /\
  (exists m', call_set_commit order (T "v1") (heap1, model1) = Some (heap1, m') /\ m_commit m' = T "v1").
Proof.
  split; [reflexivity|]. split; [apply (add_feature_call order heap1 model1 tree1 (bin7 "a") None represents1) with (i := 1); [discriminate|discriminate|reflexivity]|].
  split; [eexists _, _; split; [vm_compute; reflexivity|]; split; reflexivity|]. 
  pose proof (remove_feature_call order order_ok heap1 model1 tree1 (ByName (T "B")) false represents1 Logic.I) as [_ X]. destruct (X _ subtree_B eq_refl) as [Y _].
  split; [apply Y; [reflexivity|discriminate]|]. split; [vm_compute; reflexivity|]. destruct (set_commit_call order heap1 model1 tree1 (T "v1") represents1) as (m' & E & C & _). eauto.
Qed.

(** The calls of [calls7], made from Python. *)
Definition py7 : list pycall :=
  [PyEdge (T "a") (T "b"); PyBinary (T "a") true; PyBinary (T "b") true; PyName (T "model"); PyGroup (T "a") (T "OR"); PyBinary (T "c") true; PyRoot (T "r");
   PyEdge (T "r") (T "c"); PyEdge (T "a") (T "c"); PyBoolean (CBin BImplies (CFeat (Own (T "b"))) (CFeat (Own (T "c"))))].
Lemma wants7 : Forall2 (wants heap0) py7 calls7.
Proof.
  unfold py7, calls7. repeat first [apply Forall2_nil | apply Forall2_cons; [try constructor|]].
  split; [reflexivity|]. cbn [leaves app]. repeat constructor; eexists; split; reflexivity.
Qed.
Lemma acceptable7 : acceptable calls7 decl7.
Proof. destruct describes7 as [D O E R Tr Rl G]. constructor; assumption. Qed.
Lemma python_example :
  heap_ok heap0 /\ Forall2 (wants heap0) py7 calls7 /\ NoDup (map fst (requests calls7)) /\ acceptable calls7 decl7 /\ describes calls7 decl7 /\
  exists h' m', py_build order heap0 py7 = Some (h', Some m') /\ map fst (m_features m') = [T "a"; T "b"; T "c"; T "r"].
Proof.
  split; [exact heap0_ok|]. split; [exact wants7|]. split; [exact (de_groups _ _ describes7)|]. split; [exact acceptable7|]. split; [exact describes7|]. eexists _, _. split; vm_compute; reflexivity.
Qed.

(** Only the root selected: a configuration of what was asked for, but not of the model. *)
Definition alone7 : assignment := Assignment (fun s => text_eqb s (T "r")) (fun _ => 0%Z) (fun z => z).
Lemma alone_configures : configures calls7 decl7 (requested calls7) alone7.
Proof.
  assert (F : forall f, In f (snd decl7) -> f_kind f = FBinary /\ f_optional f = true /\ ~ selected alone7 (f_name f)).
  { intros f I. cbn in I. destruct I as [<-|[<-|[<-|[]]]]; (split; [reflexivity|split; [reflexivity|discriminate]]). }
  constructor.
  - reflexivity.
  - intros f I _ S. destruct (F f I) as (_ & _ & N). contradiction.
  - intros f I _ O. destruct (F f I) as (_ & T & _). congruence.
  - intros s G _. cbn in G. destruct G as [G|[]]. discriminate.
  - intros s G S. cbn in G. destruct G as [G|[]]. injection G as <-. discriminate.
  - intros f v st I K. destruct (F f I) as (K' & _). congruence.
  - intros k e I _. cbn in I. destruct I as [I|[]]. injection I as <- <-. 
    assert (N : forall s, numeric_name decl7 s -> False) by (intros s (f & I & _ & K); destruct (F f I) as (K' & _); rewrite K' in K; discriminate).
    eapply hv_truths; [apply hv_name, nv_truth; [intros X; exact (N _ X)|reflexivity]|apply hv_name, nv_truth; [intros X; exact (N _ X)|reflexivity]|reflexivity].
  - intros r k e I. cbn in I. destruct I as [I|[]]. discriminate.
Qed.
Lemma optional_lost :
  exists ps cs d a h' m', heap_ok heap0 /\ Forall2 (wants heap0) ps cs /\ describes cs d /\ py_build order heap0 ps = Some (h', Some m') /\
    configures cs d (requested cs) a /\ ~ SolverSpec.valid h' m' a.
Proof.
  destruct (python_configurations order order_ok heap0 py7 calls7 decl7 heap0_ok wants7 describes7) as (h' & m' & E & V). exists py7, calls7, decl7, alone7, h', m'.
  split; [exact heap0_ok|]. split; [exact wants7|]. split; [exact describes7|]. split; [exact E|]. split; [exact alone_configures|]. intros X. apply V in X.
  assert (selected alone7 (T "a")) as Y; [|discriminate Y].
  apply (co_mandatory _ _ _ _ X (mandatory (bin7 "a"))); [left; reflexivity|reflexivity|reflexivity| |reflexivity].
  intros k G. cbn in G. destruct G as [G|[]]. discriminate.
Qed.
Lemma relation_example : In (PyGroup (T "r") (T "AND")) [PyRoot (T "r"); PyGroup (T "r") (T "AND")] /\ T "AND" <> T "OR" /\ T "AND" <> T "XOR".
Proof. split; [right; left; reflexivity|]. split; discriminate. Qed.
