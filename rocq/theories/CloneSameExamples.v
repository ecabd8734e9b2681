(** Examples for clones. *)
From Coq Require Import List ZArith NArith Arith Bool Ascii String Permutation Lia.
From Verif Require Import Text TextProofs NumSpec LlvmInt ConstraintModel ConstraintParserModel ConstraintSpec ConstraintRoundTrip SourceRangeModel FeatureTreeModel FeatureTreeSpec FeatureTreeExamples FeatureTransactionModel
  FeatureTransactionSpec FeatureEditSpec FeatureEditProofs FeatureTransactionExamples FeatureCloneSpec FeatureBuildSpec FeatureBuildExamples SxfmModel SxfmExamples XmlModel XmlWriterModel XmlSpec XmlExamples
  XmlTripSpec XmlTripFinal XmlTripExamples RegisterSpec RegisterExamples XmlCycleSpec XmlCycleFinal XmlCountSpec XmlCountProofs XmlCountFinal XmlSameSpec XmlSameProofs XmlSameFinal XmlSameExamples SafeSpec CloneSameSpec CloneSameProofs CloneSameFinal.
Import ListNotations.
Local Open Scope string_scope.
Local Open Scope list_scope.
Local Open Scope nat_scope.

Lemma sound76 : sound heap76 model76.
Proof. split; [exists tree76; exact represents76|]. split; [exact registered76|exact resolved76]. Qed.
Lemma plain80 : plain heap76 model76.
Proof.
  split.
  - intros s i f G F. each76 G F; split; try reflexivity; first [exact Logic.I|split; reflexivity].
  - intros p k s i (q & c & [] & _).
Qed.
Lemma bare76 : bare_root heap76 model76.
Proof. exact (pr_root _ _ plain76). Qed.
Lemma clone_example :
  sound heap76 model76 /\ root_name_free model76 /\ plain heap76 model76 /\ writable heap76 model76 /\ siblings_differ heap76 model76 /\ bare_root heap76 model76 /\ all_grouped heap76 model76 /\
  (exists w, clone_model order (fun l => l) heap76 model76 = Some w).
Proof.
  split; [exact sound76|]. split; [exact (writable_root_free _ _ writable76)|]. split; [exact plain80|]. split; [exact writable76|]. split; [exact differ76|]. split; [exact bare76|]. split; [exact (proj2 plain80)|].
  destruct (clone_made order (fun l => l) order_ok (fun l => Permutation_refl l) heap76 model76 sound76 (writable_root_free _ _ writable76)) as (h & m & E & _). exists (h, m). exact E.
Qed.

(** The feature c is beside the alternatives a and b of g. *)
Definition tree80 : tree := Node 0 (rootd "base") [Node 2 (binary "g") [Node 3 (NRelationship RAlternative) [Node 4 (binary "a") []; Node 5 (binary "b") []]; Node 6 (binary "c") []]].
Definition heap80 : heap := plant 20 tree80.
Definition model80 : fmodel := model_of tree80.
Lemma represents80 : represents heap80 model80 tree80.
Proof. planted. Qed.
Lemma features80 s i : get_feature model80 s = Some i -> s = T "base" /\ i = 0 \/ s = T "g" /\ i = 2 \/ s = T "a" /\ i = 4 \/ s = T "b" /\ i = 5 \/ s = T "c" /\ i = 6.
Proof.
  intros G. unfold get_feature in G. apply find_name_in in G; [|cbn; repeat (constructor; [cbn; intuition congruence|]); constructor].
  cbn in G. repeat (destruct G as [E|G]; [injection E as <- <-; tauto|]). destruct G.
Qed.
Ltac each80 G F := let X := fresh in pose proof (features80 _ _ G) as X; destruct X as [(-> & ->)|[(-> & ->)|[(-> & ->)|[(-> & ->)|(-> & ->)]]]]; cbn in F; injection F as <-; cbn.
Lemma registered80 : registered heap80 model80.
Proof.
  constructor.
  - constructor.
    + intros s i f id pos G F. unfold mention_at. each80 G F; (split; [intros []|intros (c & [] & _)]).
    + intros s i f G F. each80 G F; constructor.
    + intros s i f id G F. unfold mentioned. each80 G F; (split; [intros []|intros (c & [] & _)]).
    + intros s i f id G F. unfold mentioned. each80 G F; (split; [intros []|intros (c & [] & _)]).
    + intros s i f c G F [].
    + intros s i f c G F [].
  - exact (rep_ok _ _ _ represents80).
  - intros s i G. destruct (features80 s i G) as [(_ & ->)|[(_ & ->)|[(_ & ->)|[(_ & ->)|(_ & ->)]]]]; cbn; lia.
  - intros s i f G F. each80 G F; reflexivity.
  - constructor.
  - intros c [].
  - intros c i [].
Qed.
Lemma sound80 : sound heap80 model80.
Proof. split; [exists tree80; exact represents80|]. split; [exact registered80|]. apply resolved_b_ok. reflexivity. Qed.
Lemma writable80 : writable heap80 model80.
Proof.
  constructor.
  - intros s i f G F. each80 G F; (split; [discriminate|]); (split; [reflexivity|]); split; first [exact Logic.I|constructor].
  - intros s i G. destruct (features80 s i G) as [(-> & ->)|[(-> & ->)|[(-> & ->)|[(-> & ->)|(-> & ->)]]]]; cbn; split; try discriminate; auto; intros [X|X]; discriminate.
  - intros s i f G F. each80 G F; split; try discriminate; auto.
  - reflexivity.
  - reflexivity.
  - reflexivity.
  - intros c [].
  - intros c [].
  - intros x [].
Qed.
Lemma differ80 : siblings_differ heap80 model80.
Proof.
  intros s u p (i & _ & Gi & _) (j & _ & Gj & _) E.
  destruct (features80 s i Gi) as [(-> & _)|[(-> & _)|[(-> & _)|[(-> & _)|(-> & _)]]]]; destruct (features80 u j Gj) as [(-> & _)|[(-> & _)|[(-> & _)|[(-> & _)|(-> & _)]]]]; first [reflexivity|discriminate E].
Qed.
Lemma beside_lost : exists ord map_order h m h' m' doc doc', is_order ord /\ (forall l, Permutation (map_order l) l) /\ sound h m /\ writable h m /\ siblings_differ h m /\ bare_root h m /\
  clone_model ord map_order h m = Some (h', m') /\ write_xml ord h m = Some doc /\ write_xml ord h' m' = Some doc' /\ doc <> doc'.
Proof.
  destruct (clone_made order (fun l => l) order_ok (fun l => Permutation_refl l) heap80 model80 sound80 (writable_root_free _ _ writable80)) as (h & m & E & _).
  exists order, (fun l => l), heap80, model80, h, m.
  assert (X : exists w doc doc', clone_model order (fun l => l) heap80 model80 = Some w /\ write_xml order heap80 model80 = Some doc /\ write_xml order (fst w) (snd w) = Some doc' /\ doc <> doc').
  { eexists _, _, _. split; [vm_compute; reflexivity|]. split; [vm_compute; reflexivity|]. split; [vm_compute; reflexivity|]. discriminate. }
  destruct X as (w & doc & doc' & Ew & Ed & Ed' & N). rewrite E in Ew. injection Ew as <-. exists doc, doc'. split; [exact order_ok|]. split; [intros l; apply Permutation_refl|]. split; [exact sound80|]. split; [exact writable80|]. split; [exact differ80|].
  split; [intros s i f G F; each80 G F; intros K; first [discriminate K|split; reflexivity]|]. split; [exact E|]. auto.
Qed.
