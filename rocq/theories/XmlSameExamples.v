(** Examples for saved documents. *)
From Coq Require Import List ZArith NArith Arith Bool Ascii String Permutation Lia.
From Verif Require Import Text TextProofs NumSpec LlvmInt ConstraintModel ConstraintParserModel ConstraintSpec ConstraintRoundTrip SourceRangeModel FeatureTreeModel FeatureTreeSpec FeatureTreeExamples FeatureTransactionModel
  FeatureTransactionSpec FeatureEditSpec FeatureEditProofs FeatureTransactionExamples FeatureCloneSpec FeatureBuildSpec FeatureBuildExamples SxfmModel SxfmExamples XmlModel XmlWriterModel XmlSpec XmlExamples
  XmlTripSpec XmlTripFinal XmlTripExamples RegisterSpec RegisterExamples XmlCycleSpec XmlCycleFinal XmlCountSpec XmlCountProofs XmlCountFinal XmlSameSpec XmlSameProofs XmlSameFinal.
Import ListNotations.
Local Open Scope string_scope.
Local Open Scope list_scope.
Local Open Scope nat_scope.

(** Two options; a excludes b twice, a or b, b implies a twice. *)
Definition a76 : feature := Feature FBinary (T "a") [] [] [(10, 1); (11, 0); (12, 1); (13, 0); (14, 0)] [11; 14] [10; 12] true.
Definition b76 : feature := Feature FBinary (T "b") [] [] [(10, 0); (11, 1); (12, 0); (13, 1); (14, 1)] [11; 14] [10; 12] true.
Definition tree76 : tree := Node 0 (rootd "base") [Node 2 (NFeature a76) []; Node 3 (NFeature b76) []].
Definition heap76 : heap := plant 20 tree76.
Definition impl76' : mconstraint := MConstraint 10 (CBin BImplies (CFeat (Ref 3)) (CFeat (Ref 2))).
Definition excl76 : mconstraint := MConstraint 11 (CBin BExcludes (CFeat (Ref 2)) (CFeat (Ref 3))).
Definition impl76 : mconstraint := MConstraint 12 (CBin BImplies (CFeat (Ref 3)) (CFeat (Ref 2))).
Definition or76 : mconstraint := MConstraint 13 (CBin BOr (CFeat (Ref 2)) (CFeat (Ref 3))).
Definition excl76' : mconstraint := MConstraint 14 (CBin BExcludes (CFeat (Ref 2)) (CFeat (Ref 3))).
Definition model76 : fmodel := FModel (T "m") (Some 0) (T "p") (T "c0") (named tree76) [impl76'; excl76; or76; excl76'; impl76] [] [] [].
Lemma represents76 : represents heap76 model76 tree76.
Proof. assert (represents heap76 (model_of tree76) tree76) as R by planted. destruct R; constructor; assumption. Qed.
Lemma features76 s i : get_feature model76 s = Some i -> s = T "base" /\ i = 0 \/ s = T "a" /\ i = 2 \/ s = T "b" /\ i = 3.
Proof.
  intros G. unfold get_feature in G. apply find_name_in in G; [|cbn; repeat (constructor; [cbn; intuition congruence|]); constructor].
  cbn in G. repeat (destruct G as [E|G]; [injection E as <- <-; auto|]). destruct G.
Qed.
Ltac each76 G F := let X := fresh in pose proof (features76 _ _ G) as X; destruct X as [(-> & ->)|[(-> & ->)|(-> & ->)]]; cbn in F; injection F as <-; cbn.
Lemma informed76 : informed heap76 model76.
Proof.
  constructor.
  - intros s i f id pos G F. unfold mention_at. each76 G F; split.
    + intros [].
    + intros (c & I & <- & N). cbn in I. repeat (destruct I as [<-|I]; [cbn in N; destruct pos as [|[|[|pos]]]; discriminate|]). destruct I.
    + intros I. repeat (destruct I as [E|I]; [injection E as <- <-; first [exists impl76'; split; [cbn; tauto|split; reflexivity]|exists excl76; split; [cbn; tauto|split; reflexivity]|exists impl76; split; [cbn; tauto|split; reflexivity]|exists or76; split; [cbn; tauto|split; reflexivity]|exists excl76'; split; [cbn; tauto|split; reflexivity]]|]). destruct I.
    + intros (c & I & <- & N). cbn in I. repeat (destruct I as [<-|I]; [cbn in N; destruct pos as [|[|[|pos]]]; try discriminate N; cbn; tauto|]). destruct I.
    + intros I. repeat (destruct I as [E|I]; [injection E as <- <-; first [exists impl76'; split; [cbn; tauto|split; reflexivity]|exists excl76; split; [cbn; tauto|split; reflexivity]|exists impl76; split; [cbn; tauto|split; reflexivity]|exists or76; split; [cbn; tauto|split; reflexivity]|exists excl76'; split; [cbn; tauto|split; reflexivity]]|]). destruct I.
    + intros (c & I & <- & N). cbn in I. repeat (destruct I as [<-|I]; [cbn in N; destruct pos as [|[|[|pos]]]; try discriminate N; cbn; tauto|]). destruct I.
  - intros s i f G F. each76 G F; repeat (constructor; [cbn; intuition congruence|]); constructor.
  - intros s i f id G F. unfold mentioned. each76 G F; split.
    + intros [].
    + intros (c & I & <- & Cl & J). cbn in I. repeat (destruct I as [<-|I]; [cbn in J; intuition discriminate|]). destruct I.
    + intros [<-|[<-|[]]]; [exists excl76|exists excl76']; cbn; tauto.
    + intros (c & I & <- & Cl & J). cbn in I. repeat (destruct I as [<-|I]; [cbn in Cl; first [discriminate Cl|cbn; tauto]|]). destruct I.
    + intros [<-|[<-|[]]]; [exists excl76|exists excl76']; cbn; tauto.
    + intros (c & I & <- & Cl & J). cbn in I. repeat (destruct I as [<-|I]; [cbn in Cl; first [discriminate Cl|cbn; tauto]|]). destruct I.
  - intros s i f id G F. unfold mentioned. each76 G F; split.
    + intros [].
    + intros (c & I & <- & Cl & J). cbn in I. repeat (destruct I as [<-|I]; [cbn in J; intuition discriminate|]). destruct I.
    + intros [<-|[<-|[]]]; [exists impl76'|exists impl76]; cbn; tauto.
    + intros (c & I & <- & Cl & J). cbn in I. repeat (destruct I as [<-|I]; [cbn in Cl; first [discriminate Cl|cbn; tauto]|]). destruct I.
    + intros [<-|[<-|[]]]; [exists impl76'|exists impl76]; cbn; tauto.
    + intros (c & I & <- & Cl & J). cbn in I. repeat (destruct I as [<-|I]; [cbn in Cl, J; first [discriminate Cl|cbn; tauto|intuition discriminate]|]). destruct I.
  - intros s i f c G F I Cl. each76 G F; cbn in I; repeat (destruct I as [<-|I]; [first [discriminate Cl|reflexivity]|]); destruct I.
  - intros s i f c G F I Cl. each76 G F; cbn in I; repeat (destruct I as [<-|I]; [first [discriminate Cl|reflexivity]|]); destruct I.
Qed.
Lemma registered76 : registered heap76 model76.
Proof.
  constructor.
  - exact informed76.
  - exact (rep_ok _ _ _ represents76).
  - intros s i G. destruct (features76 s i G) as [(_ & ->)|[(_ & ->)|(_ & ->)]]; cbn; lia.
  - intros s i f G F. each76 G F; reflexivity.
  - cbn. repeat (constructor; [cbn; intuition congruence|]). constructor.
  - intros c I. cbn in I. repeat (destruct I as [<-|I]; [cbn; lia|]). destruct I.
  - intros c i I J. cbn in I. repeat (destruct I as [<-|I]; [cbn in J; repeat (destruct J as [J|J]; [injection J as <-; cbn; lia|]); destruct J|]). destruct I.
Qed.
Lemma resolved76 : all_resolved model76.
Proof. apply resolved_b_ok. vm_compute. reflexivity. Qed.
Lemma sa76 : spelled heap76 (CFeat (Ref 2)) (CFeat "a").
Proof. constructor; exists a76; split; reflexivity. Qed.
Lemma sb76 : spelled heap76 (CFeat (Ref 3)) (CFeat "b").
Proof. constructor; exists b76; split; reflexivity. Qed.
Lemma writable76 : writable heap76 model76.
Proof.
  assert (Ia : identifier "a") by (eapply letter; reflexivity). assert (Ib : identifier "b") by (eapply letter; reflexivity).
  constructor.
  - intros s i f G F. each76 G F; (split; [discriminate|]); (split; [reflexivity|]); split; first [exact Logic.I|constructor].
  - intros s i G. destruct (features76 s i G) as [(-> & ->)|[(-> & ->)|(-> & ->)]]; cbn; split; try discriminate; auto; intros [X|X]; discriminate.
  - intros s i f G F. each76 G F; split; try discriminate; auto.
  - reflexivity.
  - reflexivity.
  - reflexivity.
  - intros c I. cbn in I. destruct I as [<-|[<-|[<-|[<-|[<-|[]]]]]]; [left; eexists BImplies, _, _; split; [auto|reflexivity]|left; eexists BExcludes, _, _; split; [auto|reflexivity]|right|left; eexists BExcludes, _, _; split; [auto|reflexivity]|left; eexists BImplies, _, _; split; [auto|reflexivity]].
    exists (CBin BOr (CFeat "a") (CFeat "b")). split; [constructor; [exact sa76|exact sb76]|]. cbn. repeat (split; [discriminate|]). auto.
  - intros x [].
  - intros x [].
Qed.

Lemma differ76 : siblings_differ heap76 model76.
Proof.
  intros s u p (i & _ & Gi & _) (j & _ & Gj & _) E.
  destruct (features76 s i Gi) as [(-> & _)|[(-> & _)|(-> & _)]]; destruct (features76 u j Gj) as [(-> & _)|[(-> & _)|(-> & _)]]; first [reflexivity|discriminate E].
Qed.
Lemma read76 c e e' : spelled heap76 (c_expr c) e' -> spelled heap76 (c_expr c) e -> e' = e.
Proof. intros A B. exact (XmlTripDoc.spelled_unique heap76 _ _ _ A B). Qed.
Ltac spell76 := constructor; first [exact sa76|exact sb76].
Lemma settled76 : settled_implications heap76 model76.
Proof.
  constructor.
  - intros x (c & I & Sp). cbn in I. repeat (destruct I as [<-|I]; [assert (X := read76 _ _ _ Sp ltac:(spell76)); injection X; intros; congruence || discriminate X|]). destruct I.
  - intros x y (c & [] & _).
Qed.
Lemma plain76 : plain_root heap76 model76.
Proof. constructor; [intros s i f G F; each76 G F; intros K; first [discriminate K|split; reflexivity]|discriminate]. Qed.
Lemma same_example :
  represents heap76 model76 tree76 /\ registered heap76 model76 /\ all_resolved model76 /\ writable heap76 model76 /\
  siblings_differ heap76 model76 /\ settled_implications heap76 model76 /\ plain_root heap76 model76 /\
  (exists doc, write_xml order heap76 model76 = Some doc) /\ (exists h m, cycles 1 heap76 model76 h m) /\ (exists h m, cycles 2 heap76 model76 h m).
Proof.
  split; [exact represents76|]. split; [exact registered76|]. split; [exact resolved76|]. split; [exact writable76|]. split; [exact differ76|]. split; [exact settled76|]. split; [exact plain76|].
  destruct (cycles_go_on heap76 model76 tree76 0 heap76 model76 order (fun l => l) no_sci no_step (T "/tmp") heap0 represents76 (registered_enrolled _ _ registered76) resolved76 writable76 (cycles_none _ _) order_ok kept_order no_sci_ok heap0_ok) as (doc & h & m & W & R).
  split; [exists doc; exact W|]. assert (C := cycles_more 0 _ _ _ _ order (fun l => l) no_sci no_step (T "/tmp") heap0 doc h m (cycles_none _ _) order_ok kept_order no_sci_ok heap0_ok W R). split; [exists h, m; exact C|].
  destruct (cycles_go_on heap76 model76 tree76 1 h m order (fun l => l) no_sci no_step (T "/tmp") heap0 represents76 (registered_enrolled _ _ registered76) resolved76 writable76 C order_ok kept_order no_sci_ok heap0_ok) as (doc' & h' & m' & W' & R').
  exists h', m'. exact (cycles_more 1 _ _ _ _ order (fun l => l) no_sci no_step (T "/tmp") heap0 doc' h' m' C order_ok kept_order no_sci_ok heap0_ok W' R').
Qed.

(** Two options whose names differ in case only. *)
Definition tree77 : tree := Node 0 (rootd "base") [Node 2 (binary "a") []; Node 3 (binary "A") []].
Definition heap77 : heap := plant 20 tree77.
Definition model77 : fmodel := model_of tree77.
Lemma represents77 : represents heap77 model77 tree77.
Proof. planted. Qed.
Lemma features77 s i : get_feature model77 s = Some i -> s = T "base" /\ i = 0 \/ s = T "a" /\ i = 2 \/ s = T "A" /\ i = 3.
Proof.
  intros G. unfold get_feature in G. apply find_name_in in G; [|cbn; repeat (constructor; [cbn; intuition congruence|]); constructor].
  cbn in G. repeat (destruct G as [E|G]; [injection E as <- <-; auto|]). destruct G.
Qed.
Ltac each77 G F := let X := fresh in pose proof (features77 _ _ G) as X; destruct X as [(-> & ->)|[(-> & ->)|(-> & ->)]]; cbn in F; injection F as <-; cbn.
Lemma registered77 : registered heap77 model77.
Proof.
  constructor.
  - constructor.
    + intros s i f id pos G F. unfold mention_at. each77 G F; (split; [intros []|intros (c & [] & _)]).
    + intros s i f G F. each77 G F; constructor.
    + intros s i f id G F. unfold mentioned. each77 G F; (split; [intros []|intros (c & [] & _)]).
    + intros s i f id G F. unfold mentioned. each77 G F; (split; [intros []|intros (c & [] & _)]).
    + intros s i f c G F [].
    + intros s i f c G F [].
  - exact (rep_ok _ _ _ represents77).
  - intros s i G. destruct (features77 s i G) as [(_ & ->)|[(_ & ->)|(_ & ->)]]; cbn; lia.
  - intros s i f G F. each77 G F; reflexivity.
  - constructor.
  - intros c [].
  - intros c i [].
Qed.
Lemma resolved77 : all_resolved model77.
Proof. apply resolved_b_ok. reflexivity. Qed.
Lemma writable77 : writable heap77 model77.
Proof.
  assert (Ia : identifier "a") by (eapply letter; reflexivity). assert (IA : identifier "A") by (eapply letter; reflexivity).
  constructor.
  - intros s i f G F. each77 G F; (split; [discriminate|]); (split; [reflexivity|]); split; first [exact Logic.I|constructor].
  - intros s i G. destruct (features77 s i G) as [(-> & ->)|[(-> & ->)|(-> & ->)]]; cbn; split; try discriminate; auto; intros [X|X]; discriminate.
  - intros s i f G F. each77 G F; split; try discriminate; auto.
  - reflexivity.
  - reflexivity.
  - reflexivity.
  - intros c [].
  - intros c [].
  - intros x [].
Qed.
Lemma rev_order : is_order (@rev nid).
Proof. intros l. apply Permutation_sym, Permutation_rev. Qed.
Lemma case_refuted :
  exists h m t ord ord' doc doc', represents h m t /\ registered h m /\ all_resolved m /\ writable h m /\ is_order ord /\ is_order ord' /\
  write_xml ord h m = Some doc /\ write_xml ord' h m = Some doc' /\ doc <> doc'.
Proof.
  exists heap77, model77, tree77, (fun l => l), (@rev nid). eexists _, _. split; [exact represents77|]. split; [exact registered77|]. split; [exact resolved77|]. split; [exact writable77|].
  split; [intros l; apply Permutation_refl|]. split; [exact rev_order|]. split; [vm_compute; reflexivity|]. split; [vm_compute; reflexivity|]. discriminate.
Qed.
