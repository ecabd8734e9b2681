(** Example for how often constraints are stated after saving and loading. *)
From Coq Require Import List ZArith NArith Arith Bool Ascii String Permutation Lia.
From Verif Require Import Text TextProofs NumSpec LlvmInt ConstraintModel ConstraintParserModel ConstraintSpec ConstraintRoundTrip SourceRangeModel FeatureTreeModel FeatureTreeSpec FeatureTreeExamples FeatureTransactionModel
  FeatureTransactionSpec FeatureEditSpec FeatureEditProofs FeatureTransactionExamples FeatureCloneSpec FeatureBuildSpec FeatureBuildExamples SxfmModel SxfmExamples XmlModel XmlWriterModel XmlSpec XmlExamples
  XmlTripSpec XmlTripFinal XmlTripExamples RegisterSpec RegisterExamples XmlCycleSpec XmlCycleFinal XmlCountSpec XmlCountFinal.
Import ListNotations.
Local Open Scope string_scope.
Local Open Scope list_scope.
Local Open Scope nat_scope.

(** Two options; a implies a, a excludes b twice, a or b, and, stored as a non-boolean
    constraint, b implies a. *)
Definition a75 : feature := Feature FBinary (T "a") [] [] [(10, 0); (10, 1); (11, 0); (12, 1); (13, 0); (14, 0)] [11; 14] [10; 10; 12] true.
Definition b75 : feature := Feature FBinary (T "b") [] [] [(11, 1); (12, 0); (13, 1); (14, 1)] [11; 14] [12] true.
Definition tree75 : tree := Node 0 (rootd "base") [Node 2 (NFeature a75) []; Node 3 (NFeature b75) []].
Definition heap75 : heap := plant 20 tree75.
Definition self75 : mconstraint := MConstraint 10 (CBin BImplies (CFeat (Ref 2)) (CFeat (Ref 2))).
Definition excl75 : mconstraint := MConstraint 11 (CBin BExcludes (CFeat (Ref 2)) (CFeat (Ref 3))).
Definition impl75 : mconstraint := MConstraint 12 (CBin BImplies (CFeat (Ref 3)) (CFeat (Ref 2))).
Definition or75 : mconstraint := MConstraint 13 (CBin BOr (CFeat (Ref 2)) (CFeat (Ref 3))).
Definition excl75' : mconstraint := MConstraint 14 (CBin BExcludes (CFeat (Ref 2)) (CFeat (Ref 3))).
Definition model75 : fmodel := FModel (T "m") (Some 0) (T "p") (T "c0") (named tree75) [self75; excl75; or75; excl75'] [impl75] [] [].
Lemma represents75 : represents heap75 model75 tree75.
Proof. assert (represents heap75 (model_of tree75) tree75) as R by planted. destruct R; constructor; assumption. Qed.
Lemma features75 s i : get_feature model75 s = Some i -> s = T "base" /\ i = 0 \/ s = T "a" /\ i = 2 \/ s = T "b" /\ i = 3.
Proof.
  intros G. unfold get_feature in G. apply find_name_in in G; [|cbn; repeat (constructor; [cbn; intuition congruence|]); constructor].
  cbn in G. repeat (destruct G as [E|G]; [injection E as <- <-; auto|]). destruct G.
Qed.
Ltac each75 G F := let X := fresh in pose proof (features75 _ _ G) as X; destruct X as [(-> & ->)|[(-> & ->)|(-> & ->)]]; cbn in F; injection F as <-; cbn.
Lemma informed75 : informed heap75 model75.
Proof.
  constructor.
  - intros s i f id pos G F. unfold mention_at. each75 G F; split.
    + intros [].
    + intros (c & I & <- & N). cbn in I. repeat (destruct I as [<-|I]; [cbn in N; destruct pos as [|[|[|pos]]]; discriminate|]). destruct I.
    + intros I. repeat (destruct I as [E|I]; [injection E as <- <-; first [exists self75; split; [cbn; tauto|split; reflexivity]|exists excl75; split; [cbn; tauto|split; reflexivity]|exists impl75; split; [cbn; tauto|split; reflexivity]|exists or75; split; [cbn; tauto|split; reflexivity]|exists excl75'; split; [cbn; tauto|split; reflexivity]]|]). destruct I.
    + intros (c & I & <- & N). cbn in I. repeat (destruct I as [<-|I]; [cbn in N; destruct pos as [|[|[|pos]]]; try discriminate N; cbn; tauto|]). destruct I.
    + intros I. repeat (destruct I as [E|I]; [injection E as <- <-; first [exists self75; split; [cbn; tauto|split; reflexivity]|exists excl75; split; [cbn; tauto|split; reflexivity]|exists impl75; split; [cbn; tauto|split; reflexivity]|exists or75; split; [cbn; tauto|split; reflexivity]|exists excl75'; split; [cbn; tauto|split; reflexivity]]|]). destruct I.
    + intros (c & I & <- & N). cbn in I. repeat (destruct I as [<-|I]; [cbn in N; destruct pos as [|[|[|pos]]]; try discriminate N; cbn; tauto|]). destruct I.
  - intros s i f G F. each75 G F; repeat (constructor; [cbn; intuition congruence|]); constructor.
  - intros s i f id G F. unfold mentioned. each75 G F; split.
    + intros [].
    + intros (c & I & <- & Cl & J). cbn in I. repeat (destruct I as [<-|I]; [cbn in J; intuition discriminate|]). destruct I.
    + intros [<-|[<-|[]]]; [exists excl75|exists excl75']; cbn; tauto.
    + intros (c & I & <- & Cl & J). cbn in I. repeat (destruct I as [<-|I]; [cbn in Cl; first [discriminate Cl|cbn; tauto]|]). destruct I.
    + intros [<-|[<-|[]]]; [exists excl75|exists excl75']; cbn; tauto.
    + intros (c & I & <- & Cl & J). cbn in I. repeat (destruct I as [<-|I]; [cbn in Cl; first [discriminate Cl|cbn; tauto]|]). destruct I.
  - intros s i f id G F. unfold mentioned. each75 G F; split.
    + intros [].
    + intros (c & I & <- & Cl & J). cbn in I. repeat (destruct I as [<-|I]; [cbn in J; intuition discriminate|]). destruct I.
    + intros [<-|[<-|[<-|[]]]]; [exists self75|exists self75|exists impl75]; cbn; tauto.
    + intros (c & I & <- & Cl & J). cbn in I. repeat (destruct I as [<-|I]; [cbn in Cl; first [discriminate Cl|cbn; tauto]|]). destruct I.
    + intros [<-|[]]. exists impl75. cbn; tauto.
    + intros (c & I & <- & Cl & J). cbn in I. repeat (destruct I as [<-|I]; [cbn in Cl, J; first [discriminate Cl|cbn; tauto|intuition discriminate]|]). destruct I.
  - intros s i f c G F I Cl. each75 G F; cbn in I; repeat (destruct I as [<-|I]; [first [discriminate Cl|reflexivity]|]); destruct I.
  - intros s i f c G F I Cl. each75 G F; cbn in I; repeat (destruct I as [<-|I]; [first [discriminate Cl|reflexivity]|]); destruct I.
Qed.
Lemma registered75 : registered heap75 model75.
Proof.
  constructor.
  - exact informed75.
  - exact (rep_ok _ _ _ represents75).
  - intros s i G. destruct (features75 s i G) as [(_ & ->)|[(_ & ->)|(_ & ->)]]; cbn; lia.
  - intros s i f G F. each75 G F; reflexivity.
  - cbn. repeat (constructor; [cbn; intuition congruence|]). constructor.
  - intros c I. cbn in I. repeat (destruct I as [<-|I]; [cbn; lia|]). destruct I.
  - intros c i I J. cbn in I. repeat (destruct I as [<-|I]; [cbn in J; repeat (destruct J as [J|J]; [injection J as <-; cbn; lia|]); destruct J|]). destruct I.
Qed.
Lemma resolved75 : all_resolved model75.
Proof. apply resolved_b_ok. vm_compute. reflexivity. Qed.
Lemma sa75 : spelled heap75 (CFeat (Ref 2)) (CFeat "a").
Proof. constructor; exists a75; split; reflexivity. Qed.
Lemma sb75 : spelled heap75 (CFeat (Ref 3)) (CFeat "b").
Proof. constructor; exists b75; split; reflexivity. Qed.
Lemma writable75 : writable heap75 model75.
Proof.
  assert (Ia : identifier "a") by (eapply letter; reflexivity). assert (Ib : identifier "b") by (eapply letter; reflexivity).
  constructor.
  - intros s i f G F. each75 G F; (split; [discriminate|]); (split; [reflexivity|]); split; first [exact Logic.I|constructor].
  - intros s i G. destruct (features75 s i G) as [(-> & ->)|[(-> & ->)|(-> & ->)]]; cbn; split; try discriminate; auto; intros [X|X]; discriminate.
  - intros s i f G F. each75 G F; split; try discriminate; auto.
  - reflexivity.
  - reflexivity.
  - reflexivity.
  - intros c I. cbn in I. destruct I as [<-|[<-|[<-|[<-|[]]]]]; [left; eexists BImplies, _, _; split; [auto|reflexivity]|left; eexists BExcludes, _, _; split; [auto|reflexivity]|right|left; eexists BExcludes, _, _; split; [auto|reflexivity]].
    exists (CBin BOr (CFeat "a") (CFeat "b")). split; [constructor; [exact sa75|exact sb75]|]. cbn. repeat (split; [discriminate|]). auto.
  - intros c I. cbn in I. destruct I as [<-|[]]. exists (CBin BImplies (CFeat "b") (CFeat "a")). split; [constructor; [exact sb75|exact sa75]|]. cbn. repeat (split; [discriminate|]). auto.
  - intros x [].
Qed.

Lemma not_spelled75 c e e' : spelled heap75 (c_expr c) e -> e <> e' -> ~ spelled heap75 (c_expr c) e'.
Proof. intros S N S'. apply N. exact (XmlTripDoc.spelled_unique heap75 _ _ _ S S'). Qed.
Ltac spell75 := constructor; first [exact sa75|exact sb75].
Ltac count75 := repeat first [apply times_none|apply times_one; [spell75|]|apply times_other; [eapply not_spelled75; [spell75|discriminate]|]].
(** a implies a: once among the boolean constraints; b implies a: not there, but once
    elsewhere; a excludes b: twice. *)
Lemma numbers75 :
  times heap75 (m_boolean model75) (implying "a" "a") 1 /\ times heap75 (not_boolean model75) (implying "a" "a") 0 /\
  times heap75 (m_boolean model75) (implying "b" "a") 0 /\ times heap75 (not_boolean model75) (implying "b" "a") 1 /\
  times heap75 (m_boolean model75) (excluding_text "a" "b") 2.
Proof. repeat (split; [count75|]). count75. Qed.
Lemma grows75 n h' m' : cycles n heap75 model75 h' m' -> times h' (m_boolean m') (implying "a" "a") (2 ^ n) /\ times h' (m_boolean m') (implying "b" "a") n.
Proof.
  intros C. pose proof (cycles_counts n heap75 model75 tree75 h' m' represents75 registered75 resolved75 writable75 C) as K. destruct numbers75 as (X1 & X2 & X3 & X4 & _). split.
  - destruct (ca_self _ _ _ _ _ K "a" 1 0 X1 X2) as (x & X & E). replace (2 ^ n) with x by lia. exact X.
  - pose proof (ca_implies _ _ _ _ _ K "b" "a" 0 1 ltac:(discriminate) X3 X4) as X. rewrite Nat.mul_1_r in X. exact X.
Qed.
Lemma counts_example :
  represents heap75 model75 tree75 /\ registered heap75 model75 /\ all_resolved model75 /\ writable heap75 model75 /\
  times heap75 (m_boolean model75) (implying "a" "a") 1 /\ times heap75 (not_boolean model75) (implying "a" "a") 0 /\
  times heap75 (m_boolean model75) (implying "b" "a") 0 /\ times heap75 (not_boolean model75) (implying "b" "a") 1 /\
  times heap75 (m_boolean model75) (excluding_text "a" "b") 2 /\ (exists h m, cycles 1 heap75 model75 h m).
Proof.
  split; [exact represents75|]. split; [exact registered75|]. split; [exact resolved75|]. split; [exact writable75|]. destruct numbers75 as (X1 & X2 & X3 & X4 & X5). repeat (split; [assumption|]).
  destruct (cycles_go_on heap75 model75 tree75 0 heap75 model75 order (fun l => l) no_sci no_step (T "/tmp") heap0 represents75 (registered_enrolled _ _ registered75) resolved75 writable75 (cycles_none _ _) order_ok kept_order no_sci_ok heap0_ok) as (doc & h & m & W & R).
  exists h, m. exact (cycles_more 0 _ _ _ _ order (fun l => l) no_sci no_step (T "/tmp") heap0 doc h m (cycles_none _ _) order_ok kept_order no_sci_ok heap0_ok W R).
Qed.
(** The number of implications doubles, or grows by one, every time. *)
Lemma counts_refuted :
  exists h m t, represents h m t /\ registered h m /\ all_resolved m /\ writable h m /\
  times h (m_boolean m) (implying "a" "a") 1 /\ times h (m_boolean m) (implying "b" "a") 0 /\
  (forall n, exists h' m', cycles n h m h' m') /\
  (forall n h' m', cycles n h m h' m' -> times h' (m_boolean m') (implying "a" "a") (2 ^ n) /\ times h' (m_boolean m') (implying "b" "a") n).
Proof.
  exists heap75, model75, tree75. split; [exact represents75|]. split; [exact registered75|]. split; [exact resolved75|]. split; [exact writable75|]. destruct numbers75 as (X1 & _ & X3 & _). split; [exact X1|]. split; [exact X3|]. split; [|exact grows75].
  induction n as [|n (h & m & C)]; [exists heap75, model75; constructor|].
  destruct (cycles_go_on heap75 model75 tree75 n h m order (fun l => l) no_sci no_step (T "/tmp") heap0 represents75 (registered_enrolled _ _ registered75) resolved75 writable75 C order_ok kept_order no_sci_ok heap0_ok) as (doc & h' & m' & W & R).
  exists h', m'. exact (cycles_more n _ _ _ _ order (fun l => l) no_sci no_step (T "/tmp") heap0 doc h' m' C order_ok kept_order no_sci_ok heap0_ok W R).
Qed.
