(** Saving and loading models with nobody called root or base several times: the new root
    is added once. *)
From Coq Require Import List ZArith NArith Arith Bool Ascii String Permutation Lia.
From Verif Require Import Text TextProofs NumSpec ConstraintModel ConstraintParserModel ConstraintSpec ConstraintRoundTrip SourceRangeModel FeatureTreeModel FeatureTreeSpec FeatureTreeProofs FeatureTransactionModel FeatureTransactionSpec FeatureEditSpec FeatureEditProofs
  FeatureCloneSpec FeatureBuildSpec SxfmModel XmlModel XmlWriterModel XmlSpec XmlDetectProofs XmlDetectFinal XmlTripSpec XmlTripDoc XmlTripCalls XmlTripWrite XmlTripFinal SolverModel SolverSpec ValidProofs ValidTripProofs XmlCycleSpec XmlCycleProofs XmlCycleFinal XmlBelowSpec.
From Verif Require XmlBelowValidProofs XmlBelowFinal.
Import ListNotations.
Local Open Scope string_scope.
Local Open Scope list_scope.

Section Again.
Variables (h : heap) (m : fmodel) (t : tree) (h1 : heap) (m1 : fmodel) (t1 : tree).
Hypothesis R : represents h m t.
Hypothesis Rs : all_resolved m.
Hypothesis W : writable_below h m.
Hypothesis Mb : model_below h m h1 m1.
Hypothesis R1 : represents h1 m1 t1.
Hypothesis Rs1 : all_resolved m1.

Lemma below_origin s i1 g : get_feature m1 s = Some i1 -> feature_at h1 i1 = Some g ->
  s = T "root" /\ m_root m1 = Some i1 /\ f_name g = s /\ f_kind g = FRoot /\ f_locations g = [] \/
  s <> T "root" /\ s <> T "base" /\ m_root m1 <> Some i1 /\ exists i f, get_feature m s = Some i /\ feature_at h i = Some f /\ back (demoted f) g.
Proof.
  intros G1 F1. destruct (bl_root _ _ _ _ Mb) as (r & rf & Er & Gr & Fr & Kr & _ & Lr & _). destruct (XmlBelowValidProofs.from h m t h1 m1 R Mb s i1 G1) as [-> | (i & G)].
  - left. rewrite Gr in G1. injection G1 as <-. rewrite Fr in F1. injection F1 as <-. pose proof (get_name h1 m1 t1 R1 _ _ _ Gr Fr). auto.
  - right. destruct (wb_names h m W s i G) as (N1 & N2). split; [exact N1|]. split; [exact N2|]. split.
    + intros X. rewrite Er in X. injection X as <-. apply N1. exact (same_name h1 m1 t1 R1 s (T "root") r G1 Gr).
    + destruct (names_data h m t R s i G) as (f & F & _). destruct (bl_features _ _ _ _ Mb s i f G F) as (i' & g' & G' & F' & B). exists i, f. split; [exact G|]. split; [exact F|]. assert (i' = i1) as -> by congruence. congruence.
Qed.
Lemma demoted_kind f : f_kind (demoted f) <> FRoot.
Proof. unfold demoted. destruct (f_kind f) eqn:E; cbn; congruence. Qed.
Lemma demoted_name f : f_name (demoted f) = f_name f.
Proof. unfold demoted. destruct (f_kind f); reflexivity. Qed.
Lemma demoted_places f : f_locations (demoted f) = f_locations f.
Proof. unfold demoted. destruct (f_kind f); reflexivity. Qed.

Lemma below_writable : writable h1 m1.
Proof.
  constructor.
  - intros s i1 g G1 F1. destruct (below_origin s i1 g G1 F1) as [(-> & _ & N & K & L)|(_ & _ & _ & i & f & G & F & N & _ & K & X)].
    + unfold writable_feature. rewrite N, K, L. split; [discriminate|]. split; [reflexivity|]. split; [exact Logic.I|constructor].
    + destruct (wb_features h m W s i f G F) as (W1 & W2 & W3 & W4). unfold writable_feature. rewrite N, demoted_name. split; [exact W1|]. split; [exact W2|]. split.
      * unfold demoted in K. destruct (f_kind f) as [|[lo hi|vs] st| |] eqn:Kf; [| | | |destruct W3]; cbn [f_kind] in K; rewrite ?Kf in K; cbn in K, W3; [rewrite K; exact Logic.I|rewrite K; exact W3| |rewrite K; exact Logic.I].
        destruct K as (ws & -> & (a & b & v & -> & -> & Fb)). cbn. destruct W3 as (_ & W3). split; [destruct b; discriminate|]. apply Forall_app in W3. apply Forall_app. split; [|apply W3].
        clear - Fb. induction Fb as [|x y a b (Ry & _) Fb IH]; constructor; [|exact IH]. unfold is_int64, int64_min, int64_max. change (2 ^ 31)%Z with 2147483648%Z in Ry. lia.
      * assert (Y : f_locations g = [] \/ f_locations g = map place_back (f_locations f)) by (rewrite demoted_places in X; destruct (f_kind (demoted f)); destruct X; auto).
        destruct Y as [-> | ->]; [constructor|]. clear - W4. induction W4 as [|r l P W4 IH]; constructor; [exact P|exact IH].
  - intros s i1 G1. destruct (names_data h1 m1 t1 R1 s i1 G1) as (g & F1 & _). destruct (below_origin s i1 g G1 F1) as [(-> & E & _)|(N1 & N2 & N & _)]; [tauto|]. split; [intros [X|X]; contradiction|intros X; contradiction].
  - intros s i1 g G1 F1. destruct (below_origin s i1 g G1 F1) as [(-> & E & _ & K & _)|(_ & _ & N & i & f & G & F & _ & _ & K & _)]; [tauto|]. rewrite (kind_root _ _ K). pose proof (demoted_kind f). tauto.
  - rewrite (bl_name _ _ _ _ Mb). apply W.
  - rewrite (bl_path _ _ _ _ Mb). apply W.
  - rewrite (bl_commit _ _ _ _ Mb). apply W.
  - intros c I. destruct (spelled_of h1 m1 t1 R1 Rs1 c) as (e & Sp); [unfold all_constraints; apply in_or_app; auto|]. destruct (pair_dec e) as [P|Np]; [left; exact (pair_spelled _ _ _ Sp P)|]. right. exists e. split; [exact Sp|].
    assert (B : boolean_back h m e) by (apply (bl_boolean _ _ _ _ Mb); exists c; auto). destruct B as [(P & _)|[X|X]]; [contradiction| |].
    + destruct X as (a & b & i & j & -> & _). destruct Np. eexists _, _, _. split; [right|]; reflexivity.
    + destruct X as (c0 & -> & Np0 & d & Id & Sd). apply implies_expressible. destruct (wb_boolean h m W d Id) as [P|(e0 & S0 & X0)]; [apply (spelled_pair h _ _ Sd) in P; contradiction|]. rewrite (spelled_unique h _ _ _ Sd S0). exact X0.
  - intros c I. destruct (forall2_right _ _ _ (bl_nonboolean _ _ _ _ Mb) c I) as (d & Id & e & Sd & Sc). destruct (wb_nonboolean h m W d Id) as (e0 & S0 & X0). rewrite (spelled_unique h _ _ _ Sd S0) in Sc. exists (excludes_as_implies e0). split; [exact Sc|apply implies_expressible; exact X0].
  - intros x I. destruct (forall2_right _ _ _ (bl_mixed _ _ _ _ Mb) x I) as (d & Id & (e & Sd & Sc) & _). destruct (wb_mixed h m W d Id) as (e0 & S0 & X0). rewrite (spelled_unique h _ _ _ Sd S0) in Sc. exists (excludes_as_implies e0). split; [exact Sc|apply implies_expressible; exact X0].
Qed.
End Again.

(** The first of several times puts the new root there, the others lose what one time does. *)
Lemma cycles_first n : forall h m h2 m2, cycles (S n) h m h2 m2 -> exists h1 m1, cycles 1 h m h1 m1 /\ cycles n h1 m1 h2 m2.
Proof.
  induction n as [|n IH]; intros h m h2 m2 C; [exists h2, m2; split; [exact C|constructor]|].
  inversion C as [|? ? ? h3 m3 ord ord' sci step cwd h0 doc ? ? C1 Ho Ho' Hs H0 Wr Rd]; subst. destruct (IH h m h3 m3 C1) as (h1 & m1 & A & B). exists h1, m1. split; [exact A|]. exact (cycles_more _ _ _ _ _ _ _ _ _ _ _ _ _ _ B Ho Ho' Hs H0 Wr Rd).
Qed.
Theorem below_once h m t n h2 m2 : represents h m t -> enrolled h m -> all_resolved m -> writable_below h m -> cycles (S (S n)) h m h2 m2 ->
  exists h1 m1, cycles 1 h m h1 m1 /\ model_below h m h1 m1 /\ model_back h1 m1 h2 m2.
Proof.
  intros R En Rs W C. destruct (cycles_first (S n) h m h2 m2 C) as (h1 & m1 & A & B). exists h1, m1. split; [exact A|].
  inversion A as [|? ? ? h3 m3 ord ord' sci step cwd h0 doc ? ? C1 Ho Ho' Hs H0 Wr Rd]; subst. inversion C1; subst.
  destruct (XmlBelowFinal.written_and_read_below ord ord' sci step cwd h3 m3 t h0 Ho Ho' Hs R En Rs W H0) as (doc' & h' & m' & Wr' & _ & Rd' & Mb & En1 & Rs1). assert (doc' = doc) as -> by congruence. rewrite Rd in Rd'. injection Rd' as <- <-.
  split; [exact Mb|]. destruct (bl_represented _ _ _ _ Mb) as (t1 & R1). apply (cycles_back h1 m1 t1 n h2 m2 R1 En1 Rs1); [|exact B]. exact (below_writable h3 m3 t h1 m1 t1 R W Mb R1 Rs1).
Qed.
Theorem below_goes_on h m t n h1 m1 ord ord' sci step cwd h0 : represents h m t -> enrolled h m -> all_resolved m -> writable_below h m -> cycles n h m h1 m1 -> is_order ord -> is_order ord' -> sci_nonneg sci -> heap_ok h0 ->
  exists doc h2 m2, write_xml ord h1 m1 = Some doc /\ read_xml ord' sci step cwd h0 doc = SxDone (h2, Some m2).
Proof.
  intros R En Rs W C Ho Ho' Hs H0. destruct n as [|n].
  - inversion C; subst. destruct (XmlBelowFinal.written_and_read_below ord ord' sci step cwd h1 m1 t h0 Ho Ho' Hs R En Rs W H0) as (doc & h2 & m2 & Wr & _ & Rd & _). eauto.
  - destruct (cycles_first n h m h1 m1 C) as (h2 & m2 & A & B). inversion A as [|? ? ? h3 m3 o o' sc st cw h4 doc ? ? C1 Ho1 Ho1' Hs1 H1 Wr Rd]; subst. inversion C1; subst.
    destruct (XmlBelowFinal.written_and_read_below o o' sc st cw h3 m3 t h4 Ho1 Ho1' Hs1 R En Rs W H1) as (doc' & h' & m' & Wr' & _ & Rd' & Mb & En1 & Rs1). assert (doc' = doc) as -> by congruence. rewrite Rd in Rd'. injection Rd' as <- <-.
    destruct (bl_represented _ _ _ _ Mb) as (t1 & R1). apply (cycles_go_on h2 m2 t1 n h1 m1 ord ord' sci step cwd h0 R1 En1 Rs1); try assumption. exact (below_writable h3 m3 t h2 m2 t1 R W Mb R1 Rs1).
Qed.
