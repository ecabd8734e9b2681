(** Saving and loading any number of times. *)
From Coq Require Import List ZArith NArith Arith Bool Ascii String Permutation Lia.
From Verif Require Import Text TextProofs NumSpec ConstraintModel ConstraintParserModel ConstraintSpec ConstraintRoundTrip SourceRangeModel FeatureTreeModel FeatureTreeSpec FeatureTreeProofs FeatureTransactionModel FeatureTransactionSpec FeatureEditSpec FeatureEditProofs
  FeatureCloneSpec FeatureBuildSpec SxfmModel XmlModel XmlWriterModel XmlSpec XmlDetectProofs XmlDetectFinal XmlTripSpec XmlTripDoc XmlTripCalls XmlTripWrite XmlTripFinal SolverModel SolverSpec ValidProofs ValidTripProofs XmlCycleSpec XmlCycleProofs.
Import ListNotations.

Lemma forall2_join {A B C} (P : A -> B -> Prop) (Q : A -> C -> Prop) (S : B -> C -> Prop) a b c : (forall x y z, P x y -> Q x z -> S y z) -> Forall2 P a b -> Forall2 Q a c -> Forall2 S b c.
Proof. intros X F. revert c. induction F as [|x y a b H F IH]; intros c G; inversion G as [|? z ? c' H' G']; subst; constructor; eauto. Qed.
Lemma forall2_chain {A B C} (P : A -> B -> Prop) (Q : B -> C -> Prop) (S : A -> C -> Prop) a b c : (forall x y z, P x y -> Q y z -> S x z) -> Forall2 P a b -> Forall2 Q b c -> Forall2 S a c.
Proof. intros X F. revert c. induction F as [|x y a b H F IH]; intros c G; inversion G as [|? z ? c' H' G']; subst; constructor; eauto. Qed.

Section Again.
Variables (h : heap) (m : fmodel) (t : tree) (h1 : heap) (m1 : fmodel) (t1 : tree).
Hypothesis R : represents h m t.
Hypothesis Rs : all_resolved m.
Hypothesis W : writable h m.
Hypothesis Mb : model_back h m h1 m1.
Hypothesis R1 : represents h1 m1 t1.
Hypothesis Rs1 : all_resolved m1.

Lemma origin s i1 g : get_feature m1 s = Some i1 -> feature_at h1 i1 = Some g -> exists i f, get_feature m s = Some i /\ feature_at h i = Some f /\ back f g.
Proof.
  intros G1 F1. destruct (proj2 (back_names _ _ _ _ Mb s) (ex_intro _ _ G1)) as (i & G). destruct (names_data h m t R s i G) as (f & F & _). destruct (mb_features _ _ _ _ Mb s i f G F) as (i' & g' & G' & F' & B).
  exists i, f. split; [exact G|]. split; [exact F|]. assert (i' = i1) as -> by congruence. congruence.
Qed.
Lemma root_again s i i1 : get_feature m s = Some i -> get_feature m1 s = Some i1 -> (m_root m1 = Some i1 <-> m_root m = Some i).
Proof.
  intros G G1. destruct (mb_root _ _ _ _ Mb) as (r & Gr & Gr1 & N). destruct (m_root m1) as [r1|] eqn:E1; [|congruence]. pose proof (top_id h m t R) as E. split; intros X.
  - injection X as ->. rewrite (same_name h1 m1 t1 R1 r s i1 Gr1 G1) in Gr. congruence.
  - rewrite X in Gr. rewrite (same_name h m t R r s i Gr G) in Gr1. congruence.
Qed.
Lemma spelled_of c : In c (all_constraints m1) -> exists e, spelled h1 (c_expr c) e.
Proof. intros I. exact (spelled_exists h1 m1 t1 (c_expr c) R1 (fun r => Rs1 c r I)). Qed.

Lemma writable_again : writable h1 m1.
Proof.
  constructor.
  - intros s i1 g G1 F1. destruct (origin s i1 g G1 F1) as (i & f & G & F & N & _ & K & X). destruct (wr_features h m W s i f G F) as (W1 & W2 & W3 & W4). unfold writable_feature. rewrite N. split; [exact W1|]. split; [exact W2|]. split.
    + destruct (f_kind f) as [|[lo hi|vs] st| |]; cbn in K, W3; [rewrite K; exact Logic.I|rewrite K; exact W3| |rewrite K; exact Logic.I|destruct W3].
      destruct K as (ws & -> & (a & b & v & -> & -> & Fb)). cbn. destruct W3 as (_ & W3). split; [destruct b; discriminate|]. apply Forall_app in W3. apply Forall_app. split; [|apply W3].
      clear - Fb. induction Fb as [|x y a b (Ry & _) Fb IH]; constructor; [|exact IH]. unfold is_int64, int64_min, int64_max. change (2 ^ 31)%Z with 2147483648%Z in Ry. lia.
    + assert (Y : f_locations g = [] \/ f_locations g = map place_back (f_locations f)) by (destruct (f_kind f); destruct X; auto).
      destruct Y as [-> | ->]; [constructor|]. clear - W4. induction W4 as [|r l P W4 IH]; constructor; [exact P|exact IH].
  - intros s i1 G1. destruct (proj2 (back_names _ _ _ _ Mb s) (ex_intro _ _ G1)) as (i & G). rewrite (root_again s i i1 G G1). exact (wr_root h m W s i G).
  - intros s i1 g G1 F1. destruct (origin s i1 g G1 F1) as (i & f & G & F & N & _ & K & X). rewrite (root_again s i i1 G G1), (kind_root _ _ K). exact (wr_kind h m W s i f G F).
  - rewrite (mb_name _ _ _ _ Mb). apply W.
  - rewrite (mb_path _ _ _ _ Mb). apply W.
  - rewrite (mb_commit _ _ _ _ Mb). apply W.
  - intros c I. destruct (spelled_of c) as (e & Sp); [unfold all_constraints; apply in_or_app; auto|]. destruct (pair_dec e) as [P|Np]; [left; exact (pair_spelled _ _ _ Sp P)|]. right. exists e. split; [exact Sp|].
    assert (B : boolean_back h m e) by (apply (mb_boolean _ _ _ _ Mb); exists c; auto). destruct B as [(P & _)|[X|X]]; [contradiction| |].
    + destruct X as (a & b & i & j & -> & _). destruct Np. eexists _, _, _. split; [right|]; reflexivity.
    + destruct X as (c0 & -> & Np0 & d & Id & Sd). apply implies_expressible. destruct (wr_boolean h m W d Id) as [P|(e0 & S0 & X0)]; [apply (spelled_pair h _ _ Sd) in P; contradiction|]. rewrite (spelled_unique h _ _ _ Sd S0). exact X0.
  - intros c I. destruct (forall2_right _ _ _ (mb_nonboolean _ _ _ _ Mb) c I) as (d & Id & e & Sd & Sc). destruct (wr_nonboolean h m W d Id) as (e0 & S0 & X0). rewrite (spelled_unique h _ _ _ Sd S0) in Sc. exists (excludes_as_implies e0). split; [exact Sc|apply implies_expressible; exact X0].
  - intros x I. destruct (forall2_right _ _ _ (mb_mixed _ _ _ _ Mb) x I) as (d & Id & (e & Sd & Sc) & _). destruct (wr_mixed h m W d Id) as (e0 & S0 & X0). rewrite (spelled_unique h _ _ _ Sd S0) in Sc. exists (excludes_as_implies e0). split; [exact Sc|apply implies_expressible; exact X0].
Qed.

Lemma back_twice h2 m2 : model_back h1 m1 h2 m2 -> model_back h m h2 m2.
Proof.
  intros Mc. constructor; try apply Mc.
  - rewrite (mb_name _ _ _ _ Mc). apply Mb.
  - rewrite (mb_path _ _ _ _ Mc). apply Mb.
  - rewrite (mb_commit _ _ _ _ Mc). apply Mb.
  - rewrite (mb_names _ _ _ _ Mc). apply Mb.
  - destruct (mb_root _ _ _ _ Mb) as (r & Gr & Gr1 & N). destruct (mb_root _ _ _ _ Mc) as (r' & Gr' & Gr2 & N'). destruct (m_root m1) as [r1|]; [|congruence]. rewrite (same_name h1 m1 t1 R1 r r' r1 Gr1 Gr') in Gr. eauto.
  - intros s i f G F. destruct (mb_features _ _ _ _ Mb s i f G F) as (i1 & g & G1 & F1 & B). destruct (mb_features _ _ _ _ Mc s i1 g G1 F1) as (i2 & k & G2 & F2 & B'). exists i2, k. split; [exact G2|]. split; [exact F2|]. exact (back_same f g k B (back_again f g k B B')).
  - intros s p. rewrite (mb_parents _ _ _ _ Mc s p). apply Mb.
  - intros s p p2 G G2. destruct (proj1 (back_names _ _ _ _ Mb s) (ex_intro _ _ G)) as (p1 & G1). destruct (mb_groups _ _ _ _ Mc s p1 p2 G1 G2) as (X & Y & Z). pose proof (apart_again h m t h1 m1 t1 R W Mb R1 s p p1 Rs G G1) as A. split; [rewrite X; exact A|]. split; [exact Y|]. intros i C. destruct (Z i C) as (Z1 & Z2). tauto.
  - intros e. rewrite (mb_boolean _ _ _ _ Mc e). exact (boolean_again h m t h1 m1 t1 R Mb R1 e Rs).
  - apply (forall2_chain (constraint_back h h1) (constraint_back h1 h2) _ _ (m_nonboolean m1)); [|apply Mb|apply Mc]. intros x y z (e & S0 & S1) (e' & S1' & S2). exists e. split; [exact S0|]. rewrite <- (spelled_unique _ _ _ _ S1 S1'), implies_twice in S2. exact S2.
  - eapply forall2_chain; [|exact (mb_mixed _ _ _ _ Mb)|exact (mb_mixed _ _ _ _ Mc)]. intros x y z ((e & S0 & S1) & Q1 & K1) ((e' & S1' & S2) & Q2 & K2). split; [|split; congruence]. exists e. split; [exact S0|]. rewrite <- (spelled_unique _ _ _ _ S1 S1'), implies_twice in S2. exact S2.
Qed.
End Again.

(** What is read back is determined by the model that was written. *)
Lemma hangs_one h m t h1 m1 t1 h2 m2 t2 : represents h m t -> model_back h m h1 m1 -> represents h1 m1 t1 -> model_back h m h2 m2 -> represents h2 m2 t2 ->
  forall s u i i' p p' g, get_feature m1 s = Some i -> get_feature m2 s = Some i' -> get_feature m1 u = Some p -> get_feature m2 u = Some p' -> hangs h1 i p g -> hangs h2 i' p' g.
Proof.
  intros R Mb R1 Mc R2 s u i i' p p' g Gi Gi' Gp Gp' H. destruct (proj2 (back_names _ _ _ _ Mb u) (ex_intro _ _ Gp)) as (p0 & Gp0).
  assert (C1 : child_in h1 m1 p i) by (split; [eauto|exact (hangs_above h1 m1 t1 R1 i p g u H Gp)]).
  assert (C2 : child_in h2 m2 p' i').
  { apply (child_name h2 m2 p' i' u (names_data h2 m2 t2 R2) Gp'). exists s. split; [exact Gi'|]. apply (mb_parents _ _ _ _ Mc), (mb_parents _ _ _ _ Mb). exists i, p. split; [exact Gi|]. split; [exact Gp|apply C1]. }
  destruct (mb_groups _ _ _ _ Mb u p0 p Gp0 Gp) as (X1 & Y1 & Z1). destruct (mb_groups _ _ _ _ Mc u p0 p' Gp0 Gp') as (X2 & Y2 & Z2). destruct g as [k|].
  - destruct (get_stored h1 m1 t1 R1 s i Gi) as (f & S1 & _). pose proof (hangs_group_of h1 m1 t1 R1 i f p k S1 H) as Go. destruct k; [|contradiction]. apply X1 in Go. exact (proj1 (Z2 i' C2) Go).
  - apply (proj2 (Z2 i' C2)). intros A. pose proof (proj1 (Z1 i C1) A) as (c & Ci & q & cq & Pq & Cq & Dq & _). destruct H as (c' & Ci' & Pp). assert (q = p) as -> by congruence.
    destruct (names_data h1 m1 t1 R1 u p Gp) as (f & F & _). unfold feature_at in F. rewrite Cq in F. cbn in F. rewrite Dq in F. discriminate.
Qed.
Lemma back_determined h m t h1 m1 h2 m2 : represents h m t -> model_back h m h1 m1 -> model_back h m h2 m2 -> same_model h1 m1 h2 m2.
Proof.
  intros R Mb Mc. destruct (mb_represented _ _ _ _ Mb) as (t1 & R1). destruct (mb_represented _ _ _ _ Mc) as (t2 & R2). constructor.
  - rewrite (mb_name _ _ _ _ Mb). apply Mc.
  - rewrite (mb_path _ _ _ _ Mb). apply Mc.
  - rewrite (mb_commit _ _ _ _ Mb). apply Mc.
  - rewrite (mb_names _ _ _ _ Mb). apply Mc.
  - destruct (mb_root _ _ _ _ Mb) as (r & Gr & Gr1 & N). destruct (mb_root _ _ _ _ Mc) as (r' & Gr' & Gr2 & N'). rewrite (top_id h m t R) in Gr, Gr'. rewrite (same_name h m t R r r' _ Gr Gr') in Gr1. eauto.
  - intros s i i' f g G1 G2 F1 F2. destruct (origin h m t h1 m1 R Mb s i f G1 F1) as (j & k & Gj & Fk & B). destruct (origin h m t h2 m2 R Mc s i' g G2 F2) as (j' & k' & Gj' & Fk' & B').
    assert (j' = j) as -> by congruence. assert (k' = k) as -> by congruence. exact (back_unique k f g B B').
  - intros s u i i' p p' g Gi Gi' Gp Gp'. split; [exact (hangs_one h m t h1 m1 t1 h2 m2 t2 R Mb R1 Mc R2 s u i i' p p' g Gi Gi' Gp Gp')|exact (hangs_one h m t h2 m2 t2 h1 m1 t1 R Mc R2 Mb R1 s u i' i p' p g Gi' Gi Gp' Gp)].
  - intros u p p' k Gp Gp'. destruct (proj2 (back_names _ _ _ _ Mb u) (ex_intro _ _ Gp)) as (p0 & Gp0). destruct (mb_groups _ _ _ _ Mb u p0 p Gp0 Gp) as (X1 & Y1 & _). destruct (mb_groups _ _ _ _ Mc u p0 p' Gp0 Gp') as (X2 & Y2 & _). destruct k; tauto.
  - intros e. rewrite (mb_boolean _ _ _ _ Mb e), (mb_boolean _ _ _ _ Mc e). tauto.
  - eapply forall2_join; [|exact (mb_nonboolean _ _ _ _ Mb)|exact (mb_nonboolean _ _ _ _ Mc)]. intros x y z (e & S0 & S1) (e' & S0' & S2). exists (excludes_as_implies e). split; [exact S1|]. rewrite (spelled_unique _ _ _ _ S0 S0'). exact S2.
  - eapply forall2_join; [|exact (mb_mixed _ _ _ _ Mb)|exact (mb_mixed _ _ _ _ Mc)]. intros x y z ((e & S0 & S1) & Q1 & K1) ((e' & S0' & S2) & Q2 & K2). split; [|split; congruence]. exists (excludes_as_implies e). split; [exact S1|]. rewrite (spelled_unique _ _ _ _ S0 S0'). exact S2.
Qed.

(** ** Any number of times *)
Lemma cycle_states n : forall h m t h' m', represents h m t -> enrolled h m -> all_resolved m -> writable h m -> cycles n h m h' m' ->
  (exists t', represents h' m' t') /\ enrolled h' m' /\ all_resolved m' /\ writable h' m' /\ (n <> 0 -> model_back h m h' m').
Proof.
  induction n as [|n IH]; intros h m t h' m' R En Rs W C; inversion C as [|? ? ? h1 m1 ord ord' sci step cwd h0 doc ? ? C1 Ho Ho' Hs H0 Wr Rd]; subst.
  - split; [eauto|]. repeat (split; [assumption|]). intros N. destruct (N eq_refl).
  - destruct (IH h m t h1 m1 R En Rs W C1) as ((t1 & R1) & En1 & Rs1 & W1 & B1). destruct (written_and_read ord ord' sci step cwd h1 m1 t1 h0 Ho Ho' Hs R1 En1 Rs1 W1 H0) as (doc' & h2 & m2 & Wr' & _ & Rd' & Mb & En2 & Rs2).
    assert (doc' = doc) as -> by congruence. rewrite Rd in Rd'. injection Rd' as <- <-. pose proof (mb_represented _ _ _ _ Mb) as (t2 & R2). split; [eauto|]. split; [exact En2|]. split; [exact Rs2|].
    split; [exact (writable_again h1 m1 t1 h' m' t2 R1 W1 Mb R2 Rs2)|]. intros _. destruct n as [|n].
    + inversion C1; subst. exact Mb.
    + exact (back_twice h m t h1 m1 t1 R Rs W (B1 (Nat.neq_succ_0 n)) R1 h' m' Mb).
Qed.
Theorem cycles_go_on h m t n h1 m1 ord ord' sci step cwd h0 : represents h m t -> enrolled h m -> all_resolved m -> writable h m -> cycles n h m h1 m1 -> is_order ord -> is_order ord' -> sci_nonneg sci -> heap_ok h0 ->
  exists doc h2 m2, write_xml ord h1 m1 = Some doc /\ read_xml ord' sci step cwd h0 doc = SxDone (h2, Some m2).
Proof.
  intros R En Rs W C Ho Ho' Hs H0. destruct (cycle_states n h m t h1 m1 R En Rs W C) as ((t1 & R1) & En1 & Rs1 & W1 & _).
  destruct (written_and_read ord ord' sci step cwd h1 m1 t1 h0 Ho Ho' Hs R1 En1 Rs1 W1 H0) as (doc & h2 & m2 & Wr & _ & Rd & _). eauto.
Qed.
Theorem cycles_back h m t n h1 m1 : represents h m t -> enrolled h m -> all_resolved m -> writable h m -> cycles (S n) h m h1 m1 -> model_back h m h1 m1.
Proof. intros R En Rs W C. exact (proj2 (proj2 (proj2 (proj2 (cycle_states (S n) h m t h1 m1 R En Rs W C)))) (Nat.neq_succ_0 n)). Qed.
Theorem cycles_same h m t n k h1 m1 h2 m2 : represents h m t -> enrolled h m -> all_resolved m -> writable h m -> cycles (S n) h m h1 m1 -> cycles (S k) h m h2 m2 -> same_model h1 m1 h2 m2.
Proof. intros R En Rs W C1 C2. exact (back_determined h m t h1 m1 h2 m2 R (cycles_back h m t n h1 m1 R En Rs W C1) (cycles_back h m t k h2 m2 R En Rs W C2)). Qed.
