(** Merging models. *)
From Coq Require Import List ZArith Arith Bool Ascii String Permutation Lia.
From Verif Require Import Text TextProofs ConstraintModel ConstraintSpec SourceRangeModel FeatureTreeModel FeatureTreeSpec FeatureTreeProofs FeatureOrderProofs
  FeatureTreeFinal FeatureTransactionModel FeatureEditSpec FeatureEditProofs FeatureOpsProofs FeatureRemoveProofs FeatureGroupProofs FeatureDataProofs
  FeatureHistoryProofs FeatureTransactionSpec FeatureTransactionFinal FeatureBuildSpec FeatureBuildProofs FeatureBuildFinal FeatureCloneSpec FeatureCloneProofs
  FeatureIsolationProofs FeatureMergeSpec.
Import ListNotations.

(** ** Comparing features *)
Lemma zs_eqb_eq a : forall b, zs_eqb a b = true <-> a = b.
Proof.
  induction a as [|x a IH]; intros [|y b]; cbn [zs_eqb]; try (split; [discriminate|discriminate]); [tauto|].
  rewrite andb_true_iff, Z.eqb_eq, IH. split; [intros [-> ->]; reflexivity|]. intros E. injection E. tauto.
Qed.
Lemma values_eqb_eq a b : values_eqb a b = true <-> a = b.
Proof.
  destruct a as [x y|l], b as [x' y'|l']; cbn [values_eqb]; try (split; [discriminate|discriminate]).
  - rewrite andb_true_iff, !Z.eqb_eq. split; [intros [-> ->]; reflexivity|]. intros E. injection E. tauto.
  - rewrite zs_eqb_eq. split; [intros ->; reflexivity|]. intros E. injection E. tauto.
Qed.

Lemma above_same N h0 h i p : (forall i, i < N -> h_cells h i = h_cells h0 i) -> (forall i, N <= i -> h_cells h0 i = None) ->
  feature_above h0 i p -> feature_above h i p.
Proof.
  intros S K. assert (L : forall j c, h_cells h0 j = Some c -> h_cells h j = Some c).
  { intros j c C. rewrite S; [exact C|]. destruct (le_lt_dec N j) as [G|G]; [|exact G]. rewrite (K j G) in C. discriminate. }
  induction 1 as [i c p cp C P Cp F|i c p cp q C P Cp F A IH].
  - eapply above_here; eauto.
  - eapply above_further; eauto.
Qed.

Section Compare.
Variables (h : heap) (m1 m2 : fmodel) (t1 t2 : tree).
Hypothesis R1 : represents h m1 t1.
Hypothesis R2 : represents h m2 t2.

Lemma node_above m t s i : represents h m t -> In (s, i) (m_features m) -> i <> rid t -> exists c p cp,
  h_cells h i = Some c /\ n_parent c = Some p /\ h_cells h p = Some cp.
Proof.
  intros R X N. destruct (entry_facts h m t R s i X) as (_ & _ & [(E & _)|(_ & _ & u & p & P & _)]); [contradiction|].
  apply parent_feature_above in P. inversion P as [? c q cp C Q Cq F|? c q cp ? C Q Cq F A]; subst; eauto 10.
Qed.

Lemma in_group_spec i c p cp : h_cells h i = Some c -> n_parent c = Some p -> h_cells h p = Some cp ->
  (in_group h i <-> is_feature (n_data cp) = false).
Proof.
  intros C P Cp. split.
  - intros (c0 & p0 & cp0 & k & C0 & P0 & Cp0 & D). assert (c0 = c) as -> by congruence. assert (p0 = p) as -> by congruence.
    assert (cp0 = cp) as -> by congruence. rewrite D. reflexivity.
  - destruct (n_data cp) as [f|k] eqn:D; [discriminate|]. intros _. exists c, p, cp, k. auto.
Qed.

Lemma compare_spec strict s i j f g : get_feature m1 s = Some i -> get_feature m2 s = Some j ->
  feature_at h i = Some f -> feature_at h j = Some g ->
  exists b, compare_properties h i j strict = Some b /\
    (b = true <-> parents_alike h i j f g /\ (strict = true -> strictly_alike h i j f g)).
Proof.
  intros G1 G2 Ff Fg. apply (entry_find h m1 t1 R1) in G1. apply (entry_find h m2 t2 R2) in G2.
  destruct (entry_facts h m1 t1 R1 s i G1) as (F1 & N1 & C1). destruct (entry_facts h m2 t2 R2 s j G2) as (F2 & N2 & C2).
  assert (fd h i = f) as E1 by congruence. assert (fd h j = g) as E2 by congruence. rewrite E1 in *. rewrite E2 in *.
  unfold compare_properties. rewrite Ff, Fg. cbn [bind].
  assert (text_eqb (f_name f) (f_name g) = true) as -> by (apply text_eqb_eq; congruence). cbn [negb].
  match goal with |- context [bind ?x _] => assert (exists a, x = Some a /\ (a = true <-> parents_alike h i j f g)) as (a & Ea & Pa) end.
  { unfold is_root_kind. destruct (f_kind f) as [|v1 st1| |] eqn:Kf; destruct (f_kind g) as [|v2 st2| |] eqn:Kg; cbn [orb];
      try (exists true; split; [reflexivity|]; split; [intros _; unfold parents_alike; tauto|reflexivity]).
    all: destruct C1 as [(_ & K & _)|(_ & _ & u & p & P & Ip & Np)]; [congruence|]; destruct C2 as [(_ & K & _)|(_ & _ & v & q & Q & Iq & Nq)]; [congruence|];
      rewrite P, Q; cbn [bind]; unfold lower_at; rewrite Np, Nq; cbn [bind]; eexists; (split; [reflexivity|]); rewrite text_eqb_eq; unfold parents_alike; split;
      [intros L; right; right; exists p, q, u, v; repeat (split; [apply parent_feature_above; assumption|]); auto|].
    all: intros [X|[X|(p0 & q0 & u0 & v0 & A & B & Np0 & Nq0 & L)]]; [congruence|congruence|].
    all: assert (p0 = p) as -> by (eapply feature_above_unique; [exact A|apply parent_feature_above; exact P]);
      assert (q0 = q) as -> by (eapply feature_above_unique; [exact B|apply parent_feature_above; exact Q]); congruence. }
  rewrite Ea. cbn [bind]. destruct a; cbn [negb].
  2:{ exists false. split; [reflexivity|]. split; [discriminate|]. intros (X & _). apply Pa. exact X. }
  destruct strict; cbn [negb].
  2:{ exists true. split; [reflexivity|]. split; [|reflexivity]. intros _. split; [apply Pa; reflexivity|discriminate]. }
  assert (PA : parents_alike h i j f g) by (apply Pa; reflexivity). unfold strictly_alike.
  destruct (Bool.eqb (f_optional f) (f_optional g)) eqn:Op; cbn [negb].
  2:{ exists false. split; [reflexivity|]. split; [discriminate|]. intros (_ & X). destruct (X eq_refl) as (Y & _). rewrite Y, eqb_reflx in Op. discriminate. }
  apply eqb_prop in Op.
  destruct (same_kind (f_kind f) (f_kind g)) eqn:Sk; cbn [negb].
  2:{ exists false. split; [reflexivity|]. split; [discriminate|]. intros (_ & X). destruct (X eq_refl) as (_ & Y).
      destruct (f_kind f), (f_kind g); try discriminate; contradiction. }
  destruct (is_root_kind f) eqn:Kf.
  { exists true. split; [reflexivity|]. split; [|reflexivity]. intros _. split; [exact PA|]. intros _. split; [exact Op|].
    unfold is_root_kind in Kf. destruct (f_kind f), (f_kind g); try discriminate. exact I. }
  assert (i <> rid t1) as Ni.
  { destruct C1 as [(_ & K & _)|(X & _)]; [unfold is_root_kind in Kf; rewrite K in Kf; discriminate|exact X]. }
  assert (j <> rid t2) as Nj.
  { destruct C2 as [(_ & K & _)|(X & _)]; [|exact X]. unfold is_root_kind in Kf. rewrite K in Sk. destruct (f_kind f); discriminate. }
  destruct (node_above m1 t1 s i R1 G1 Ni) as (ca & p & cp & Ca & P & Cp). destruct (node_above m2 t2 s j R2 G2 Nj) as (cb & q & cq & Cb & Q & Cq).
  rewrite Ca, Cb. cbn [bind]. rewrite P, Q. cbn [bind]. rewrite Cp, Cq. cbn [bind].
  assert (IG : Bool.eqb (is_feature (n_data cp)) (is_feature (n_data cq)) = true <-> (in_group h i <-> in_group h j)).
  { rewrite (in_group_spec i ca p cp Ca P Cp), (in_group_spec j cb q cq Cb Q Cq).
    destruct (is_feature (n_data cp)), (is_feature (n_data cq)); cbn; intuition congruence. }
  destruct (Bool.eqb (is_feature (n_data cp)) (is_feature (n_data cq))); cbn [negb].
  2:{ exists false. split; [reflexivity|]. split; [discriminate|]. intros (_ & X). destruct (X eq_refl) as (_ & Y). unfold is_root_kind in Kf.
      destruct (f_kind f), (f_kind g); try discriminate; try contradiction; [apply IG; exact Y|apply IG; apply Y]. }
  unfold is_root_kind in Kf.
  destruct (f_kind f) as [|v st| |], (f_kind g) as [|w st'| |]; try discriminate.
  - exists true. split; [reflexivity|]. split; [|reflexivity]. intros _. split; [exact PA|]. intros _. split; [exact Op|]. apply IG. reflexivity.
  - eexists. split; [reflexivity|]. rewrite values_eqb_eq. split.
    + intros ->. split; [exact PA|]. intros _. split; [exact Op|]. split; [reflexivity|]. apply IG. reflexivity.
    + intros (_ & X). apply X. reflexivity.
  - exists false. split; [reflexivity|]. split; [discriminate|]. intros (_ & X). destruct (X eq_refl) as (_ & []).
Qed.
End Compare.
