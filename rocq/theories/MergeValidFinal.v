(** Configurations of merged models: extension, both models, and what merging loses. *)
From Coq Require Import List ZArith Arith Bool Ascii String Permutation Lia.
From Verif Require Import Text TextProofs ConstraintModel ConstraintSpec SourceRangeModel FeatureTreeModel FeatureTreeSpec FeatureTreeProofs FeatureTransactionModel FeatureTransactionSpec FeatureEditSpec
  FeatureEditProofs FeatureHistoryProofs FeatureTransactionFinal FeatureBuildSpec FeatureCloneSpec FeatureCloneProofs FeatureMergeSpec FeatureMergeResult SxfmModel XmlModel XmlSpec ConfigurationModel SolverModel SolverSpec SolverProofs
  SolverLoadProofs SolverEncodingProofs ValidSpec ValidProofs ValidCloneProofs ValidFinal EditValidSpec EditValidOps MergeValidSpec MergeValidProofs.
Import ListNotations.

Section Extension.
Variables (h : heap) (m1 m2 : fmodel) (t1 t2 : tree).
Hypothesis R1 : represents h m1 t1.
Hypothesis R2 : represents h m2 t2.
Hypothesis Sh : root_shared m1 m2.
Variable strict : bool.
Hypothesis Fit : mergeable strict h m1 m2.
Variable a : assignment.

(** Names of new features take the selection of the nearest shared feature above. *)
Fixpoint follow (k : nat) (s : text) : bool :=
  match get_feature m1 s with
  | Some _ => a_bool a s
  | None =>
      match k with
      | 0 => false
      | S k =>
          match get_feature m2 s with
          | Some j => match parent_feature h j with Some (Some p) => match name_at h p with Some u => follow k u | None => false end | _ => false end
          | None => false
          end
      end
  end.
Definition settled (d : nat) (s : text) : Prop := forall k, d <= k -> follow k s = follow d s.
Lemma follow_first k s i : get_feature m1 s = Some i -> follow k s = a_bool a s.
Proof. intros G. destruct k; cbn [follow]; rewrite G; reflexivity. Qed.
Lemma follow_new k s j g u p : get_feature m1 s = None -> get_feature m2 s = Some j -> feature_at h j = Some g -> get_feature m2 u = Some p -> feature_above h j p ->
  follow (S k) s = follow k u.
Proof.
  intros N G F Gu Ab. destruct (get_stored h m2 t2 R2 s j G) as (g0 & Sg & _). assert (g0 = g) as -> by (destruct Sg; congruence).
  destruct (hangs_below h m2 t2 R2 j g Sg (proj1 (second_kind h m1 m2 t2 strict R2 Sh Fit s j g N G F))) as (p0 & g0 & r & _ & _ & P & _).
  assert (p0 = p) as -> by (eapply feature_above_unique; [apply parent_feature_above; exact P|exact Ab]).
  cbn [follow]. rewrite N, G, P. destruct (get_stored h m2 t2 R2 u p Gu) as (gu & Sgu & <-). rewrite (stored_name h m2 p gu Sgu). reflexivity.
Qed.
Lemma settles_up i r : reaches h i r -> m_root m2 = Some r -> forall p s, (p = i \/ feature_above h i p) -> get_feature m2 s = Some p -> exists d, settled d s.
Proof.
  intros Re Rt. induction Re as [i c C|i c q r C P Re IH].
  - pose proof (represents_tree_shaped _ _ _ R2) as TS. destruct (ts_root _ _ TS) as (r & cr & fr & Er & _ & Cr & Pr & _). assert (r = i) as -> by congruence.
    intros p s [->|Ab] G.
    + destruct Sh as (u & r & Ru & Gu & (x & Gx)). assert (r = i) as -> by congruence. destruct (get_stored h m2 t2 R2 u i Gu) as (f1 & (_ & F1) & N1). destruct (get_stored h m2 t2 R2 s i G) as (f2 & (_ & F2) & N2).
      assert (u = s) as -> by congruence. exists 0. intros k _. rewrite !(follow_first _ s x Gx). reflexivity.
    + exfalso. inversion Ab; subst; congruence.
  - specialize (IH Rt). assert (Up : forall p, feature_above h i p -> p = q \/ feature_above h q p) by (intros p Ab; inversion Ab; subst; [left|right]; congruence).
    intros p s [->|Ab] G; [|exact (IH p s (Up p Ab) G)]. destruct (get_feature m1 s) as [x|] eqn:N; [exists 0; intros k _; rewrite !(follow_first _ s x N); reflexivity|].
    destruct (get_stored h m2 t2 R2 s i G) as (g & (_ & F) & _). destruct (new_parent h m1 m2 t2 strict R2 Sh Fit s i g N G F) as (u & p & Gu & Ab).
    destruct (IH p u (Up p Ab) Gu) as (d & D). exists (S d). intros [|k] K; [lia|]. rewrite !(follow_new _ s i g u p N G F Gu Ab). apply D. lia.
Qed.
Lemma settles s j : get_feature m2 s = Some j -> exists d, settled d s.
Proof.
  intros G. pose proof (represents_tree_shaped _ _ _ R2) as TS. destruct (get_stored h m2 t2 R2 s j G) as (f & (I & _) & _).
  apply (settles_up j (rid t2)) with (p := j); [|exact (rep_root _ _ _ R2)|left; reflexivity|exact G].
  apply (ts_reaches _ _ TS); [unfold nodes; apply in_or_app; left; exact I|exact (rep_root _ _ _ R2)].
Qed.
Lemma all_settle : exists d, forall s j, get_feature m2 s = Some j -> settled d s.
Proof.
  assert (X : forall l, (forall s, In s l -> exists d, settled d s) -> exists d, forall s, In s l -> settled d s).
  { induction l as [|s l IH]; intros H; [exists 0; intros s []|]. destruct (H s (or_introl eq_refl)) as (d & D). destruct IH as (e & E); [intros s' Is; apply H; right; exact Is|].
    exists (d + e). intros s' [<-|Is] k K; [rewrite (D k) by lia; rewrite (D (d + e)) by lia; reflexivity|]. rewrite (E s' Is k) by lia. rewrite (E s' Is (d + e)) by lia. reflexivity. }
  destruct (X (map fst (m_features m2))) as (d & D).
  - intros s Is. apply in_map_iff in Is. destruct Is as ((s0 & j) & E & I). cbn in E. subst s0. apply (settles s j). unfold get_feature.
    apply (find_name_in _ _ _ (ts_names _ _ (represents_tree_shaped _ _ _ R2))). exact I.
  - exists d. intros s j G. apply D. unfold get_feature in G. apply (find_name_in _ _ _ (ts_names _ _ (represents_tree_shaped _ _ _ R2))) in G. apply in_map_iff. exists (s, j). auto.
Qed.
Definition extended (d : nat) : assignment :=
  Assignment (follow d)
    (fun s => match get_feature m1 s with
      | Some _ => a_int a s
      | None => match (let* j := get_feature m2 s in feature_at h j) with Some g => match f_kind g with FNumeric (VList (z :: _)) _ => z | _ => 0%Z end | None => 0%Z end
      end) (a_div0 a).
Hypothesis Re : all_resolved m1.
Hypothesis full : forall s j g v st, get_feature m1 s = None -> get_feature m2 s = Some j -> feature_at h j = Some g -> f_kind g = FNumeric v st -> exists z vs, v = VList (z :: vs).

Lemma extends : SolverSpec.valid h m1 a -> exists b, SolverSpec.valid h m1 b /\ new_rules h m1 m2 b /\
  forall s, FeatureMergeSpec.known m1 s -> a_bool b s = a_bool a s /\ a_int b s = a_int a s.
Proof.
  intros V. destruct all_settle as (d & D). exists (extended d).
  assert (Ag : forall s, FeatureMergeSpec.known m1 s -> a_bool (extended d) s = a_bool a s /\ a_int (extended d) s = a_int a s).
  { intros s (i & G). cbn [extended a_bool a_int]. rewrite (follow_first d s i G), G. auto. }
  split; [|split; [|exact Ag]].
  - apply (valid_agree h m1 t1 a); [exact R1|exact Re| |reflexivity|exact V]. intros s Is.
    assert (K : FeatureMergeSpec.known m1 s). { apply in_map_iff in Is. destruct Is as ((s0 & i) & E & I). cbn in E. subst s0. exists i. apply (rep_find R1). exact I. }
    destruct (Ag s K). split; congruence.
  - intros s j g N G F. destruct (f_kind g) as [|v st| |] eqn:K; try exact I.
    + intros u p Gu Ab. assert (E : follow d s = follow d u). { rewrite <- (D s j G (S d)) by lia. exact (follow_new d s j g u p N G F Gu Ab). }
      unfold selected. cbn [extended a_bool]. rewrite E. auto.
    + destruct (full s j g v st N G F K) as (z & vs & ->). exists (z :: vs). split; [reflexivity|]. cbn [extended a_int]. rewrite N, G. cbn [bind]. rewrite F, K. left. reflexivity.
Qed.
End Extension.

Section Both.
Variables (h : heap) (m1 m2 : fmodel) (t1 t2 : tree).
Hypothesis R1 : represents h m1 t1.
Hypothesis R2 : represents h m2 t2.
Hypothesis Sh : root_shared m1 m2.
Hypothesis Fit : mergeable true h m1 m2.
Hypothesis Na : names_apart m1 m2.
Hypothesis Ba : bare m2.
Hypothesis Li : listed h m2.

Lemma bare_hangs s j g p r : get_feature m2 s = Some j -> feature_at h j = Some g -> hangs h j p r -> r = None.
Proof.
  intros G F H. destruct r as [k|]; [|reflexivity]. exfalso. destruct (get_stored h m2 t2 R2 s j G) as (g0 & Sg & _).
  destruct (hangs_group h m2 t2 R2 j g0 p k Sg H) as (c & q & cq & _ & _ & Q & _). rewrite (proj1 Ba) in Q. destruct Q.
Qed.
(** A shared feature has its parent in both models. *)
Lemma shared_parent s i j f g u p r : get_feature m1 s = Some i -> feature_at h i = Some f -> get_feature m2 s = Some j -> feature_at h j = Some g -> hangs h j p r -> get_feature m2 u = Some p -> f_kind g = FBinary ->
  f_kind f = FBinary /\ f_optional f = f_optional g /\ exists p1 g1, stored h m1 p1 g1 /\ f_name g1 = u /\ hangs h i p1 None.
Proof.
  intros G1 F1 G2 F2 H Gu K. pose proof (Fit s j g G2 F2) as X. unfold FeatureMergeSpec.fits in X. rewrite G1 in X. destruct X as (f0 & F0 & Pa & St). assert (f0 = f) as -> by congruence.
  destruct (St eq_refl) as (O & Kk). rewrite K in Kk. destruct (f_kind f) eqn:Kf; try contradiction. split; [reflexivity|]. split; [exact O|].
  destruct Pa as [X|[X|(p1 & q & x & y & A1 & A2 & N1 & N2 & L)]]; [congruence|congruence|].
  pose proof (hangs_above h m2 t2 R2 j p r u H Gu) as Ab. assert (q = p) as -> by (eapply feature_above_unique; eauto).
  destruct (get_stored h m1 t1 R1 s i G1) as (f0 & Sf & Nf). assert (f0 = f) as -> by (destruct Sf; congruence).
  destruct (hangs_below h m1 t1 R1 i f Sf) as (p0 & g0 & r0 & H0 & S0 & _ & _); [congruence|].
  assert (p0 = p1) as -> by (eapply feature_above_unique; [exact (hangs_above h m1 t1 R1 i p0 r0 _ H0 (stored_get h m1 t1 R1 p0 g0 S0))|exact A1]).
  rewrite (stored_name h m1 p1 g0 S0) in N1. injection N1 as <-. destruct (get_stored h m2 t2 R2 u p Gu) as (gu & Su & <-). rewrite (stored_name h m2 p gu Su) in N2. injection N2 as <-.
  exists p1, g0. split; [exact S0|]. split; [apply Na; [exists p1; exact (stored_get h m1 t1 R1 p1 g0 S0)|exists p; exact Gu|exact L]|].
  destruct r0 as [k|]; [|exact H0]. exfalso. destruct H0 as (c & C & q & cq & Pq & Cq & Dq & _).
  assert (IG : in_group h i) by (exists c, q, cq, k; auto). apply Kk in IG. destruct IG as (c2 & q2 & cq2 & k2 & C2 & P2 & Cq2 & D2).
  pose proof (bare_hangs s j g p r G2 F2 H) as ->. destruct H as (c3 & C3 & P3). assert (q2 = p) as -> by congruence.
  pose proof (proj2 Su) as Fu. unfold feature_at in Fu. rewrite Cq2 in Fu. cbn [bind] in Fu. rewrite D2 in Fu. discriminate.
Qed.

Lemma both a : SolverSpec.valid h m1 a -> (new_rules h m1 m2 a <-> SolverSpec.valid h m2 a).
Proof.
  intros V. destruct Ba as (B1 & B2 & B3 & B4). split.
  - intros W. constructor.
    + intros j g Sg K. pose proof (stored_get h m2 t2 R2 j g Sg) as G. pose proof (ts_one_root _ _ (represents_tree_shaped _ _ _ R2) j g (proj1 Sg) (proj2 Sg) K) as Rt.
      destruct Sh as (u & r & Ru & Gu & (i & Gi)). assert (r = j) as -> by congruence. rewrite (get_name h m2 t2 R2 u j g Gu (proj2 Sg)) in *.
      pose proof (Fit u j g Gu (proj2 Sg)) as X. unfold FeatureMergeSpec.fits in X. rewrite Gi in X. destruct X as (f & F & _ & St). destruct (St eq_refl) as (_ & Kk). rewrite K in Kk.
      destruct (get_stored h m1 t1 R1 u i Gi) as (f0 & Sf & <-). assert (f0 = f) as -> by (destruct Sf; congruence). apply (v_root _ _ _ V i f Sf). destruct (f_kind f); try contradiction. reflexivity.
    + intros j g p gp r Sg K H Fp S. pose proof (stored_get h m2 t2 R2 j g Sg) as G. destruct (hangs_parent h m2 t2 R2 j p r g Sg H (ex_intro _ gp Fp)) as (u & Gu).
      rewrite (get_name h m2 t2 R2 u p gp Gu Fp). destruct (get_feature m1 (f_name g)) as [i|] eqn:G1.
      * destruct (get_stored h m1 t1 R1 _ i G1) as (f & Sf & Nf). destruct (shared_parent _ i j f g u p r G1 (proj2 Sf) G (proj2 Sg) H Gu K) as (Kf & _ & p1 & g1 & S1 & <- & H1).
        apply (v_parent _ _ _ V i f p1 g1 None Sf Kf H1 (proj2 S1)). rewrite Nf. exact S.
      * specialize (W _ j g G1 G (proj2 Sg)). rewrite K in W. exact (proj1 (W u p Gu (hangs_above h m2 t2 R2 j p r u H Gu)) S).
    + intros j g p gp Sg K O H Fp S. pose proof (stored_get h m2 t2 R2 j g Sg) as G. destruct (hangs_parent h m2 t2 R2 j p None g Sg H (ex_intro _ gp Fp)) as (u & Gu).
      rewrite (get_name h m2 t2 R2 u p gp Gu Fp) in S. destruct (get_feature m1 (f_name g)) as [i|] eqn:G1.
      * destruct (get_stored h m1 t1 R1 _ i G1) as (f & Sf & Nf). destruct (shared_parent _ i j f g u p None G1 (proj2 Sf) G (proj2 Sg) H Gu K) as (Kf & Of & p1 & g1 & S1 & <- & H1).
        rewrite <- Nf. apply (v_mandatory _ _ _ V i f p1 g1 Sf Kf); [congruence|exact H1|exact (proj2 S1)|exact S].
      * specialize (W _ j g G1 G (proj2 Sg)). rewrite K in W. exact (proj2 (W u p Gu (hangs_above h m2 t2 R2 j p None u H Gu)) O S).
    + intros n ns (q & _ & _ & Q & _). rewrite B1 in Q. destruct Q.
    + intros n ns (q & _ & _ & Q & _). rewrite B1 in Q. destruct Q.
    + intros j g v st Sg K. pose proof (stored_get h m2 t2 R2 j g Sg) as G. destruct (get_feature m1 (f_name g)) as [i|] eqn:G1.
      * destruct (get_stored h m1 t1 R1 _ i G1) as (f & Sf & Nf). pose proof (Fit _ j g G (proj2 Sg)) as X. unfold FeatureMergeSpec.fits in X. rewrite G1 in X. destruct X as (f0 & F & _ & St).
        assert (f0 = f) as -> by (destruct Sf; congruence). destruct (St eq_refl) as (_ & Kk). rewrite K in Kk. destruct (f_kind f) as [|v1 st1| |] eqn:Kf; try contradiction. destruct Kk as (-> & _).
        destruct (Li _ j g v st G (proj2 Sg) K) as (vs & ->). pose proof (v_values _ _ _ V i f _ _ Sf Kf) as Av. rewrite Nf in Av. exact Av.
      * specialize (W _ j g G1 G (proj2 Sg)). rewrite K in W. destruct W as (vs & -> & Iv). exact Iv.
    + rewrite B2, B3. intros c [].
    + rewrite B4. intros c [].
  - intros W s j g N G F. destruct (get_stored h m2 t2 R2 s j G) as (g0 & Sg & Ns). assert (g0 = g) as -> by (destruct Sg; congruence). destruct (f_kind g) as [|v st| |] eqn:K; try exact I.
    + intros u p Gu Ab. destruct (above_hangs h m2 t2 R2 j p s G Ab) as (r & H). pose proof (bare_hangs s j g p r G F H) as ->.
      destruct (get_stored h m2 t2 R2 u p Gu) as (gu & Su & <-). rewrite <- Ns. split.
      * exact (v_parent _ _ _ W j g p gu None Sg K H (proj2 Su)).
      * intros O. exact (v_mandatory _ _ _ W j g p gu Sg K O H (proj2 Su)).
    + destruct (Li s j g v st G F K) as (vs & ->). exists vs. split; [reflexivity|]. rewrite <- Ns. exact (v_values _ _ _ W j g _ st Sg K).
Qed.
End Both.

(** ** Merging *)
Section Final.
Variables (ord : list nid -> list nid) (map_order : list (text * nid) -> list (text * nid)).
Hypothesis O : is_order ord.
Hypothesis Mo : forall l, Permutation (map_order l) l.
Variables (h : heap) (m1 m2 : fmodel) (t1 t2 : tree) (strict : bool).
Hypothesis R1 : represents h m1 t1.
Hypothesis R2 : represents h m2 t2.
Hypothesis Re : all_resolved m1.
Hypothesis Fr : root_name_free m1.
Hypothesis Ne : neat h m1.
Hypothesis Li : listed h m1.
Hypothesis Sh : root_shared m1 m2.
Hypothesis Fit : mergeable strict h m1 m2.

Lemma merged_valid : exists h' m', merge_models ord map_order h m1 m2 strict = Some (h', Some m') /\
  forall a, SolverSpec.valid h' m' a <-> SolverSpec.valid h m1 a /\ new_rules h m1 m2 a.
Proof.
  destruct (merge_success ord O map_order Mo h m1 m2 t1 t2 strict R1 R2 (resolved_connected h m1 t1 R1 Re) Fr Sh Fit) as (h' & m' & E & Mg & _).
  exists h', m'. split; [exact E|]. destruct (mg_represented _ _ _ _ _ Mg) as (t' & R'). intros a. exact (merge_valid h m1 m2 t1 t2 h' m' t' strict R1 R2 R' Mg Ne Li Re Sh Fit a).
Qed.
Lemma merged_extends : (forall s j g v st, get_feature m1 s = None -> get_feature m2 s = Some j -> feature_at h j = Some g -> f_kind g = FNumeric v st -> exists z vs, v = VList (z :: vs)) ->
  exists h' m', merge_models ord map_order h m1 m2 strict = Some (h', Some m') /\
  forall a, SolverSpec.valid h m1 a -> exists b, SolverSpec.valid h' m' b /\ forall s, FeatureMergeSpec.known m1 s -> a_bool b s = a_bool a s /\ a_int b s = a_int a s.
Proof.
  intros Fu. destruct merged_valid as (h' & m' & E & V). exists h', m'. split; [exact E|]. intros a Va. destruct (extends h m1 m2 t1 t2 R1 R2 Sh strict Fit a Re Fu Va) as (b & B1 & B2 & B3).
  exists b. split; [apply V; auto|exact B3].
Qed.
Lemma merged_both : strict = true -> names_apart m1 m2 -> bare m2 -> listed h m2 ->
  exists h' m', merge_models ord map_order h m1 m2 strict = Some (h', Some m') /\
  forall a, SolverSpec.valid h' m' a <-> SolverSpec.valid h m1 a /\ SolverSpec.valid h m2 a.
Proof.
  intros St Na Ba Li2. assert (FitT : mergeable true h m1 m2) by (rewrite <- St; exact Fit). destruct merged_valid as (h' & m' & E & V). exists h', m'. split; [exact E|]. intros a. rewrite (V a). split; intros (X & Y); (split; [exact X|]); apply (both h m1 m2 t1 t2 R1 R2 Sh FitT Na Ba Li2 a X); exact Y.
Qed.
End Final.
