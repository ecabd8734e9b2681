(** Strict merging of models of features only does not depend on the order. *)
From Coq Require Import List ZArith Arith Bool Ascii String Permutation Lia.
From Verif Require Import Text TextProofs ConstraintModel ConstraintSpec SourceRangeModel SourceRangeProofs FeatureTreeModel FeatureTreeSpec FeatureTreeProofs FeatureTransactionModel FeatureTransactionSpec FeatureEditSpec
  FeatureEditProofs FeatureHistoryProofs FeatureTransactionFinal FeatureBuildSpec FeatureCloneSpec FeatureCloneProofs FeatureMergeSpec FeatureMergeResult SxfmModel XmlModel XmlSpec ConfigurationModel SolverModel SolverSpec SolverProofs
  SolverLoadProofs SolverEncodingProofs ValidSpec ValidProofs ValidCloneProofs ValidFinal MergeValidSpec MergeValidProofs MergeValidFinal MergeAgainSpec MergeAgainFinal MergeOrderSpec.
Import ListNotations.

(** ** Turned around *)
Section Turned.
Variables (h : heap) (m1 m2 : fmodel) (t1 t2 : tree).
Hypothesis R1 : represents h m1 t1.
Hypothesis R2 : represents h m2 t2.
Hypothesis Sh : root_shared m1 m2.
Hypothesis Fit : mergeable true h m1 m2.
Hypothesis Kk : all_of_known_kind h m1.

Lemma turned_mergeable : mergeable true h m2 m1.
Proof.
  intros s i f G F. unfold FeatureMergeSpec.fits. destruct (get_feature m2 s) as [j|] eqn:G2; [|exact (Kk s i f G F)].
  destruct (get_stored h m2 t2 R2 s j G2) as (g & Sg & _). pose proof (Fit s j g G2 (proj2 Sg)) as X. unfold FeatureMergeSpec.fits in X. rewrite G in X. destruct X as (f0 & F0 & Pa & St). assert (f0 = f) as -> by congruence.
  exists g. split; [exact (proj2 Sg)|]. split.
  - destruct Pa as [X|[X|(p & q & u & v & A & B & Nu & Nv & L)]]; [right; left; exact X|left; exact X|]. right. right. exists q, p, v, u. auto.
  - intros _. destruct (St eq_refl) as (O & K). split; [auto|]. destruct (f_kind f), (f_kind g); try contradiction; try exact Logic.I; [tauto|]. destruct K as (-> & K). split; [reflexivity|tauto].
Qed.
Lemma turned_shared : root_shared m2 m1.
Proof.
  destruct Sh as (s & r & Er & Gr & (i & Gi)). destruct (get_stored h m2 t2 R2 s r Gr) as (g & Sg & _). destruct (get_stored h m1 t1 R1 s i Gi) as (f & Sf & _).
  destruct (ts_root _ _ (represents_tree_shaped _ _ _ R2)) as (r0 & cr & fr & Er0 & _ & Cr & _ & Dr & Kr). assert (r0 = r) as -> by congruence.
  assert (f_kind g = FRoot) as Kg. { destruct Sg as (_ & Fg). unfold feature_at in Fg. rewrite Cr in Fg. cbn in Fg. rewrite Dr in Fg. injection Fg as <-. exact Kr. }
  pose proof (Fit s r g Gr (proj2 Sg)) as X. unfold FeatureMergeSpec.fits in X. rewrite Gi in X. destruct X as (f0 & F0 & _ & St). assert (f0 = f) as -> by (destruct Sf; congruence).
  destruct (St eq_refl) as (_ & K). rewrite Kg in K. exists s, i. split; [apply (ts_one_root _ _ (represents_tree_shaped _ _ _ R1) i f (proj1 Sf) (proj2 Sf)); destruct (f_kind f); try contradiction; reflexivity|].
  split; [exact Gi|]. exists r. exact Gr.
Qed.
End Turned.

Lemma apart_turned m1 m2 : names_apart m1 m2 -> names_apart m2 m1.
Proof. intros N s u K K' L. symmetry. apply N; auto. Qed.
Lemma bare_neat h m : bare m -> neat h m.
Proof. intros (B & _). split; [intros p q q' c c' Q; rewrite B in Q; destruct Q|intros p k s i (q & c & Q & _); rewrite B in Q; destruct Q]. Qed.
Lemma bare_resolved m : bare m -> all_resolved m.
Proof. intros (_ & B1 & B2 & B3) c r I. unfold all_constraints in I. rewrite B1, B2, B3 in I. destruct I. Qed.

(** ** Both ways *)
Section Ways.
Variables (h : heap) (m1 m2 : fmodel) (t1 t2 : tree) (h1 : heap) (n1 : fmodel) (h2 : heap) (n2 : fmodel).
Hypothesis R1 : represents h m1 t1.
Hypothesis R2 : represents h m2 t2.
Hypothesis Sh : root_shared m1 m2.
Hypothesis Fit : mergeable true h m1 m2.
Hypothesis Kk : all_of_known_kind h m1.
Hypothesis Na : names_apart m1 m2.
Hypothesis B1 : bare m1.
Hypothesis B2 : bare m2.
Hypothesis G1 : merged h m1 m2 h1 n1.
Hypothesis G2 : merged h m2 m1 h2 n2.

Lemma same_parent s i j u p v q : get_feature m1 s = Some i -> get_feature m2 s = Some j -> get_feature m1 u = Some p -> feature_above h i p -> get_feature m2 v = Some q -> feature_above h j q -> u = v.
Proof.
  intros Gi Gj Gu A Gv B. destruct (get_stored h m1 t1 R1 s i Gi) as (f & Sf & _). destruct (get_stored h m2 t2 R2 s j Gj) as (g & Sg & _).
  pose proof (Fit s j g Gj (proj2 Sg)) as X. unfold FeatureMergeSpec.fits in X. rewrite Gi in X. destruct X as (f0 & F0 & Pa & _). assert (f0 = f) as -> by (destruct Sf; congruence).
  destruct (above_hangs h m1 t1 R1 i p s Gi A) as (r & H). destruct (above_hangs h m2 t2 R2 j q s Gj B) as (r' & H').
  destruct Pa as [X|[X|(p0 & q0 & x & y & A0 & B0 & Nx & Ny & L)]]; [destruct (hangs_root h m1 t1 R1 i f p r Sf X H)|destruct (hangs_root h m2 t2 R2 j g q r' Sg X H')|].
  assert (p0 = p) as -> by (eapply feature_above_unique; eauto). assert (q0 = q) as -> by (eapply feature_above_unique; eauto).
  destruct (get_stored h m1 t1 R1 u p Gu) as (fu & Su & Nu). destruct (get_stored h m2 t2 R2 v q Gv) as (fv & Sv & Nv). rewrite (stored_name h m1 p fu Su) in Nx. rewrite (stored_name h m2 q fv Sv) in Ny. injection Nx as <-. injection Ny as <-. subst u v.
  apply Na; [exists p; exact Gu|exists q; exact Gv|exact L].
Qed.
Lemma first_ranges (ha : heap) (ma mb : fmodel) (hn : heap) (mn : fmodel) s i j f g i' f' : merged ha ma mb hn mn -> get_feature ma s = Some i -> feature_at ha i = Some f -> get_feature mb s = Some j -> feature_at ha j = Some g ->
  get_feature mn s = Some i' -> feature_at hn i' = Some f' -> (f_kind f = FBinary \/ exists v st, f_kind f = FNumeric v st) ->
  (forall l, In l (f_locations f') -> In l (f_locations f) \/ In l (f_locations g)) /\ ranges_in (f_locations f) (f_locations f') /\ ranges_in (f_locations g) (f_locations f').
Proof.
  intros M Gi F Gj Fg G' F' K. destruct (mg_first _ _ _ _ _ M s i f Gi F) as (i2 & f2 & f0 & ls & X1 & X2 & (_ & _ & Kf) & Ga & E). assert (i2 = i') as -> by congruence. assert (f2 = f') as -> by congruence.
  assert (f_locations f0 = f_locations f) as El by (destruct K as [K|(v & st & K)]; rewrite K in Kf; apply Kf).
  unfold gained_ranges in Ga. rewrite Gj in Ga. destruct Ga as (g0 & Fg0 & keep & -> & Ke). assert (g0 = g) as -> by congruence. subst f'. cbn [with_locations f_locations]. rewrite El. split; [|split].
  - intros l I. apply in_app_or in I. destruct I as [I|I]; [auto|]. apply filter_In in I. tauto.
  - intros l I. exists l. split; [apply in_or_app; auto|apply range_refl].
  - intros l I. destruct (existsb (range_eqb l) (f_locations f)) eqn:Ex.
    + apply existsb_exists in Ex. destruct Ex as (l' & I' & E'). exists l'. split; [apply in_or_app; auto|exact E'].
    + exists l. split; [|apply range_refl]. apply in_or_app. right. apply filter_In. split; [exact I|]. apply Ke. intros (l' & I' & E'). assert (existsb (range_eqb l) (f_locations f) = true); [apply existsb_exists; eauto|congruence].
Qed.
Lemma ranges_refl ls : ranges_in ls ls.
Proof. intros l I. exists l. split; [exact I|apply range_refl]. Qed.

Lemma ways_same : same_features h1 n1 h2 n2.
Proof.
  destruct (mg_represented _ _ _ _ _ G1) as (t3 & R3). destruct (mg_represented _ _ _ _ _ G2) as (t4 & R4).
  assert (Nm : forall s, FeatureMergeSpec.known n2 s <-> FeatureMergeSpec.known n1 s) by (intros s; rewrite (mg_names _ _ _ _ _ G1 s), (mg_names _ _ _ _ _ G2 s); tauto).
  pose proof (turned_shared h m1 m2 t1 t2 R1 R2 Sh Fit) as Sh'. pose proof (turned_mergeable h m1 m2 t2 R2 Fit Kk) as Fit'.
  assert (No : forall (ma mb : fmodel) (hn : heap) (mn : fmodel) tn p k s i, merged h ma mb hn mn -> represents hn mn tn -> bare ma -> get_feature mn s = Some i -> ~ hangs hn i p (Some k)).
  { intros ma mb hn mn tn p k s i M Rn Ba G H. destruct (get_stored hn mn tn Rn s i G) as (f & Sf & _). destruct (hangs_group_of hn mn tn Rn i f p k Sf H) as (q & c & Q & _).
    destruct (Forall2_right _ _ _ _ (mg_groups _ _ _ _ _ M) Q) as (q0 & I0 & _). rewrite (proj1 Ba) in I0. destruct I0. }
  constructor.
  - exact (names_same h1 n1 t3 h2 n2 t4 R3 R4 Nm).
  - destruct (mg_root _ _ _ _ _ G1) as (s & r & r' & X1 & X2 & X3 & X4). destruct (mg_root _ _ _ _ _ G2) as (u & q & q' & Y1 & Y2 & Y3 & Y4).
    destruct Sh as (v & x & Z1 & Z2 & (y & Z3)). destruct Sh' as (w & x' & W1 & W2 & W3). assert (x' = r) as -> by congruence. assert (x = q) as -> by congruence.
    assert (v = u) as -> by (destruct (get_stored h m2 t2 R2 v q Z2) as (f1 & (_ & F1) & N1); rewrite <- N1; exact (get_name h m2 t2 R2 u q f1 Y1 F1)).
    assert (m_root m1 = Some y) as Ry.
    { destruct (get_stored h m2 t2 R2 u q Z2) as (g & Sg & _). destruct (get_stored h m1 t1 R1 u y Z3) as (f & Sf & _). pose proof (Fit u q g Z2 (proj2 Sg)) as X. unfold FeatureMergeSpec.fits in X. rewrite Z3 in X.
      destruct X as (f0 & F0 & _ & St). assert (f0 = f) as -> by (destruct Sf; congruence). destruct (St eq_refl) as (_ & K).
      destruct (ts_root _ _ (represents_tree_shaped _ _ _ R2)) as (r0 & cr & fr & Er0 & _ & Cr & _ & Dr & Kr). assert (r0 = q) as -> by congruence.
      assert (f_kind g = FRoot) as Kg. { destruct Sg as (_ & Fg). unfold feature_at in Fg. rewrite Cr in Fg. cbn in Fg. rewrite Dr in Fg. injection Fg as <-. exact Kr. }
      rewrite Kg in K. apply (ts_one_root _ _ (represents_tree_shaped _ _ _ R1) y f (proj1 Sf) (proj2 Sf)). destruct (f_kind f); try contradiction; reflexivity. }
    assert (y = r) as -> by congruence. assert (s = u) as -> by (destruct (get_stored h m1 t1 R1 s r X1) as (f1 & (_ & F1) & N1); rewrite <- N1; exact (get_name h m1 t1 R1 u r f1 Z3 F1)).
    exists u, r', q'. auto.
  - intros s i f G F. destruct (proj2 (Nm s) (ex_intro _ i G)) as (i' & G'). destruct (get_stored h2 n2 t4 R4 s i' G') as (f' & (_ & F') & N'). destruct (get_stored h1 n1 t3 R3 s i G) as (f0 & (_ & F0) & N0). assert (f0 = f) as -> by congruence.
    exists i', f'. split; [exact G'|]. split; [exact F'|]. split; [congruence|].
    destruct (get_feature m1 s) as [a|] eqn:Ga; destruct (get_feature m2 s) as [b|] eqn:Gb.
    + destruct (get_stored h m1 t1 R1 s a Ga) as (fa & (_ & Fa) & _). destruct (get_stored h m2 t2 R2 s b Gb) as (fb & (_ & Fb) & _).
      pose proof (Fit s b fb Gb Fb) as X. unfold FeatureMergeSpec.fits in X. rewrite Ga in X. destruct X as (fa0 & Fa0 & _ & St). assert (fa0 = fa) as -> by congruence. destruct (St eq_refl) as (Oab & Kab). clear St.
      destruct (mg_first _ _ _ _ _ G1 s a fa Ga Fa) as (i1 & f1 & fo1 & l1 & P1 & P2 & (_ & _ & P3) & _ & P4). destruct (mg_first _ _ _ _ _ G2 s b fb Gb Fb) as (i2 & f2 & fo2 & l2 & Q1 & Q2 & (_ & _ & Q3) & _ & Q4).
      assert (f1 = f) as -> by congruence. assert (f2 = f') as -> by congruence.
      assert (Ek : f_kind f = f_kind fo1) by (rewrite P4; reflexivity). assert (Ek' : f_kind f' = f_kind fo2) by (rewrite Q4; reflexivity). assert (Eo : f_optional f = f_optional fo1) by (rewrite P4; reflexivity). assert (Eo' : f_optional f' = f_optional fo2) by (rewrite Q4; reflexivity).
      assert (Rg : (f_kind fa = FBinary \/ (exists v st, f_kind fa = FNumeric v st)) -> (f_kind fb = FBinary \/ (exists v st, f_kind fb = FNumeric v st)) -> ranges_in (f_locations f) (f_locations f') /\ ranges_in (f_locations f') (f_locations f)).
      { intros Ka Kb. destruct (first_ranges h m1 m2 h1 n1 s a b fa fb i f G1 Ga Fa Gb Fb G F Ka) as (U1 & U2 & U3). destruct (first_ranges h m2 m1 h2 n2 s b a fb fa i' f' G2 Gb Fb Ga Fa G' F' Kb) as (V1 & V2 & V3).
        split; intros l I; [destruct (U1 l I) as [J|J]; [exact (V3 l J)|exact (V2 l J)]|destruct (V1 l I) as [J|J]; [exact (U3 l J)|exact (U2 l J)]]. }
      rewrite Ek, Ek', Eo, Eo'. destruct (f_kind fa) as [|v st| |] eqn:Ka, (f_kind fb) as [|w st'| |] eqn:Kb; try contradiction; destruct P3 as (P3 & P5 & _), Q3 as (Q3 & Q5 & _).
      * split; [congruence|]. split; [congruence|]. intros _. apply Rg; auto.
      * destruct Kab as (<- & _). split; [congruence|]. split; [congruence|]. intros _. apply Rg; right; eauto.
      * split; [congruence|]. split; [congruence|]. intros X. congruence.
    + destruct (get_stored h m1 t1 R1 s a Ga) as (fa & (_ & Fa) & _). destruct (mg_first _ _ _ _ _ G1 s a fa Ga Fa) as (i1 & f1 & fo1 & l1 & P1 & P2 & (P0 & P00 & P3) & Gr & P4). destruct (mg_second _ _ _ _ _ G2 s a fa Gb Ga Fa) as (i2 & f2 & Q1 & Q2 & (Q0 & Q00 & Q3)).
      assert (f1 = f) as -> by congruence. assert (f2 = f') as -> by congruence. unfold gained_ranges in Gr. rewrite Gb in Gr. subst l1. rewrite app_nil_r in P4. assert (f = fo1) as -> by (rewrite P4; destruct fo1; reflexivity).
      destruct (f_kind fa) eqn:Ka; destruct P3 as (P3 & P5 & P6), Q3 as (Q3 & Q5 & Q6); (split; [congruence|]); (split; [congruence|]); intros _; rewrite P6, Q6; split; apply ranges_refl.
    + destruct (get_stored h m2 t2 R2 s b Gb) as (fb & (_ & Fb) & _). destruct (mg_first _ _ _ _ _ G2 s b fb Gb Fb) as (i1 & f1 & fo1 & l1 & P1 & P2 & (P0 & P00 & P3) & Gr & P4). destruct (mg_second _ _ _ _ _ G1 s b fb Ga Gb Fb) as (i2 & f2 & Q1 & Q2 & (Q0 & Q00 & Q3)).
      assert (f1 = f') as -> by congruence. assert (f2 = f) as -> by congruence. unfold gained_ranges in Gr. rewrite Ga in Gr. subst l1. rewrite app_nil_r in P4. assert (f' = fo1) as -> by (rewrite P4; destruct fo1; reflexivity).
      destruct (f_kind fb) eqn:Kb; destruct P3 as (P3 & P5 & P6), Q3 as (Q3 & Q5 & Q6); (split; [congruence|]); (split; [congruence|]); intros _; rewrite P6, Q6; split; apply ranges_refl.
    + exfalso. destruct (proj1 (mg_names _ _ _ _ _ G1 s) (ex_intro _ i G)) as [(x & X)|(x & X)]; congruence.
  - intros s i u p g G Gp H. assert (g = None) as ->. { destruct g as [k|]; [|reflexivity]. destruct (No m1 m2 h1 n1 t3 p k s i G1 R3 B1 G H). }
    split; [reflexivity|]. destruct (get_stored h1 n1 t3 R3 s i G) as (f & Sf & Nf). destruct (get_stored h1 n1 t3 R3 u p Gp) as (fp & Sp & Np).
    assert (Kf : f_kind f <> FRoot) by (intros K; exact (hangs_root h1 n1 t3 R3 i f p None Sf K H)).
    destruct (hangs_below h1 n1 t3 R3 i f Sf Kf) as (p0 & g0 & r0 & _ & _ & _ & Uq). destruct (Uq p fp None H (proj2 Sp)) as (<- & <- & <-).
    assert (Here : forall x y v, get_feature n1 v = Some y -> hangs h1 i y x -> v = u). { intros x y v Gy Hy. destruct (get_stored h1 n1 t3 R3 v y Gy) as (fy & Sy & Ny). destruct (Uq y fy x Hy (proj2 Sy)) as (-> & -> & _). congruence. }
    assert (Fo : forall v q g', get_feature n2 v = Some q -> hangs h2 (match get_feature n2 s with Some i' => i' | None => 0 end) q g' -> get_feature n2 s <> None -> v = u -> exists i' p', get_feature n2 s = Some i' /\ get_feature n2 u = Some p' /\ hangs h2 i' p' None).
    { intros v q g' Gq Hq Ns ->. destruct (get_feature n2 s) as [i'|] eqn:Gi'; [|congruence]. exists i', q. split; [reflexivity|]. split; [exact Gq|]. destruct g' as [k|]; [|exact Hq]. destruct (No m2 m1 h2 n2 t4 q k s i' G2 R4 B2 Gi' Hq). }
    destruct (get_feature m1 s) as [a|] eqn:Ga.
    + destruct (get_stored h m1 t1 R1 s a Ga) as (fa & Sfa & _).
      assert (Ka : f_kind fa <> FRoot). { intros K. destruct (mg_first _ _ _ _ _ G1 s a fa Ga (proj2 Sfa)) as (i1 & f1 & fo1 & l1 & P1 & P2 & (_ & _ & P3) & _ & P4). rewrite K in P3. assert (f1 = f) as -> by (destruct Sf; congruence). apply Kf. rewrite P4. exact (proj1 P3). }
      destruct (hangs_below h m1 t1 R1 a fa Sfa Ka) as (pa & ga & ra & Ha & Spa & _ & _). pose proof (stored_get h m1 t1 R1 pa ga Spa) as Gpa. pose proof (hangs_above h m1 t1 R1 a pa ra _ Ha Gpa) as Aa.
      destruct (mg_first_parents _ _ _ _ _ G1 s a _ pa Ga Gpa Aa) as (i1 & p1 & g1 & P1 & P2 & P3 & _). assert (i1 = i) as -> by congruence. pose proof (Here g1 p1 _ P2 P3) as Eu.
      destruct (get_feature m2 s) as [b|] eqn:Gb.
      * destruct (get_stored h m2 t2 R2 s b Gb) as (fb & Sfb & _).
        assert (Kb : f_kind fb <> FRoot). { intros K. pose proof (Fit s b fb Gb (proj2 Sfb)) as X. unfold FeatureMergeSpec.fits in X. rewrite Ga in X. destruct X as (fa0 & Fa0 & _ & St). assert (fa0 = fa) as -> by (destruct Sfa; congruence). destruct (St eq_refl) as (_ & Kab). rewrite K in Kab. destruct (f_kind fa); try contradiction; congruence. }
        destruct (hangs_below h m2 t2 R2 b fb Sfb Kb) as (pb & gb & rb & Hb & Spb & _ & _). pose proof (stored_get h m2 t2 R2 pb gb Spb) as Gpb. pose proof (hangs_above h m2 t2 R2 b pb rb _ Hb Gpb) as Ab.
        destruct (mg_first_parents _ _ _ _ _ G2 s b _ pb Gb Gpb Ab) as (i2 & p2 & g2 & Q1 & Q2 & Q3 & _). apply (Fo _ p2 g2 Q2); [rewrite Q1; exact Q3|congruence|]. rewrite <- Eu. symmetry. exact (same_parent s a b _ pa _ pb Ga Gb Gpa Aa Gpb Ab).
      * destruct (mg_second_parents _ _ _ _ _ G2 s a _ pa Gb Ga Gpa Aa) as (i2 & p2 & Q1 & Q2 & Q3). apply (Fo _ p2 None Q2); [rewrite Q1; exact Q3|congruence|exact Eu].
    + destruct (proj1 (mg_names _ _ _ _ _ G1 s) (ex_intro _ i G)) as [(x & X)|(b & Gb)]; [congruence|]. destruct (get_stored h m2 t2 R2 s b Gb) as (fb & Sfb & _).
      destruct (new_parent h m1 m2 t2 true R2 Sh Fit s b fb Ga Gb (proj2 Sfb)) as (v & pb & Gv & Ab). destruct (mg_second_parents _ _ _ _ _ G1 s b v pb Ga Gb Gv Ab) as (i1 & p1 & P1 & P2 & P3). assert (i1 = i) as -> by congruence. pose proof (Here None p1 v P2 P3) as Eu.
      destruct (mg_first_parents _ _ _ _ _ G2 s b v pb Gb Gv Ab) as (i2 & p2 & g2 & Q1 & Q2 & Q3 & _). apply (Fo v p2 g2 Q2); [rewrite Q1; exact Q3|congruence|exact Eu].
Qed.
End Ways.

Theorem merge_either_way ord ord' map_order map_order' h m1 m2 t1 t2 :
  is_order ord -> is_order ord' -> (forall l, Permutation (map_order l) l) -> (forall l, Permutation (map_order' l) l) -> represents h m1 t1 -> represents h m2 t2 ->
  root_name_free m1 -> root_name_free m2 -> root_shared m1 m2 -> mergeable true h m1 m2 -> all_of_known_kind h m1 -> names_apart m1 m2 -> bare m1 -> bare m2 ->
  exists h1 n1 h2 n2, merge_models ord map_order h m1 m2 true = Some (h1, Some n1) /\ merge_models ord' map_order' h m2 m1 true = Some (h2, Some n2) /\
    same_features h1 n1 h2 n2 /\ (listed h m1 -> listed h m2 -> forall a, SolverSpec.valid h2 n2 a <-> SolverSpec.valid h1 n1 a).
Proof.
  intros O O' Mo Mo' R1 R2 F1 F2 Sh Fit Kk Na B1 B2. pose proof (turned_shared h m1 m2 t1 t2 R1 R2 Sh Fit) as Sh'. pose proof (turned_mergeable h m1 m2 t2 R2 Fit Kk) as Fit'.
  pose proof (bare_resolved m1 B1) as Re1. pose proof (bare_resolved m2 B2) as Re2.
  destruct (merge_success ord O map_order Mo h m1 m2 t1 t2 true R1 R2 (resolved_connected h m1 t1 R1 Re1) F1 Sh Fit) as (h1 & n1 & E1 & M1 & _).
  destruct (merge_success ord' O' map_order' Mo' h m2 m1 t2 t1 true R2 R1 (resolved_connected h m2 t2 R2 Re2) F2 Sh' Fit') as (h2 & n2 & E2 & M2 & _).
  exists h1, n1, h2, n2. split; [exact E1|]. split; [exact E2|]. split; [exact (ways_same h m1 m2 t1 t2 h1 n1 h2 n2 R1 R2 Sh Fit Kk Na B1 B2 M1 M2)|]. intros L1 L2 a.
  destruct (merged_both ord map_order O Mo h m1 m2 t1 t2 true R1 R2 Re1 F1 (bare_neat h m1 B1) L1 Sh Fit eq_refl Na B2 L2) as (h3 & n3 & E3 & V3). rewrite E1 in E3. injection E3 as <- <-.
  destruct (merged_both ord' map_order' O' Mo' h m2 m1 t2 t1 true R2 R1 Re2 F2 (bare_neat h m2 B2) L2 Sh' Fit' eq_refl (apart_turned m1 m2 Na) B1 L1) as (h4 & n4 & E4 & V4). rewrite E2 in E4. injection E4 as <- <-.
  rewrite (V3 a), (V4 a). tauto.
Qed.
