(** Merging one model after the other. *)
From Coq Require Import List ZArith Arith Bool Ascii String Permutation Lia.
From Verif Require Import Text TextProofs ConstraintModel ConstraintSpec SourceRangeModel SourceRangeProofs FeatureTreeModel FeatureTreeSpec FeatureTreeProofs FeatureTransactionModel FeatureTransactionSpec FeatureEditSpec
  FeatureEditProofs FeatureHistoryProofs FeatureTransactionFinal FeatureBuildSpec FeatureCloneSpec FeatureCloneProofs FeatureMergeSpec FeatureMergeResult SxfmModel XmlModel XmlSpec ConfigurationModel SolverModel SolverSpec SolverProofs
  SolverLoadProofs SolverEncodingProofs ValidSpec ValidProofs ValidCloneProofs ValidFinal MergeValidSpec MergeValidProofs MergeValidFinal MergeAgainSpec MergeAgainFinal MergeOrderSpec MergeOrderFinal XmlBelowSpec MergeManyModel MergeManySpec MergeManyProofs FeatureMergeExamples.
Import ListNotations.

Record progress (h : heap) (l : list fmodel) (h1 : heap) (m1 : fmodel) : Prop := Progress {
  pr_extends : extends h h1;
  pr_tree : exists t, represents h1 m1 t;
  pr_bare : bare m1;
  pr_gathers : gathers h l h1 m1;
  pr_valid : Forall (listed h) l -> listed h1 m1 /\ forall a, SolverSpec.valid h1 m1 a <-> forall m, In m l -> SolverSpec.valid h m a
}.

Lemma same_kind_root k k' : same_kind k k' -> (k' = FRoot <-> k = FRoot).
Proof. destruct k, k'; cbn; split; intros; congruence. Qed.
Lemma same_kind_trans k k' k'' : same_kind k k' -> same_kind k' k'' -> same_kind k k''.
Proof. destruct k, k', k''; cbn; intros; congruence. Qed.
Lemma kept_kind f g : kept f g -> same_kind (f_kind f) (f_kind g).
Proof. intros (_ & _ & K). destruct (f_kind f); destruct K as (-> & _); reflexivity. Qed.
Lemma kept_optional f g : kept f g -> f_kind f <> FUnknown -> (f_kind f = FRoot -> f_optional f = false) -> f_optional g = f_optional f.
Proof. intros (_ & _ & K) U Ro. destruct (f_kind f); [apply K|apply K|rewrite Ro by reflexivity; apply K|contradiction U; reflexivity]. Qed.
Lemma kept_ranges f g : kept f g -> f_kind f <> FUnknown -> f_kind f <> FRoot -> f_locations g = f_locations f.
Proof. intros (_ & _ & K) U Ro. destruct (f_kind f); [apply K|apply K|contradiction Ro; reflexivity|contradiction U; reflexivity]. Qed.
Lemma alike_kind h i j f g : strictly_alike h i j f g -> same_kind (f_kind g) (f_kind f) /\ f_optional f = f_optional g.
Proof. intros (O & K). split; [|exact O]. destruct (f_kind f), (f_kind g); cbn; try contradiction; try reflexivity. apply K. Qed.

Section Step.
Variables (ord : list nid -> list nid) (map_order : list (text * nid) -> list (text * nid)).
Hypothesis O : is_order ord.
Hypothesis Mo : forall l, Permutation (map_order l) l.
Variables (h : heap) (l : list fmodel) (h1 : heap) (m1 n : fmodel) (t1 tn : tree).
Hypothesis Some_model : l <> [].
Hypothesis Fi : Forall (fine h) l.
Hypothesis Fn : fine h n.
Hypothesis Ag : forall m, In m l -> root_shared m n /\ names_apart m n.
Hypothesis E : extends h h1.
Hypothesis R1 : represents h1 m1 t1.
Hypothesis B1 : bare m1.
Hypothesis Ga : gathers h l h1 m1.
Hypothesis Rn : represents h n tn.

Lemma next_represented : represents h1 n tn.
Proof. exact (extends_represents _ _ _ _ E (rep_ok _ _ _ R1) Rn). Qed.
Let Rn1 := next_represented.
Lemma fine_of m : In m l -> fine h m.
Proof. intros I. rewrite Forall_forall in Fi. auto. Qed.
(** A feature of the gathered model is a feature of one of the models. *)
Lemma origin s i1 f1 : get_feature m1 s = Some i1 -> feature_at h1 i1 = Some f1 -> exists m t i f, In m l /\ fine h m /\ represents h m t /\ get_feature m s = Some i /\ feature_at h i = Some f /\
  f_name f1 = s /\ same_kind (f_kind f) (f_kind f1) /\ f_optional f1 = f_optional f.
Proof.
  intros G F. destruct (proj1 (ga_names _ _ _ _ Ga s) (ex_intro _ i1 G)) as (m & I & (i & Gi)). pose proof (fine_of m I) as Fm. destruct (fi_tree _ _ Fm) as (t & Rm). destruct (get_stored h m t Rm s i Gi) as (f & Sf & _).
  destruct (ga_features _ _ _ _ Ga m s i f I Gi (proj2 Sf)) as (i' & f' & G' & F' & N & K & Op & _). assert (i' = i1) as -> by congruence. assert (f' = f1) as -> by congruence.
  exists m, t, i, f. destruct Sf. repeat (split; [assumption|]). assumption.
Qed.
Lemma next_feature s j : get_feature n s = Some j -> exists g, feature_at h j = Some g /\ feature_at h1 j = Some g /\ f_name g = s /\ f_kind g <> FUnknown.
Proof.
  intros G. destruct (get_stored h n tn Rn s j G) as (g & Sg & N). exists g. split; [apply Sg|]. split; [exact (extends_feature _ _ _ _ E (proj2 Sg))|]. split; [exact N|]. exact (fi_kinds _ _ Fn s j g G (proj2 Sg)).
Qed.
Lemma next_shared : root_shared m1 n.
Proof.
  destruct l as [|m r] eqn:El; [contradiction Some_model; reflexivity|]. rewrite <- El in *. assert (I : In m l) by (rewrite El; left; reflexivity). destruct (Ag m I) as ((s & x & Er & G & K) & _). exists s, x.
  split; [exact Er|]. split; [exact G|]. apply (ga_names _ _ _ _ Ga). eauto.
Qed.
Lemma next_apart : names_apart m1 n.
Proof. intros s u K K' L. apply (ga_names _ _ _ _ Ga) in K. destruct K as (m & I & K). destruct (Ag m I) as (_ & N). exact (N s u K K' L). Qed.
Lemma now_free : root_name_free m1.
Proof.
  intros i G. destruct (get_stored h1 m1 t1 R1 _ i G) as (f1 & S1 & _). destruct (origin _ i f1 G (proj2 S1)) as (m & t & j & f & I & Fm & Rm & Gj & F & _ & K & _).
  apply (bare_same_root h1 m1 t1 R1 _ i f1 G (proj2 S1)). apply (same_kind_root _ _ K). exact (root_kind h m t Rm j f (fi_free _ _ Fm j Gj) F).
Qed.
Lemma hangs_one h0 i p q : hangs h0 i p None -> hangs h0 i q None -> p = q.
Proof. intros (c & C & P) (c' & C' & Q). congruence. Qed.
Lemma was_mergeable : mergeable true h1 m1 n -> forall k, In k l -> mergeable true h k n.
Proof.
  intros Fit k I s j g G F. destruct (next_feature s j G) as (g0 & F0 & F' & _ & Ku). assert (g0 = g) as -> by congruence. unfold FeatureMergeSpec.fits. destruct (get_feature k s) as [i|] eqn:Gi; [|exact Ku].
  pose proof (fine_of k I) as Fk. destruct (fi_tree _ _ Fk) as (t & Rk). destruct (get_stored h k t Rk s i Gi) as (f & (Si & Fe) & _). exists f. split; [exact Fe|].
  destruct (ga_features _ _ _ _ Ga k s i f I Gi Fe) as (i1 & f1 & G1 & F1 & _ & K & Op & _). pose proof (Fit s j g G F') as X. unfold FeatureMergeSpec.fits in X. rewrite G1 in X. destruct X as (f0 & Y & Pa & St). assert (f0 = f1) as -> by congruence. specialize (St eq_refl). split.
  - destruct Pa as [X|[X|(p1 & q & u & v & A & A' & Nu & Nv & L)]]; [left; apply (same_kind_root _ _ K); exact X|right; left; exact X|]. unfold parents_alike.
    assert (Df : f_kind f = FRoot \/ f_kind f <> FRoot) by (destruct (f_kind f); auto; right; discriminate). assert (Dg : f_kind g = FRoot \/ f_kind g <> FRoot) by (destruct (f_kind g); auto; right; discriminate).
    destruct Df as [Df|Df]; [auto|]. destruct Dg as [Dg|Dg]; [auto|]. right. right.
    destruct (bare_below h k t Rk (fi_bare _ _ Fk) s i f Gi Fe Df) as (u' & p & Gp & H). destruct (bare_below h n tn Rn (fi_bare _ _ Fn) s j g G F Dg) as (v' & q' & Gq & H').
    destruct (ga_places _ _ _ _ Ga k s i u' p I Gi Gp H) as (i2 & p2 & Gi2 & Gp2 & H2). assert (i2 = i1) as -> by congruence.
    destruct (bare_above h1 m1 t1 R1 B1 s i1 p1 G1 A) as (H1 & _). destruct (bare_above h1 n tn Rn1 (fi_bare _ _ Fn) s j q G A') as (H1' & _).
    assert (p2 = p1) as -> by exact (hangs_one _ _ _ _ H2 H1). assert (q' = q) as -> by exact (hangs_one _ _ _ _ (extends_hangs _ _ _ _ _ E H') H1').
    destruct (get_stored h1 m1 t1 R1 u' p1 Gp2) as (fu1 & Su1 & Nu1). rewrite (stored_name h1 m1 p1 fu1 Su1) in Nu. injection Nu as <-. destruct (next_feature v' q Gq) as (gv & Fv & Fv1 & Nv1 & _). unfold name_at in Nv. rewrite Fv1 in Nv. cbn in Nv. injection Nv as <-.
    destruct (get_stored h k t Rk u' p Gp) as (fu & Su & Nu'). exists p, q, u', v'. split; [exact (ValidProofs.hangs_above h k t Rk i p None u' H Gp)|]. split; [exact (ValidProofs.hangs_above h n tn Rn j q None v' H' Gq)|].
    split; [rewrite (stored_name h k p fu Su); congruence|]. split; [unfold name_at; rewrite Fv; cbn; congruence|]. rewrite <- Nu1, <- Nv1. exact L.
  - intros _. destruct St as (O1 & K1). split; [congruence|]. assert (Al : in_group h i <-> in_group h j).
    { split; intros X; exfalso; [exact (bare_alone h k t Rk (fi_bare _ _ Fk) s i Gi X)|exact (bare_alone h n tn Rn (fi_bare _ _ Fn) s j G X)]. }
    unfold same_kind in K. destruct (f_kind f) eqn:Ef, (f_kind f1) eqn:Ef1, (f_kind g) eqn:Eg; try discriminate K; try contradiction; try exact Logic.I; try exact Al.
    split; [|exact Al]. destruct K1 as (<- & _). congruence.
Qed.
Hypothesis AgM : forall m, In m l -> mergeable true h m n.
Lemma next_mergeable : mergeable true h1 m1 n.
Proof.
  intros s j g1 G F1. destruct (next_feature s j G) as (g & F & F' & _ & Ku). assert (g1 = g) as -> by congruence. unfold FeatureMergeSpec.fits. destruct (get_feature m1 s) as [i1|] eqn:G1; [|exact Ku].
  destruct (get_stored h1 m1 t1 R1 s i1 G1) as (f1 & S1 & _). exists f1. split; [apply S1|]. destruct (origin s i1 f1 G1 (proj2 S1)) as (m & t & i & f & I & Fm & Rm & Gi & Fe & _ & K & Op).
  pose proof (AgM m I s j g G F) as X. unfold FeatureMergeSpec.fits in X. rewrite Gi in X. destruct X as (f0 & F0 & Pa & St). assert (f0 = f) as -> by congruence. specialize (St eq_refl). split.
  - destruct Pa as [X|[X|(p & q & u & v & A & A' & Nu & Nv & L)]]; [left; apply (same_kind_root _ _ K); exact X|right; left; exact X|]. right. right.
    destruct (bare_above h m t Rm (fi_bare _ _ Fm) s i p Gi A) as (H & (u' & Gu)). destruct (bare_above h n tn Rn (fi_bare _ _ Fn) s j q G A') as (H' & (v' & Gv)).
    destruct (ga_places _ _ _ _ Ga m s i u' p I Gi Gu H) as (i2 & p1 & Gi2 & Gp1 & H1). assert (i2 = i1) as -> by congruence.
    destruct (get_stored h m t Rm u' p Gu) as (fu & Su & Nu'). rewrite (stored_name h m p fu Su) in Nu. injection Nu as <-. destruct (get_stored h n tn Rn v' q Gv) as (fv & Sv & Nv'). rewrite (stored_name h n q fv Sv) in Nv. injection Nv as <-.
    destruct (get_stored h1 m1 t1 R1 u' p1 Gp1) as (fu1 & Su1 & Nu1). destruct (next_feature v' q Gv) as (gv & _ & Fv1 & Nv1 & _).
    exists p1, q, u', v'. split; [exact (ValidProofs.hangs_above h1 m1 t1 R1 i1 p1 None u' H1 Gp1)|]. split; [exact (ValidProofs.hangs_above h1 n tn Rn1 j q None v' (extends_hangs _ _ _ _ _ E H') Gv)|].
    split; [rewrite (stored_name h1 m1 p1 fu1 Su1); congruence|]. split; [unfold name_at; rewrite Fv1; cbn; congruence|]. rewrite <- Nu', <- Nv'. exact L.
  - intros _. destruct St as (O1 & K1). split; [congruence|]. assert (Al : in_group h1 i1 <-> in_group h1 j).
    { split; intros X; exfalso; [exact (bare_alone h1 m1 t1 R1 B1 s i1 G1 X)|exact (bare_alone h1 n tn Rn1 (fi_bare _ _ Fn) s j G X)]. }
    unfold same_kind in K. destruct (f_kind f) eqn:Ef, (f_kind f1) eqn:Ef1, (f_kind g) eqn:Eg; try discriminate K; try contradiction; try exact Logic.I; try exact Al.
    split; [|exact Al]. destruct K1 as (-> & _). congruence.
Qed.

Variables (h2 : heap) (m2 : fmodel) (t2 : tree).
Hypothesis Mg : merged h1 m1 n h2 m2.
Hypothesis R2 : represents h2 m2 t2.

Lemma now_firm s i1 f1 : get_feature m1 s = Some i1 -> feature_at h1 i1 = Some f1 -> f_kind f1 <> FUnknown /\ (f_kind f1 = FRoot -> f_optional f1 = false).
Proof.
  intros G F. destruct (origin s i1 f1 G F) as (m & t & i & f & I & Fm & Rm & Gi & Fe & _ & K & Op). split.
  - pose proof (fi_kinds _ _ Fm s i f Gi Fe) as U. destruct (f_kind f), (f_kind f1); cbn in K; congruence.
  - intros Kf. apply (same_kind_root _ _ K) in Kf. rewrite Op. exact (fi_firm _ _ Fm i f (bare_same_root h m t Rm s i f Gi Fe Kf) Fe).
Qed.
Lemma next_firm s j g : get_feature n s = Some j -> feature_at h j = Some g -> f_kind g = FRoot -> f_optional g = false.
Proof. intros G F K. exact (fi_firm _ _ Fn j g (bare_same_root h n tn Rn s j g G F K) F). Qed.
(** What becomes of a feature gathered before. *)
Lemma first_feature s i1 f1 : get_feature m1 s = Some i1 -> feature_at h1 i1 = Some f1 -> exists i2 f2, get_feature m2 s = Some i2 /\ feature_at h2 i2 = Some f2 /\ f_name f2 = s /\ same_kind (f_kind f1) (f_kind f2) /\ f_optional f2 = f_optional f1 /\
  (f_kind f1 <> FRoot -> (forall x, In x (f_locations f1) -> In x (f_locations f2)) /\
    (forall j g, get_feature n s = Some j -> feature_at h j = Some g -> ranges_in (f_locations g) (f_locations f2)) /\
    (forall x, In x (f_locations f2) -> In x (f_locations f1) \/ exists j g, get_feature n s = Some j /\ feature_at h j = Some g /\ In x (f_locations g))).
Proof.
  intros G F. destruct (now_firm s i1 f1 G F) as (U & Ro). destruct (mg_first _ _ _ _ _ Mg s i1 f1 G F) as (i2 & f2 & f0 & ls & G2 & F2 & Ke & Gr & E2). exists i2, f2. split; [exact G2|]. split; [exact F2|].
  split; [exact (get_name h2 m2 t2 R2 s i2 f2 G2 F2)|]. subst f2. cbn [with_locations f_kind f_optional f_locations]. split; [exact (kept_kind _ _ Ke)|]. split; [exact (kept_optional _ _ Ke U Ro)|]. intros Nr. rewrite (kept_ranges _ _ Ke U Nr).
  split; [intros x I; apply in_or_app; auto|]. unfold gained_ranges in Gr. split.
  - intros j g Gj Fj. rewrite Gj in Gr. destruct Gr as (g0 & Fg0 & keep & -> & Kp). pose proof (extends_feature _ _ _ _ E Fj). assert (g0 = g) as -> by congruence. intros x I.
    destruct (existsb (range_eqb x) (f_locations f1)) eqn:Ex.
    + apply existsb_exists in Ex. destruct Ex as (x' & I' & E'). exists x'. split; [apply in_or_app; auto|exact E'].
    + exists x. split; [|apply range_refl]. apply in_or_app. right. apply filter_In. split; [exact I|]. apply Kp. intros (x' & I' & E'). assert (existsb (range_eqb x) (f_locations f1) = true); [apply existsb_exists; eauto|congruence].
  - intros x I. apply in_app_or in I. destruct I as [I|I]; [left; exact I|]. right. destruct (get_feature n s) as [j|] eqn:Gj; [|subst ls; destruct I]. destruct Gr as (g & Fg & keep & -> & _). destruct (next_feature s j Gj) as (g0 & F0 & F0' & _).
    assert (g0 = g) as -> by congruence. exists j, g. apply filter_In in I. tauto.
Qed.
Lemma known_now s : get_feature m1 s = None \/ exists i1 f1, get_feature m1 s = Some i1 /\ feature_at h1 i1 = Some f1.
Proof. destruct (get_feature m1 s) as [i|] eqn:G; [right|left; reflexivity]. destruct (get_stored h1 m1 t1 R1 s i G) as (f & Sf & _). exists i, f. split; [reflexivity|apply Sf]. Qed.

Lemma now_hangs s i1 u p1 : get_feature m1 s = Some i1 -> get_feature m1 u = Some p1 -> hangs h1 i1 p1 None ->
  exists i2 p2, get_feature m2 s = Some i2 /\ get_feature m2 u = Some p2 /\ hangs h2 i2 p2 None.
Proof.
  intros G1 Gp1 H1. destruct (mg_first_parents _ _ _ _ _ Mg s i1 u p1 G1 Gp1 (ValidProofs.hangs_above h1 m1 t1 R1 i1 p1 None u H1 Gp1)) as (i2 & p2 & r & G2 & Gp2 & H2 & Gr).
  destruct r as [k|]; [destruct Gr as (q & c & Q & _); rewrite (proj1 B1) in Q; destruct Q|]. eauto 6.
Qed.
Lemma step_gathers : gathers h (l ++ [n]) h2 m2.
Proof.
  constructor.
  - intros s. rewrite (mg_names _ _ _ _ _ Mg s), (ga_names _ _ _ _ Ga s). split.
    + intros [(m & I & K)|K]; [exists m|exists n]; (split; [apply in_or_app; cbn; auto|exact K]).
    + intros (m & I & K). apply in_app_or in I. destruct I as [I|[<-|[]]]; [left; eauto|right; exact K].
  - intros m s i f I G F. apply in_app_or in I. destruct I as [I|[<-|[]]].
    + destruct (ga_features _ _ _ _ Ga m s i f I G F) as (i1 & f1 & G1 & F1 & _ & K & Op & Rg). destruct (first_feature s i1 f1 G1 F1) as (i2 & f2 & G2 & F2 & N2 & K2 & Op2 & Rg2).
      exists i2, f2. split; [exact G2|]. split; [exact F2|]. split; [exact N2|]. split; [exact (same_kind_trans _ _ _ K K2)|]. split; [congruence|]. intros Nr. destruct Rg2 as (X & _); [rewrite (same_kind_root _ _ K); exact Nr|].
      intros x Ix. destruct (Rg Nr x Ix) as (x' & Ix' & Ex). eauto.
    + destruct (known_now s) as [G1|(i1 & f1 & G1 & F1)].
      * destruct (mg_second _ _ _ _ _ Mg s i f G1 G (extends_feature _ _ _ _ E F)) as (i2 & f2 & G2 & F2 & Ke). pose proof (fi_kinds _ _ Fn s i f G F) as U. exists i2, f2. split; [exact G2|]. split; [exact F2|].
        split; [exact (get_name h2 m2 t2 R2 s i2 f2 G2 F2)|]. split; [exact (kept_kind _ _ Ke)|]. split; [exact (kept_optional _ _ Ke U (next_firm s i f G F))|]. intros Nr. rewrite (kept_ranges _ _ Ke U Nr). intros x Ix. exists x. split; [exact Ix|apply range_refl].
      * destruct (first_feature s i1 f1 G1 F1) as (i2 & f2 & G2 & F2 & N2 & K2 & Op2 & Rg2). exists i2, f2. split; [exact G2|]. split; [exact F2|]. split; [exact N2|].
        pose proof (next_mergeable s i f G (extends_feature _ _ _ _ E F)) as X. unfold FeatureMergeSpec.fits in X. rewrite G1 in X. destruct X as (f0 & F0 & _ & St). assert (f0 = f1) as -> by congruence. destruct (alike_kind _ _ _ _ _ (St eq_refl)) as (K & Op).
        split; [exact (same_kind_trans _ _ _ K K2)|]. split; [congruence|]. intros Nr. destruct Rg2 as (_ & X & _); [rewrite (same_kind_root _ _ K); exact Nr|]. exact (X i f G F).
  - intros s i2 f2 x G2 F2 K2 Ix. destruct (known_now s) as [G1|(i1 & f1 & G1 & F1)].
    + destruct (proj1 (mg_names _ _ _ _ _ Mg s) (ex_intro _ i2 G2)) as [(i & G)|(j & G)]; [congruence|]. destruct (next_feature s j G) as (g & F & F' & _ & U). destruct (mg_second _ _ _ _ _ Mg s j g G1 G F') as (i' & f' & G' & F2' & Ke).
      assert (i' = i2) as -> by congruence. assert (f' = f2) as -> by congruence. exists n, j, g. split; [apply in_or_app; cbn; auto|]. split; [exact G|]. split; [exact F|]. rewrite <- (kept_ranges _ _ Ke U); [exact Ix|].
      rewrite <- (same_kind_root _ _ (kept_kind _ _ Ke)). exact K2.
    + destruct (first_feature s i1 f1 G1 F1) as (i' & f' & G' & F2' & _ & K & _ & Rg). assert (i' = i2) as -> by congruence. assert (f' = f2) as -> by congruence. assert (Nr : f_kind f1 <> FRoot) by (rewrite <- (same_kind_root _ _ K); exact K2).
      destruct (Rg Nr) as (_ & _ & X). destruct (X x Ix) as [Y|(j & g & G & F & Y)].
      * destruct (ga_ranges _ _ _ _ Ga s i1 f1 x G1 F1 Nr Y) as (m & i & f & I & G & F & Z). exists m, i, f. split; [apply in_or_app; auto|]. auto.
      * exists n, j, g. split; [apply in_or_app; cbn; auto|]. auto.
  - intros m s i u p I G Gp H. apply in_app_or in I. destruct I as [I|[<-|[]]].
    + destruct (ga_places _ _ _ _ Ga m s i u p I G Gp H) as (i1 & p1 & G1 & Gp1 & H1). exact (now_hangs s i1 u p1 G1 Gp1 H1).
    + pose proof (ValidProofs.hangs_above h1 n tn Rn1 i p None u (extends_hangs _ _ _ _ _ E H) Gp) as A. destruct (known_now s) as [G1|(i1 & f1 & G1 & F1)].
      * exact (mg_second_parents _ _ _ _ _ Mg s i u p G1 G Gp A).
      * destruct (next_feature s i G) as (g & F & F' & _ & _). pose proof (next_mergeable s i g G F') as X. unfold FeatureMergeSpec.fits in X. rewrite G1 in X. destruct X as (f0 & F0 & _ & St). assert (f0 = f1) as -> by congruence. destruct (alike_kind _ _ _ _ _ (St eq_refl)) as (K & _).
        assert (Nr : f_kind f1 <> FRoot). { rewrite (same_kind_root _ _ K). intros Kg. destruct (get_stored h n tn Rn s i G) as (g0 & Sg & _). assert (g0 = g) as -> by (destruct Sg; congruence). exact (hangs_root h n tn Rn i g p None Sg Kg H). }
        destruct (bare_below h1 m1 t1 R1 B1 s i1 f1 G1 F1 Nr) as (u1 & p1 & Gp1 & H1).
        rewrite <- (same_parent h1 m1 n t1 tn R1 Rn1 next_mergeable next_apart s i1 i u1 p1 u p G1 G Gp1 (ValidProofs.hangs_above h1 m1 t1 R1 i1 p1 None u1 H1 Gp1) Gp A). exact (now_hangs s i1 u1 p1 G1 Gp1 H1).
Qed.
Lemma step_bare : bare m2.
Proof.
  destruct B1 as (X0 & X1 & X2 & X3). pose proof (mg_groups _ _ _ _ _ Mg) as Y0. pose proof (mg_boolean _ _ _ _ _ Mg) as Y1. pose proof (mg_nonboolean _ _ _ _ _ Mg) as Y2. pose proof (mg_mixed _ _ _ _ _ Mg) as Y3.
  rewrite X0 in Y0. rewrite X1 in Y1. rewrite X2 in Y2. rewrite X3 in Y3. inversion Y0. inversion Y1. inversion Y2. inversion Y3. repeat split; congruence.
Qed.
Lemma step_listed : listed h1 m1 -> listed h n -> listed h2 m2.
Proof.
  intros L1 Ln s i2 f2 v st G2 F2 K2. destruct (known_now s) as [G1|(i1 & f1 & G1 & F1)].
  - destruct (proj1 (mg_names _ _ _ _ _ Mg s) (ex_intro _ i2 G2)) as [(i & G)|(j & G)]; [congruence|]. destruct (next_feature s j G) as (g & F & F' & _ & U). destruct (mg_second _ _ _ _ _ Mg s j g G1 G F') as (i' & f' & G' & F2' & Ke).
    assert (i' = i2) as -> by congruence. assert (f' = f2) as -> by congruence. pose proof (kept_kind _ _ Ke) as K. rewrite K2 in K. destruct (f_kind g) as [|w st'| |] eqn:Kg; cbn in K; try discriminate K. subst w. exact (Ln s j g v st' G F Kg).
  - destruct (first_feature s i1 f1 G1 F1) as (i' & f' & G' & F2' & _ & K & _). assert (i' = i2) as -> by congruence. assert (f' = f2) as -> by congruence. rewrite K2 in K. destruct (f_kind f1) as [|w st'| |] eqn:Kg; cbn in K; try discriminate K. subst w. exact (L1 s i1 f1 v st' G1 F1 Kg).
Qed.
End Step.

Section Many.
Variables (ord : list nid -> list nid) (map_order : list (text * nid) -> list (text * nid)).
Hypothesis O : is_order ord.
Hypothesis Mo : forall l, Permutation (map_order l) l.
Variable h : heap.

Lemma step l h1 m1 n : l <> [] -> Forall (fine h) l -> fine h n -> (forall m, In m l -> root_shared m n /\ names_apart m n) -> (forall m, In m l -> mergeable true h m n) -> progress h l h1 m1 ->
  exists h2 m2, merge_models ord map_order h1 m1 n true = Some (h2, Some m2) /\ progress h (l ++ [n]) h2 m2.
Proof.
  intros Ne Fi Fn Ag AgM [E (t1 & R1) B1 Ga Va]. destruct (fi_tree _ _ Fn) as (tn & Rn). pose proof (next_represented h h1 m1 n t1 tn E R1 Rn) as Rn1.
  pose proof (next_shared h l h1 m1 n Ne Fi Ag Ga) as Sh. pose proof (next_apart h l h1 m1 n Ag Ga) as Na. pose proof (now_free h l h1 m1 t1 Fi R1 Ga) as Fr. pose proof (next_mergeable h l h1 m1 n t1 tn Fi Fn E R1 B1 Ga Rn AgM) as Fit.
  destruct (merge_success ord O map_order Mo h1 m1 n t1 tn true R1 Rn1 (resolved_connected _ _ _ R1 (bare_resolved _ B1)) Fr Sh Fit) as (h2 & m2 & Eq & Mg & Ok & Same).
  exists h2, m2. split; [exact Eq|]. destruct (mg_represented _ _ _ _ _ Mg) as (t2 & R2). constructor.
  - intros i c C. pose proof (E i c C) as C1. rewrite Same; [exact C1|]. destruct (Nat.lt_ge_cases i (h_next h1)) as [L|L]; [exact L|]. rewrite (rep_ok _ _ _ R1 i L) in C1. discriminate C1.
  - eauto.
  - exact (step_bare h1 m1 n B1 h2 m2 Mg).
  - exact (step_gathers h l h1 m1 n t1 tn Fi Fn Ag E R1 B1 Ga Rn AgM h2 m2 t2 Mg R2).
  - intros Li. apply Forall_app in Li. destruct Li as (Li & Ln). inversion Ln as [|? ? Ln0 _]; subst. destruct (Va Li) as (L1 & V1). split; [exact (step_listed h l h1 m1 n t1 tn Fi Fn E R1 Ga Rn h2 m2 t2 Mg R2 L1 Ln0)|].
    assert (Ln1 : listed h1 n). { intros s j g v st G F K. destruct (next_feature h h1 n tn Fn E Rn s j G) as (g0 & F0 & F1 & _). assert (g0 = g) as -> by congruence. exact (Ln0 s j g v st G F0 K). }
    destruct (merged_both ord map_order O Mo h1 m1 n t1 tn true R1 Rn1 (bare_resolved _ B1) Fr (bare_neat _ _ B1) L1 Sh Fit eq_refl Na (fi_bare _ _ Fn) Ln1) as (h2' & m2' & Eq' & V2).
    rewrite Eq in Eq'. injection Eq' as <- <-. intros a. rewrite (V2 a), (V1 a), (valid_extends h h1 n tn a E Rn Rn1 (fi_bare _ _ Fn)). split.
    + intros (X & Y) m I. apply in_app_or in I. destruct I as [I|[<-|[]]]; auto.
    + intros X. split; [intros m I; apply X; apply in_or_app; auto|apply X; apply in_or_app; cbn; auto].
Qed.
Lemma start m : fine h m -> progress h [m] h m.
Proof.
  intros [(t & R) B Ki Fr Fm]. constructor; [intros i c C; exact C|eauto|exact B| |].
  - constructor.
    + intros s. split; [intros K; exists m; cbn; auto|intros (x & [<-|[]] & K); exact K].
    + intros x s i f [<-|[]] G F. exists i, f. split; [exact G|]. split; [exact F|]. split; [exact (get_name h m t R s i f G F)|]. split; [destruct (f_kind f); reflexivity|]. split; [reflexivity|]. intros _ y I. exists y. split; [exact I|apply range_refl].
    + intros s i f x G F _ I. exists m, i, f. cbn. auto.
    + intros x s i u p [<-|[]] G Gp H. eauto.
  - intros L. inversion L; subst. split; [assumption|]. intros a. split; [intros V x [<-|[]]; exact V|intros V; apply V; cbn; auto].
Qed.
Lemma merge_rest ms : forall l h1 m1, l <> [] -> Forall (fine h) (l ++ ms) -> (forall m n, In m l -> In n ms -> root_shared m n /\ names_apart m n) -> ForallOrdPairs (fun m n => root_shared m n /\ names_apart m n) ms ->
  progress h l h1 m1 ->
  ((forall m n, In m l -> In n ms -> mergeable true h m n) /\ ForallOrdPairs (mergeable true h) ms /\ exists h2 m2, merge_all ord map_order h1 m1 ms = Some (h2, Some m2) /\ progress h (l ++ ms) h2 m2) \/
  (~ ((forall m n, In m l -> In n ms -> mergeable true h m n) /\ ForallOrdPairs (mergeable true h) ms) /\ exists h2, merge_all ord map_order h1 m1 ms = Some (h2, None)).
Proof.
  induction ms as [|n ms IH]; intros l h1 m1 Ne Fi Cr Pw Pr.
  - left. split; [intros m n _ []|]. split; [constructor|]. exists h1, m1. rewrite app_nil_r. split; [reflexivity|exact Pr].
  - assert (Fi0 := Fi). apply Forall_app in Fi. destruct Fi as (Fl & Fr). inversion Fr as [|? ? Fn Fr']; subst. inversion Pw as [|? ? Pn Pw']; subst. rewrite Forall_forall in Pn.
    assert (Ag : forall m, In m l -> root_shared m n /\ names_apart m n) by (intros m I; apply Cr; cbn; auto).
    destruct Pr as [E (t1 & R1) B1 Ga Va] eqn:EPr. clear EPr. destruct (fi_tree _ _ Fn) as (tn & Rn). pose proof (next_represented h h1 m1 n t1 tn E R1 Rn) as Rn1.
    destruct (forallb (fit_check true h1 m1) (m_features n)) eqn:Ck.
    + pose proof (proj2 (mergeable_check true h1 m1 n t1 tn R1 Rn1) Ck) as Fit. pose proof (was_mergeable h l h1 m1 n t1 tn Fl Fn E R1 B1 Ga Rn Fit) as AgM.
      destruct (step l h1 m1 n Ne Fl Fn Ag AgM Pr) as (h2 & m2 & Eq & Pr2). cbn [merge_all]. rewrite Eq. cbn [bind].
      assert (Ne2 : l ++ [n] <> []) by (destruct l; discriminate). assert (Fi2 : Forall (fine h) ((l ++ [n]) ++ ms)) by (rewrite <- app_assoc; exact Fi0).
      assert (Cr2 : forall m k, In m (l ++ [n]) -> In k ms -> root_shared m k /\ names_apart m k).
      { intros m k I K. apply in_app_or in I. destruct I as [I|[<-|[]]]; [apply Cr; cbn; auto|apply Pn; exact K]. }
      destruct (IH (l ++ [n]) h2 m2 Ne2 Fi2 Cr2 Pw' Pr2) as [(X & Y & Z)|(X & Z)].
      * left. rewrite <- app_assoc in Z. split; [intros m k I [<-|K]; [exact (AgM m I)|apply X; [apply in_or_app; auto|exact K]]|]. split; [|exact Z]. constructor; [|exact Y]. rewrite Forall_forall. intros k K. apply X; [apply in_or_app; cbn; auto|exact K].
      * right. split; [|exact Z]. intros (X1 & X2). apply X. inversion X2 as [|? ? X3 X4]; subst. rewrite Forall_forall in X3. split; [|exact X4]. intros m k I K. apply in_app_or in I. destruct I as [I|[<-|[]]]; [apply X1; cbn; auto|exact (X3 k K)].
    + right. assert (Nf : ~ mergeable true h1 m1 n) by (intros Fit; apply (mergeable_check true h1 m1 n t1 tn R1 Rn1) in Fit; congruence). split.
      * intros (X & _). apply Nf. apply (next_mergeable h l h1 m1 n t1 tn Fl Fn E R1 B1 Ga Rn). intros m I. apply X; cbn; auto.
      * destruct (merge_refused ord O map_order Mo h1 m1 n t1 tn true R1 Rn1 (resolved_connected _ _ _ R1 (bare_resolved _ B1)) (now_free h l h1 m1 t1 Fl R1 Ga) Nf) as (h2 & Eq & _). exists h2. cbn [merge_all]. rewrite Eq. reflexivity.
Qed.
Lemma pairs_split {A} (P : A -> A -> Prop) m ms : ForallOrdPairs P (m :: ms) <-> (forall x n, In x [m] -> In n ms -> P x n) /\ ForallOrdPairs P ms.
Proof.
  split.
  - intros X. inversion X as [|? ? Y Z]; subst. rewrite Forall_forall in Y. split; [intros x n [<-|[]] I; auto|exact Z].
  - intros (X & Y). constructor; [|exact Y]. rewrite Forall_forall. intros n I. apply X; cbn; auto.
Qed.
Lemma merge_all_result m ms : Forall (fine h) (m :: ms) -> ForallOrdPairs (fun m n => root_shared m n /\ names_apart m n) (m :: ms) ->
  (ForallOrdPairs (mergeable true h) (m :: ms) /\ exists h2 m2, merge_all ord map_order h m ms = Some (h2, Some m2) /\ progress h (m :: ms) h2 m2) \/
  (~ ForallOrdPairs (mergeable true h) (m :: ms) /\ exists h2, merge_all ord map_order h m ms = Some (h2, None)).
Proof.
  intros Fi Pw. apply pairs_split in Pw. destruct Pw as (Cr & Pw). assert (Fm : fine h m) by (inversion Fi; assumption).
  destruct (merge_rest ms [m] h m ltac:(discriminate) Fi Cr Pw (start m Fm)) as [(X & Y & Z)|(X & Z)]; [left|right]; (split; [|exact Z]); rewrite pairs_split; [split; assumption|exact X].
Qed.
Lemma agree_pairs l : ForallOrdPairs (agree h) l -> ForallOrdPairs (fun m n => root_shared m n /\ names_apart m n) l /\ ForallOrdPairs (mergeable true h) l.
Proof. induction 1 as [|m l X Y (I1 & I2)]; [split; constructor|]. split; constructor; auto; (eapply Forall_impl; [|exact X]); intros n (A & B & C); auto. Qed.
Lemma merge_all_gathers m ms : Forall (fine h) (m :: ms) -> ForallOrdPairs (agree h) (m :: ms) -> exists h2 m2, merge_all ord map_order h m ms = Some (h2, Some m2) /\ progress h (m :: ms) h2 m2.
Proof. intros Fi A. apply agree_pairs in A. destruct A as (P & Q). destruct (merge_all_result m ms Fi P) as [(_ & X)|(X & _)]; [exact X|contradiction]. Qed.
Lemma agree_turned m n : fine h m -> fine h n -> agree h m n -> agree h n m.
Proof.
  intros [(t & R) B Ki Fr Fm] [(t' & R') B' Ki' Fr' Fm'] (Sh & Fit & Na). split; [exact (turned_shared h m n t t' R R' Sh Fit)|]. split; [exact (turned_mergeable h m n t' R' Fit Ki)|exact (apart_turned _ _ Na)].
Qed.
Lemma pairs_permuted l l' : Permutation l l' -> Forall (fine h) l -> ForallOrdPairs (agree h) l -> ForallOrdPairs (agree h) l'.
Proof.
  induction 1 as [|x l l' P IH|x y l|l l' l'' P IH P' IH']; intros Fi A.
  - constructor.
  - inversion Fi; inversion A; subst. constructor; [|auto]. rewrite Forall_forall in *. intros k K. match goal with H : forall z, In z l -> agree h x z |- _ => apply H end. exact (Permutation_in _ (Permutation_sym P) K).
  - inversion Fi as [|? ? Fy Fi']; subst. inversion Fi' as [|? ? Fx Fl]; subst. inversion A as [|? ? Ay A']; subst. inversion A' as [|? ? Ax Al]; subst. inversion Ay as [|? ? Ayx Ayl]; subst.
    constructor; [constructor; [exact (agree_turned y x Fy Fx Ayx)|exact Ax]|]. constructor; assumption.
  - apply IH'; [|auto]. rewrite Forall_forall in *. intros k K. apply Fi. exact (Permutation_in _ (Permutation_sym P) K).
Qed.
End Many.

(** ** Any order *)
Lemma same_kind_both k k1 k2 : same_kind k k1 -> same_kind k k2 -> same_kind k1 k2.
Proof. destruct k, k1, k2; cbn; intros; congruence. Qed.
Lemma gathers_alike h l h1 n1 h2 n2 t1 t2 : Forall (fine h) l -> gathers h l h1 n1 -> gathers h l h2 n2 -> represents h1 n1 t1 -> bare n1 -> represents h2 n2 t2 -> alike_models h1 n1 h2 n2.
Proof.
  intros Fi G1 G2 R1 B1 R2. rewrite Forall_forall in Fi. constructor.
  - intros s. rewrite (ga_names _ _ _ _ G1 s), (ga_names _ _ _ _ G2 s). reflexivity.
  - intros s i1 f1 X1 F1. destruct (proj1 (ga_names _ _ _ _ G1 s) (ex_intro _ i1 X1)) as (m & I & (i & Gi)). destruct (fi_tree _ _ (Fi m I)) as (t & R). destruct (get_stored h m t R s i Gi) as (f & (_ & F) & _).
    destruct (ga_features _ _ _ _ G1 m s i f I Gi F) as (i1' & f1' & Y1 & Z1 & N1 & K1 & O1 & _). assert (i1' = i1) as -> by congruence. assert (f1' = f1) as -> by congruence.
    destruct (ga_features _ _ _ _ G2 m s i f I Gi F) as (i2 & f2 & X2 & F2 & N2 & K2 & O2 & _). exists i2, f2. split; [exact X2|]. split; [exact F2|]. split; [congruence|]. split; [exact (same_kind_both _ _ _ K1 K2)|]. split; [congruence|].
    assert (Half : forall ha na hb nb ia ib fa fb, gathers h l ha na -> gathers h l hb nb -> get_feature na s = Some ia -> feature_at ha ia = Some fa -> get_feature nb s = Some ib -> feature_at hb ib = Some fb -> f_kind fa <> FRoot -> ranges_in (f_locations fa) (f_locations fb)).
    { intros ha na hb nb ia ib fa fb Ga Gb Xa Fa Xb Fb Nr x Ix. destruct (ga_ranges _ _ _ _ Ga s ia fa x Xa Fa Nr Ix) as (m' & j & g & I' & Gj & Fj & Ij). destruct (ga_features _ _ _ _ Ga m' s j g I' Gj Fj) as (ja & ga & Y & Z & _ & Ka & _).
      assert (ja = ia) as -> by congruence. assert (ga = fa) as -> by congruence. destruct (ga_features _ _ _ _ Gb m' s j g I' Gj Fj) as (jb & gb & Y' & Z' & _ & _ & _ & Rg). assert (jb = ib) as -> by congruence. assert (gb = fb) as -> by congruence.
      apply Rg; [|exact Ij]. rewrite <- (same_kind_root _ _ Ka). exact Nr. }
    intros Nr. split; [exact (Half h1 n1 h2 n2 i1 i2 f1 f2 G1 G2 X1 F1 X2 F2 Nr)|]. apply (Half h2 n2 h1 n1 i2 i1 f2 f1 G2 G1 X2 F2 X1 F1). rewrite (same_kind_root _ _ (same_kind_both _ _ _ K1 K2)). exact Nr.
  - intros s i1 u p1 r X1 P1 H1. assert (r = None) as -> by exact (bare_place h1 n1 t1 R1 B1 s i1 p1 r X1 H1). split; [reflexivity|].
    destruct (proj1 (ga_names _ _ _ _ G1 s) (ex_intro _ i1 X1)) as (m & I & (i & Gi)). destruct (fi_tree _ _ (Fi m I)) as (t & R). destruct (get_stored h m t R s i Gi) as (f & (_ & F) & _).
    destruct (ga_features _ _ _ _ G1 m s i f I Gi F) as (i1' & f1 & Y1 & F1 & _ & K1 & _). assert (i1' = i1) as -> by congruence. destruct (get_stored h1 n1 t1 R1 s i1 X1) as (f1' & S1 & _). assert (f1' = f1) as -> by (destruct S1; congruence).
    assert (Nr : f_kind f <> FRoot) by (intros Kf; apply (same_kind_root _ _ K1) in Kf; exact (hangs_root h1 n1 t1 R1 i1 f1 p1 None S1 Kf H1)).
    destruct (bare_below h m t R (fi_bare _ _ (Fi m I)) s i f Gi F Nr) as (u' & p & Gp & H). destruct (ga_places _ _ _ _ G1 m s i u' p I Gi Gp H) as (i1' & p1' & Z1 & Z2 & Z3). assert (i1' = i1) as -> by congruence.
    assert (p1' = p1) as -> by exact (hangs_one _ _ _ _ Z3 H1). destruct (get_stored h1 n1 t1 R1 u p1 P1) as (g & (_ & Fg) & Ng). pose proof (get_name h1 n1 t1 R1 u' p1 g Z2 Fg). assert (u' = u) as -> by congruence.
    exact (ga_places _ _ _ _ G2 m s i u p I Gi Gp H).
Qed.
