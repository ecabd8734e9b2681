(** Merging a model with itself, and merging again with the same model. *)
From Coq Require Import List ZArith Arith Bool Ascii String Permutation Lia.
From Verif Require Import Text TextProofs ConstraintModel ConstraintSpec SourceRangeModel SourceRangeProofs FeatureTreeModel FeatureTreeSpec FeatureTreeProofs FeatureTransactionModel FeatureTransactionSpec FeatureEditSpec
  FeatureEditProofs FeatureHistoryProofs FeatureTransactionFinal FeatureIsolationProofs FeatureBuildSpec FeatureCloneSpec FeatureCloneProofs FeatureMergeSpec FeatureMergeResult SxfmModel XmlModel XmlSpec ConfigurationModel SolverModel SolverSpec SolverProofs
  SolverLoadProofs SolverEncodingProofs ValidSpec ValidProofs ValidCloneProofs ValidFinal MergeValidSpec MergeValidProofs MergeValidFinal MergeAgainSpec.
Import ListNotations.

Lemma names_same h m t h' m' t' : represents h m t -> represents h' m' t' -> (forall s, FeatureMergeSpec.known m' s <-> FeatureMergeSpec.known m s) ->
  Permutation (map fst (m_features m')) (map fst (m_features m)).
Proof.
  intros R R' N. pose proof (ts_names _ _ (represents_tree_shaped _ _ _ R)) as D. pose proof (ts_names _ _ (represents_tree_shaped _ _ _ R')) as D'.
  apply NoDup_Permutation; [exact D'|exact D|]. intros s. specialize (N s). unfold FeatureMergeSpec.known, get_feature in N.
  assert (X : forall l, NoDup (map fst l) -> (In s (map fst l) <-> exists i : nid, find_name s l = Some i)).
  { intros l Dl. split.
    - intros I. apply in_map_iff in I. destruct I as ((s0 & i) & E & I). cbn in E. subst s0. exists i. apply (find_name_in _ _ _ Dl). exact I.
    - intros (i & G). apply (find_name_in _ _ _ Dl) in G. apply in_map_iff. exists (s, i). auto. }
  rewrite (X _ D), (X _ D'). exact N.
Qed.

(** ** With itself *)
Section Self.
Variables (h : heap) (m : fmodel) (t : tree).
Hypothesis R : represents h m t.

Lemma self_shared : root_shared m m.
Proof.
  destruct (ts_root _ _ (represents_tree_shaped _ _ _ R)) as (r & cr & fr & Er & Ir & Cr & Pr & Dr & Kr).
  assert (S : stored h m r fr). { split; [exact Ir|]. unfold feature_at. rewrite Cr. cbn. rewrite Dr. reflexivity. }
  pose proof (stored_get h m t R r fr S) as G. exists (f_name fr), r. split; [exact Er|]. split; [exact G|]. exists r. exact G.
Qed.
Lemma self_mergeable strict : (strict = true -> all_of_known_kind h m) -> mergeable strict h m m.
Proof.
  intros K s j g G F. unfold FeatureMergeSpec.fits. rewrite G. exists g. split; [exact F|]. split.
  - destruct (f_kind g) eqn:Kg; [..|]; try (left; exact Kg); right; right;
      (destruct (get_stored h m t R s j G) as (g0 & Sg & _); assert (g0 = g) as -> by (destruct Sg; congruence);
       destruct (hangs_below h m t R j g Sg) as (p & gp & r & H & Sp & _ & _); [congruence|]; pose proof (hangs_above h m t R j p r _ H (stored_get h m t R p gp Sp)) as A;
       exists p, p, (f_name gp), (f_name gp); rewrite (stored_name h m p gp Sp); auto).
  - intros E. split; [reflexivity|]. pose proof (K E s j g G F) as Kg. destruct (f_kind g); [tauto|split; [reflexivity|tauto]|exact Logic.I|congruence].
Qed.
Lemma self_cloned h' m' : merged h m m h' m' -> cloned h m h' m'.
Proof.
  intros Mg. destruct (mg_represented _ _ _ _ _ Mg) as (t' & R'). constructor; try apply Mg.
  - apply (names_same h m t h' m' t' R R'). intros s. rewrite (mg_names _ _ _ _ _ Mg s). tauto.
  - intros s i f G F. destruct (mg_first _ _ _ _ _ Mg s i f G F) as (i' & f' & f0 & ls & G' & F' & K & Ga & ->). exists i', (with_locations f0 (f_locations f0 ++ ls)). split; [exact G'|]. split; [exact F'|].
    assert (ls = []) as ->.
    { unfold gained_ranges in Ga. rewrite G in Ga. destruct Ga as (g & Fg & keep & -> & Ke). assert (g = f) as -> by congruence. assert (forall l, In l (f_locations f) -> keep l = false) as X.
      { intros l I. destruct (keep l) eqn:E; [|reflexivity]. exfalso. apply (proj1 (Ke l) E). exists l. split; [exact I|apply range_refl]. }
      clear - X. induction (f_locations f) as [|l ls IH]; [reflexivity|]. cbn [filter]. rewrite (X l (or_introl eq_refl)). apply IH. intros y I. apply X. right. exact I. }
    rewrite app_nil_r. destruct f0. exact K.
Qed.
Theorem merge_self ord map_order strict : is_order ord -> (forall l, Permutation (map_order l) l) -> all_connected h m -> root_name_free m -> (strict = true -> all_of_known_kind h m) ->
  exists h' m', merge_models ord map_order h m m strict = Some (h', Some m') /\ cloned h m h' m' /\ forall i, i < h_next h -> h_cells h' i = h_cells h i.
Proof.
  intros O Mo C Fr K. destruct (merge_success ord O map_order Mo h m m t t strict R R C Fr self_shared (self_mergeable strict K)) as (h' & m' & E & Mg & _ & Un).
  exists h', m'. split; [exact E|]. split; [exact (self_cloned h' m' Mg)|exact Un].
Qed.
End Self.

(** ** Again *)
Section Again.
Variables (h : heap) (m1 m2 : fmodel) (t1 t2 : tree) (h' : heap) (m' : fmodel) (t' : tree) (strict : bool).
Hypothesis R1 : represents h m1 t1.
Hypothesis R2 : represents h m2 t2.
Hypothesis R' : represents h' m' t'.
Hypothesis Mg : merged h m1 m2 h' m'.
Hypothesis Un : forall i, i < h_next h -> h_cells h' i = h_cells h i.
Hypothesis Sh : root_shared m1 m2.
Hypothesis Fit : mergeable strict h m1 m2.
Hypothesis Fr1 : root_name_free m1.
Hypothesis Fr2 : root_name_free m2.

Lemma cells_same i c : h_cells h i = Some c -> h_cells h' i = Some c.
Proof. intros C. rewrite Un; [exact C|]. destruct (le_lt_dec (h_next h) i) as [L|L]; [|exact L]. rewrite (rep_ok _ _ _ R1 i L) in C. discriminate C. Qed.
Lemma above_same i p : feature_above h i p -> feature_above h' i p.
Proof. intros A. induction A as [i c p cp C P Cp F|i c p cp q C P Cp F A IH]; [exact (above_here h' i c p cp (cells_same _ _ C) P (cells_same _ _ Cp) F)|exact (above_further h' i c p cp q (cells_same _ _ C) P (cells_same _ _ Cp) F IH)]. Qed.
Lemma feature_same i f : feature_at h i = Some f -> feature_at h' i = Some f.
Proof. unfold feature_at. destruct (h_cells h i) as [c|] eqn:C; [|discriminate]. rewrite (cells_same i c C). auto. Qed.
Lemma second_there : represents h' m2 t2.
Proof. exact (represents_kept h h' m2 t2 R2 (rep_ok _ _ _ R') Un). Qed.
Lemma again_shared : root_shared m' m2.
Proof. destruct Sh as (s & r & Er & Gr & K). exists s, r. split; [exact Er|]. split; [exact Gr|]. apply (mg_names _ _ _ _ _ Mg). auto. Qed.
Lemma again_root_free : root_name_free m'.
Proof.
  intros i G. destruct (proj1 (mg_names _ _ _ _ _ Mg default_root) (ex_intro _ i G)) as [(x & Gx)|(x & Gx)].
  - pose proof (Fr1 x Gx) as Er. destruct (mg_root _ _ _ _ _ Mg) as (s & r & r' & Gs & Rs & Gs' & Rs'). assert (r = x) as -> by congruence.
    destruct (get_stored h m1 t1 R1 s x Gs) as (f & (_ & F) & N). pose proof (get_name h m1 t1 R1 default_root x f Gx F) as N'. assert (s = default_root) as -> by congruence. congruence.
  - pose proof (Fr2 x Gx) as Er. destruct Sh as (s & r & Rs & Gs & (y & Gy)). assert (r = x) as -> by congruence.
    destruct (get_stored h m2 t2 R2 s x Gs) as (f & (_ & F) & N). pose proof (get_name h m2 t2 R2 default_root x f Gx F) as N'. assert (s = default_root) as -> by congruence.
    pose proof (Fr1 y Gy) as Ey. destruct (mg_root _ _ _ _ _ Mg) as (u & r & r' & Gu & Ru & Gu' & Ru'). assert (r = y) as -> by congruence.
    destruct (get_stored h m1 t1 R1 u y Gu) as (f1 & (_ & F1) & N1). pose proof (get_name h m1 t1 R1 default_root y f1 Gy F1) as N1'. assert (u = default_root) as -> by congruence. congruence.
Qed.
Lemma again_resolved : all_resolved m'.
Proof.
  intros c r I L. unfold all_constraints in I. repeat (apply in_app_or in I; destruct I as [I|I]).
  - destruct (Forall2_right _ _ _ _ (mg_boolean _ _ _ _ _ Mg) I) as (x & _ & _ & X). exact (X r L).
  - destruct (Forall2_right _ _ _ _ (mg_nonboolean _ _ _ _ _ Mg) I) as (x & _ & _ & X). exact (X r L).
  - apply in_map_iff in I. destruct I as (y & <- & I). destruct (Forall2_right _ _ _ _ (mg_mixed _ _ _ _ _ Mg) I) as (x & _ & (_ & X) & _). exact (X r L).
Qed.
Lemma again_mergeable : mergeable false h' m' m2.
Proof.
  intros s j g G F'. destruct (get_stored h m2 t2 R2 s j G) as (g0 & Sg & Ng). assert (g0 = g) as -> by (pose proof (feature_same j g0 (proj2 Sg)); congruence). pose proof (proj2 Sg) as F.
  unfold FeatureMergeSpec.fits. destruct (get_feature m1 s) as [i|] eqn:G1.
  - destruct (get_stored h m1 t1 R1 s i G1) as (f & Sf & Nf). destruct (mg_first _ _ _ _ _ Mg s i f G1 (proj2 Sf)) as (i' & f' & f0 & ls & G' & Fi & K & _ & E). rewrite G'. exists f'. split; [exact Fi|]. split; [|discriminate].
    assert (Kf : f_kind f = FRoot -> f_kind f' = FRoot). { intros X. subst f'. destruct K as (_ & _ & K). rewrite X in K. exact (proj1 K). }
    pose proof (Fit s j g G F) as X. unfold FeatureMergeSpec.fits in X. rewrite G1 in X. destruct X as (f1 & F1 & Pa & _). assert (f1 = f) as -> by (destruct Sf; congruence).
    destruct Pa as [X|[X|(p & q & u & v & A & B & Nu & Nv & L)]]; [left; auto|right; left; exact X|]. right. right.
    destruct (f_kind f) eqn:Kd; [..|]; try (exfalso; exact (hangs_root h m1 t1 R1 i f p None Sf Kd (ltac:(destruct (above_hangs h m1 t1 R1 i p s G1 A) as (r & Hr); exfalso; exact (hangs_root h m1 t1 R1 i f p r Sf Kd Hr)))));
      (destruct (hangs_below h m1 t1 R1 i f Sf) as (p0 & gp & r & H & Sp & P0 & _); [congruence|]; assert (p0 = p) as -> by (eapply feature_above_unique; [apply parent_feature_above; exact P0|exact A]);
       pose proof (stored_get h m1 t1 R1 p gp Sp) as Gp; assert (f_name gp = u) as Eu by (rewrite (stored_name h m1 p gp Sp) in Nu; congruence); rewrite Eu in Gp;
       destruct (mg_first_parents _ _ _ _ _ Mg s i u p G1 Gp A) as (i2 & p' & r' & G2 & Gp' & H' & _); assert (i2 = i') as -> by congruence;
       exists p', q, u, v; split; [exact (hangs_above h' m' t' R' i' p' r' u H' Gp')|]; split; [exact (above_same j q B)|]; split;
         [destruct (get_stored h' m' t' R' u p' Gp') as (x & Sx & Nx); rewrite (stored_name h' m' p' x Sx); congruence|]; split; [|exact L];
       unfold name_at in *; destruct (feature_at h q) as [fq|] eqn:Fq; [rewrite (feature_same q fq Fq); exact Nv|discriminate Nv]).
  - destruct (mg_second _ _ _ _ _ Mg s j g G1 G F) as (i' & f' & G' & Fi & K). rewrite G'. exists f'. split; [exact Fi|]. split; [|discriminate].
    destruct (new_parent h m1 m2 t2 strict R2 Sh Fit s j g G1 G F) as (u & p & Gu & A). destruct (mg_second_parents _ _ _ _ _ Mg s j u p G1 G Gu A) as (i2 & p' & X1 & X2 & H). assert (i2 = i') as -> by congruence.
    right. right. exists p', p, u, u. split; [exact (hangs_above h' m' t' R' i' p' None u H X2)|]. split; [exact (above_same j p A)|].
    split; [destruct (get_stored h' m' t' R' u p' X2) as (x & Sx & Nx); rewrite (stored_name h' m' p' x Sx); congruence|]. split; [|reflexivity].
    destruct (get_stored h' m2 t2 second_there u p Gu) as (x & Sx & Nx). rewrite (stored_name h' m2 p x Sx). congruence.
Qed.

Hypothesis Ne : neat h m1.
Hypothesis Bg : beside_no_group h m1 m2.

Lemma again_neat : neat h' m'.
Proof.
  split; [exact (merge_one_group h m1 m2 t1 h' m' t' R1 R' Mg Ne)|].
  intros p' k s i' Gr G H. destruct (get_stored h' m' t' R' s i' G) as (f' & Sf' & Nf'). destruct Gr as (q & c & Iq & C & D & P).
  destruct (Forall2_right _ _ _ _ (mg_groups _ _ _ _ _ Mg) Iq) as (q0 & Iq0 & c0 & c1 & p & u & X1 & X2 & X3 & X4 & X5 & X6).
  assert (c1 = c) as -> by congruence. assert (get_feature m' u = Some p') as Gp' by congruence. assert (group_of h m1 p k) as Gk by (exists q0, c0; rewrite <- X3; auto).
  assert (Uq : forall p2 r, hangs h' i' p2 r -> (exists v, get_feature m' v = Some p2) -> p2 = p' /\ r = None).
  { intros p2 r H2 (v & Gv). assert (K : f_kind f' <> FRoot) by (intros K; exact (hangs_root h' m' t' R' i' f' p' None Sf' K H)).
    destruct (hangs_below h' m' t' R' i' f' Sf' K) as (p0 & g0 & r0 & _ & _ & _ & U). destruct (get_stored h' m' t' R' u p' Gp') as (gu & Su & _). destruct (get_stored h' m' t' R' v p2 Gv) as (gv & Sv & _).
    destruct (U p' gu None H (proj2 Su)) as (-> & -> & ->). destruct (U p2 gv r H2 (proj2 Sv)) as (-> & _ & ->). auto. }
  destruct (get_feature m1 s) as [i|] eqn:G1.
  - destruct (get_stored h m1 t1 R1 s i G1) as (f & Sf & Nf).
    assert (Kf : f_kind f <> FRoot).
    { intros K. destruct (mg_first _ _ _ _ _ Mg s i f G1 (proj2 Sf)) as (i2 & f2 & f0 & ls & G2 & F2 & (_ & _ & Kk) & _ & E). rewrite K in Kk. assert (i2 = i') as -> by congruence. assert (f2 = f') as -> by (destruct Sf'; congruence).
      apply (hangs_root h' m' t' R' i' f' p' None Sf'); [subst f'; exact (proj1 Kk)|exact H]. }
    destruct (hangs_below h m1 t1 R1 i f Sf Kf) as (p0 & g0 & r0 & H0 & S0 & _ & _). pose proof (stored_get h m1 t1 R1 p0 g0 S0) as G0. pose proof (hangs_above h m1 t1 R1 i p0 r0 _ H0 G0) as A.
    destruct (mg_first_parents _ _ _ _ _ Mg s i _ p0 G1 G0 A) as (i2 & p2 & r2 & Y1 & Y2 & Y3 & Y4). assert (i2 = i') as -> by congruence. destruct (Uq p2 r2 Y3 (ex_intro _ _ Y2)) as (-> & ->).
    destruct (get_stored h' m' t' R' u p' Gp') as (gu & Su & Nu). pose proof (get_name h' m' t' R' _ p' gu Y2 (proj2 Su)) as Nu2. assert (f_name g0 = u) as Eu by congruence. rewrite Eu in G0. assert (p0 = p) as -> by congruence.
    exact (Y4 k Gk).
  - destruct (proj1 (mg_names _ _ _ _ _ Mg s) (ex_intro _ i' G)) as [(x & X)|(j & G2)]; [congruence|]. destruct (get_stored h m2 t2 R2 s j G2) as (g & Sg & _).
    destruct (new_parent h m1 m2 t2 strict R2 Sh Fit s j g G1 G2 (proj2 Sg)) as (v & pv & Gv & A). destruct (mg_second_parents _ _ _ _ _ Mg s j v pv G1 G2 Gv A) as (i2 & p2 & Y1 & Y2 & Y3).
    assert (i2 = i') as -> by congruence. destruct (Uq p2 None Y3 (ex_intro _ _ Y2)) as (-> & _). destruct (get_stored h' m' t' R' u p' Gp') as (gu & Su & Nu). pose proof (get_name h' m' t' R' _ p' gu Y2 (proj2 Su)) as Nu2.
    assert (v = u) as -> by congruence. exact (Bg s j u pv p k G1 G2 Gv A X5 Gk).
Qed.

Variables (h2 : heap) (n : fmodel).
Hypothesis Mg2 : merged h' m' m2 h2 n.

Lemma again_done : merged_again h' m' h2 n.
Proof.
  destruct (mg_represented _ _ _ _ _ Mg2) as (t3 & R3). pose proof again_neat as Na. constructor; try apply Mg2.
  - apply (names_same h' m' t' h2 n t3 R' R3). intros s. rewrite (mg_names _ _ _ _ _ Mg2 s). split; [|tauto]. intros [K|K]; [exact K|]. apply (mg_names _ _ _ _ _ Mg). auto.
  - intros s i f G F. destruct (mg_first _ _ _ _ _ Mg2 s i f G F) as (i' & f' & f0 & ls & G' & F' & K & Ga & ->). exists i', (with_locations f0 (f_locations f0 ++ ls)). split; [exact G'|]. split; [exact F'|].
    split; [exact (proj1 K)|]. destruct (get_stored h' m' t' R' s i G) as (f1 & Sf & Nf). assert (f1 = f) as -> by (destruct Sf; congruence).
    destruct (f_kind f) as [|v st| |] eqn:Kf; [..|]; try (destruct K as (_ & _ & K); rewrite Kf in K; exact (proj1 K)).
    all: assert (ls = []) as ->; [|rewrite app_nil_r; destruct f0; exact K].
    all: unfold gained_ranges in Ga; destruct (get_feature m2 s) as [j|] eqn:G2; [|exact Ga]; destruct Ga as (g & Fg & keep & -> & Ke);
      destruct (get_stored h m2 t2 R2 s j G2) as (g0 & Sg & _); assert (g0 = g) as -> by (pose proof (feature_same j g0 (proj2 Sg)); congruence);
      assert (All : forall l, In l (f_locations g) -> exists l', In l' (f_locations f) /\ range_eqb l l' = true).
    1,3: intros l Il; destruct (get_feature m1 s) as [i1|] eqn:G1.
    1,3: destruct (get_stored h m1 t1 R1 s i1 G1) as (fo & So & _); destruct (mg_first _ _ _ _ _ Mg s i1 fo G1 (proj2 So)) as (i2 & f2 & f3 & ls & X1 & X2 & (_ & _ & K3) & Ga & E); assert (i2 = i) as -> by congruence; assert (f2 = f) as -> by congruence;
      (assert (f_locations f3 = f_locations fo) as El by (rewrite E in Kf; cbn [with_locations f_kind] in Kf; destruct (f_kind fo); destruct K3 as (K3 & _ & K4); first [exact K4|congruence]));
      unfold gained_ranges in Ga; rewrite G2 in Ga; destruct Ga as (g2 & Fg2 & keep2 & -> & Ke2); assert (g2 = g) as -> by (destruct Sg; congruence);
      rewrite E; cbn [with_locations f_locations]; rewrite El; destruct (keep2 l) eqn:Ek;
      [exists l; split; [apply in_or_app; right; apply filter_In; auto|apply range_refl]|
       destruct (existsb (range_eqb l) (f_locations fo)) eqn:Ex;
         [apply existsb_exists in Ex; destruct Ex as (l' & I' & E'); exists l'; split; [apply in_or_app; auto|exact E']|
          exfalso; assert (keep2 l = true); [|congruence]; apply Ke2; intros (l' & I' & E'); assert (existsb (range_eqb l) (f_locations fo) = true); [apply existsb_exists; eauto|congruence]]].
    1,2: destruct (mg_second _ _ _ _ _ Mg s j g G1 G2 (proj2 Sg)) as (i2 & f2 & X1 & X2 & (_ & _ & K3)); assert (i2 = i) as -> by congruence; assert (f2 = f) as -> by congruence;
      destruct (f_kind g); destruct K3 as (K3 & _ & K4); try congruence; exists l; split; [rewrite K4; exact Il|apply range_refl].
    all: assert (forall l, In l (f_locations g) -> keep l = false) as X by (intros l I; destruct (keep l) eqn:Ek; [exfalso; exact (proj1 (Ke l) Ek (All l I))|reflexivity]);
      clear - X; induction (f_locations g) as [|l ls IH]; [reflexivity|]; cbn [filter]; rewrite (X l (or_introl eq_refl)); apply IH; intros y I; apply X; right; exact I.
  - intros s i u p r G Gp H. pose proof (hangs_above h' m' t' R' i p r u H Gp) as A.
    destruct (mg_first_parents _ _ _ _ _ Mg2 s i u p G Gp A) as (i' & p' & g & Gi' & Gp' & H' & Gr). exists i', p'. split; [exact Gi'|]. split; [exact Gp'|].
    destruct r as [k|].
    + destruct (get_stored h' m' t' R' s i G) as (f & Sf & _). pose proof (hangs_group_of h' m' t' R' i f p k Sf H) as Gk.
      destruct g as [k'|]; [|destruct (Gr k Gk)]. destruct Gk as (q1 & c1 & Q1 & C1 & D1 & P1). destruct Gr as (q2 & c2 & Q2 & C2 & D2 & P2).
      assert (q1 = q2) as <- by (eapply (proj1 Na); eauto). rewrite C1 in C2. injection C2 as <-. rewrite D1 in D2. injection D2 as <-. exact H'.
    + destruct g as [k'|]; [|exact H']. destruct (proj2 Na p k' s i Gr G H).
Qed.
End Again.

(** ** Both merges *)
Section Twice.
Variables (ord ord' : list nid -> list nid) (map_order map_order' : list (text * nid) -> list (text * nid)).
Hypothesis O : is_order ord.
Hypothesis O' : is_order ord'.
Hypothesis Mo : forall l, Permutation (map_order l) l.
Hypothesis Mo' : forall l, Permutation (map_order' l) l.
Variables (h : heap) (m1 m2 : fmodel) (t1 t2 : tree) (strict : bool).
Hypothesis R1 : represents h m1 t1.
Hypothesis R2 : represents h m2 t2.
Hypothesis Fr1 : root_name_free m1.
Hypothesis Fr2 : root_name_free m2.
Hypothesis Ne : neat h m1.
Hypothesis Bg : beside_no_group h m1 m2.
Hypothesis Sh : root_shared m1 m2.
Hypothesis Fit : mergeable strict h m1 m2.

Theorem merge_twice : all_connected h m1 ->
  exists h' m' h2 n, merge_models ord map_order h m1 m2 strict = Some (h', Some m') /\ merged h m1 m2 h' m' /\
    merge_models ord' map_order' h' m' m2 false = Some (h2, Some n) /\ merged_again h' m' h2 n.
Proof.
  intros C. destruct (merge_success ord O map_order Mo h m1 m2 t1 t2 strict R1 R2 C Fr1 Sh Fit) as (h' & m' & E & Mg & _ & Un). destruct (mg_represented _ _ _ _ _ Mg) as (t' & R').
  pose proof (again_resolved h m1 m2 h' m' Mg) as Re'. pose proof (second_there h m2 t2 h' m' t' R2 R' Un) as R2'.
  destruct (merge_success ord' O' map_order' Mo' h' m' m2 t' t2 false R' R2' (resolved_connected h' m' t' R' Re') (again_root_free h m1 m2 t1 t2 h' m' R1 R2 Mg Sh Fr1 Fr2)
    (again_shared h m1 m2 h' m' Mg Sh) (again_mergeable h m1 m2 t1 t2 h' m' t' strict R1 R2 R' Mg Un Sh Fit)) as (h2 & n & E2 & Mg2 & _).
  exists h', m', h2, n. split; [exact E|]. split; [exact Mg|]. split; [exact E2|]. exact (again_done h m1 m2 t1 t2 h' m' t' strict R1 R2 R' Mg Un Sh Fit Ne Bg h2 n Mg2).
Qed.
Theorem merge_twice_valid : all_resolved m1 -> listed h m1 -> listed h m2 ->
  exists h' m' h2 n, merge_models ord map_order h m1 m2 strict = Some (h', Some m') /\ merge_models ord' map_order' h' m' m2 false = Some (h2, Some n) /\
    forall a, SolverSpec.valid h2 n a <-> SolverSpec.valid h' m' a.
Proof.
  intros Re Li Li2. destruct (merge_success ord O map_order Mo h m1 m2 t1 t2 strict R1 R2 (resolved_connected h m1 t1 R1 Re) Fr1 Sh Fit) as (h' & m' & E & Mg & _ & Un). destruct (mg_represented _ _ _ _ _ Mg) as (t' & R').
  assert (Li' : listed h' m').
  { intros s i f v g G F K. destruct (get_feature m1 s) as [i1|] eqn:G1.
    - destruct (get_stored h m1 t1 R1 s i1 G1) as (f1 & S1 & _). destruct (mg_first _ _ _ _ _ Mg s i1 f1 G1 (proj2 S1)) as (i2 & f2 & f0 & ls & X1 & X2 & (_ & _ & K3) & _ & Ef). assert (f2 = f) as -> by congruence. rewrite Ef in K. cbn [with_locations f_kind] in K.
      destruct (f_kind f1) as [|v1 g1| |] eqn:K1; destruct K3 as (K3 & _); try congruence. assert (v = v1) as -> by congruence. exact (Li s i1 f1 v1 g1 G1 (proj2 S1) K1).
    - destruct (proj1 (mg_names _ _ _ _ _ Mg s) (ex_intro _ i G)) as [(x & X)|(j & G2)]; [congruence|]. destruct (get_stored h m2 t2 R2 s j G2) as (g2 & S2 & _).
      destruct (mg_second _ _ _ _ _ Mg s j g2 G1 G2 (proj2 S2)) as (i2 & f2 & X1 & X2 & (_ & _ & K3)). assert (f2 = f) as -> by congruence.
      destruct (f_kind g2) as [|v1 g1| |] eqn:K1; destruct K3 as (K3 & _); try congruence. assert (v = v1) as -> by congruence. exact (Li2 s j g2 v1 g1 G2 (proj2 S2) K1). }
  destruct (merged_valid ord' map_order' O' Mo' h' m' m2 t' t2 false R' (second_there h m2 t2 h' m' t' R2 R' Un) (again_resolved h m1 m2 h' m' Mg) (again_root_free h m1 m2 t1 t2 h' m' R1 R2 Mg Sh Fr1 Fr2)
    (again_neat h m1 m2 t1 t2 h' m' t' strict R1 R2 R' Mg Sh Fit Ne Bg) Li' (again_shared h m1 m2 h' m' Mg Sh) (again_mergeable h m1 m2 t1 t2 h' m' t' strict R1 R2 R' Mg Un Sh Fit)) as (h2 & n & E2 & V).
  exists h', m', h2, n. split; [exact E|]. split; [exact E2|]. intros a. rewrite (V a). split; [tauto|]. intros Va. split; [exact Va|].
  intros s j g N G F. exfalso. destruct (proj2 (mg_names _ _ _ _ _ Mg s) (or_intror (ex_intro _ j G))) as (x & X). congruence.
Qed.
End Twice.
Theorem merge_self_valid ord map_order h m t strict : is_order ord -> (forall l, Permutation (map_order l) l) -> represents h m t -> all_resolved m -> root_name_free m -> neat h m -> listed h m ->
  (strict = true -> all_of_known_kind h m) ->
  exists h' m', merge_models ord map_order h m m strict = Some (h', Some m') /\ forall a, SolverSpec.valid h' m' a <-> SolverSpec.valid h m a.
Proof.
  intros O Mo R Re Fr Ne Li K. destruct (merged_valid ord map_order O Mo h m m t t strict R R Re Fr Ne Li (self_shared h m t R) (self_mergeable h m t R strict K)) as (h' & m' & E & V).
  exists h', m'. split; [exact E|]. intros a. rewrite (V a). split; [tauto|]. intros Va. split; [exact Va|]. intros s j g N G. congruence.
Qed.
