(** What is built from the calls of the XML reader, including the alternatives found
    afterwards. *)
From Coq Require Import List ZArith Arith Bool Ascii String Permutation Lia.
From Verif Require Import Text TextProofs ConstraintModel ConstraintSpec SourceRangeModel FeatureTreeModel FeatureTreeSpec FeatureTransactionModel
  FeatureTransactionSpec FeatureEditSpec FeatureTreeProofs FeatureOrderProofs FeatureEditProofs FeatureTransactionFinal FeatureHistoryProofs FeatureGroupProofs
  FeatureDataProofs FeatureCloneProofs FeatureMergeResult SampleProofs FeatureBuildSpec FeatureBuildProofs FeatureBuildFinal SxfmModel XmlModel XmlSpec XmlEnrollProofs
  XmlDetectProofs.
From Verif Require SampleModel.
Import ListNotations.

(** ** Models as described *)
Section Described.
Variables (cs : list bcall) (d : decl) (h : heap) (m : fmodel).
Hypothesis De : describes cs d.
Hypothesis A : as_described cs d h m.

Lemma get_in s i : get_feature m s = Some i <-> In (s, i) (m_features m).
Proof. unfold get_feature. apply find_name_in. exact (ts_names _ _ (ad_tree _ _ _ _ A)). Qed.
Lemma get_data s i : get_feature m s = Some i -> exists f, feature_at h i = Some f /\ f_name f = s.
Proof. intros G. apply get_in in G. exact (ts_stored _ _ (ad_tree _ _ _ _ A) s i G). Qed.
Lemma get_inj s s' i : get_feature m s = Some i -> get_feature m s' = Some i -> s = s'.
Proof. intros G G'. destruct (get_data s i G) as (f & F & <-). destruct (get_data s' i G') as (f' & F' & <-). congruence. Qed.
Lemma get_taken s : taken d s <-> exists i, get_feature m s = Some i.
Proof.
  unfold taken. split.
  - intros X. assert (In s (map fst (m_features m))) as I.
    { apply (Permutation_in s (Permutation_sym (ad_names _ _ _ _ A))). destruct X as [->|X]; [left; reflexivity|right; exact X]. }
    apply in_map_iff in I. destruct I as ((s' & i) & E & I). cbn in E. subst s'. exists i. apply get_in. exact I.
  - intros (i & G). apply get_in in G. assert (In s (fst d :: map f_name (snd d))) as I.
    { apply (Permutation_in s (ad_names _ _ _ _ A)). apply in_map_iff. exists (s, i). auto. }
    destruct I as [<-|I]; auto.
Qed.
Lemma declared_feature f : In f (snd d) -> exists i g, get_feature m (f_name f) = Some i /\ feature_at h i = Some g /\ same_data f g.
Proof. exact (ad_data _ _ _ _ A f). Qed.

Lemma hangs_above i p k : hangs h i p k -> (exists s, get_feature m s = Some p) -> feature_above h i p.
Proof.
  intros (c & C & X) (s & G). destruct (get_data s p G) as (f & F & _). unfold feature_at in F. destruct (h_cells h p) as [cp|] eqn:Cp; [|discriminate]. cbn [bind] in F.
  assert (Fp : is_feature (n_data cp) = true) by (destruct (n_data cp); [reflexivity|discriminate]). destruct k as [k|].
  - destruct X as (q & cq & P & Cq & Dq & Pq). apply (above_further h i c q cq p C P Cq); [rewrite Dq; reflexivity|]. exact (above_here h q cq p cp Cq Pq Cp Fp).
  - exact (above_here h i c p cp C X Cp Fp).
Qed.

Lemma child_below s p i : get_feature m s = Some p -> (child_in h m p i <-> exists f, below cs d s f /\ get_feature m (f_name f) = Some i).
Proof.
  intros G. split.
  - intros ((x & Gx) & Ab). assert (taken d x) as Tx by (apply get_taken; eauto). destruct Tx as [->|Tx].
    + exfalso. destruct (ad_root _ _ _ _ A) as (r & f & Er & Gr & _). assert (i = r) by congruence. subst i.
      destruct (ts_root _ _ (ad_tree _ _ _ _ A)) as (r' & c & f' & Er' & _ & C & P & _). assert (r' = r) by congruence. subst r'.
      inversion Ab as [? c1 y cp C1 P1|? c1 y cp z C1 P1]; subst; rewrite C in C1; injection C1 as <-; congruence.
    + apply in_map_iff in Tx. destruct Tx as (f & <- & If). exists f. split; [|exact Gx]. split; [exact If|].
      destruct (ad_parents _ _ _ _ A f If) as (j & q & Gj & Gq & Hq). assert (j = i) by congruence. subst j.
      pose proof (hangs_above i q _ Hq (ex_intro _ _ Gq)) as Ab'. assert (q = p) by (eapply feature_above_unique; eassumption). subst q.
      exact (get_inj _ _ _ Gq G).
  - intros (f & (If & E) & Gf). destruct (ad_parents _ _ _ _ A f If) as (j & q & Gj & Gq & Hq). rewrite E in *. assert (q = p) by congruence. subst q.
    assert (j = i) by congruence. subst j. split; [eauto|]. exact (hangs_above i p _ Hq (ex_intro _ _ Gq)).
Qed.

Lemma forall2_left {X Y} (P : X -> Y -> Prop) l l' : Forall2 P l l' -> forall x, In x l -> exists y, In y l' /\ P x y.
Proof. induction 1 as [|a b l l' Pab F IH]; intros x; [intros []|]. intros [->|I]; [exists b; split; [left; reflexivity|exact Pab]|]. destruct (IH x I) as (y & J & Py). exists y. split; [right; exact J|exact Py]. Qed.
Lemma forall2_right {X Y} (P : X -> Y -> Prop) l l' : Forall2 P l l' -> forall y, In y l' -> exists x, In x l /\ P x y.
Proof. induction 1 as [|a b l l' Pab F IH]; intros y; [intros []|]. intros [->|I]; [exists a; split; [left; reflexivity|exact Pab]|]. destruct (IH y I) as (x & J & Px). exists x. split; [right; exact J|exact Px]. Qed.

Lemma constraints_of_in k e : In (k, e) (constraints_of cs) <-> In (BConstraint k e) cs.
Proof.
  unfold constraints_of. rewrite in_flat_map. split.
  - intros (c & I & J). destruct c; cbn in J; try contradiction. destruct J as [J|[]]. injection J as <- <-. exact I.
  - intros I. exists (BConstraint k e). split; [exact I|left; reflexivity].
Qed.

Lemma described_constraint c : In c (all_constraints m) -> exists k e, In (BConstraint k e) cs /\ c_expr c = cmap (pointing m) e.
Proof.
  unfold all_constraints. rewrite !in_app_iff. intros [I|[I|I]].
  - destruct (forall2_right _ _ _ (ad_boolean _ _ _ _ A) c I) as (e & J & L). apply in_flat_map in J. destruct J as ((k & e') & J & X). apply constraints_of_in in J.
    destruct k; cbn in X; try contradiction. destruct X as [X|[]]. subst e'. eexists. exists e. split; [exact J|exact L].
  - destruct (forall2_right _ _ _ (ad_nonboolean _ _ _ _ A) c I) as (e & J & L). apply in_flat_map in J. destruct J as ((k & e') & J & X). apply constraints_of_in in J.
    destruct k; cbn in X; try contradiction. destruct X as [X|[]]. subst e'. eexists. exists e. split; [exact J|exact L].
  - apply in_map_iff in I. destruct I as (x & <- & I).
    destruct (forall2_right _ _ _ (ad_mixed _ _ _ _ A) x I) as (e & J & L & _). apply in_flat_map in J. destruct J as ((k & e') & J & X). apply constraints_of_in in J.
    destruct k; cbn in X; try contradiction. destruct X as [X|[]]. subst e. cbn in L. eexists. exists e'. split; [exact J|exact L].
Qed.
Lemma constraint_described k e : In (BConstraint k e) cs -> exists c, In c (all_constraints m) /\ c_expr c = cmap (pointing m) e.
Proof.
  intros I. apply constraints_of_in in I. unfold all_constraints. destruct k as [| |r k].
  - destruct (forall2_left _ _ _ (ad_boolean _ _ _ _ A) e) as (c & J & L); [apply in_flat_map; eexists; split; [exact I|left; reflexivity]|].
    exists c. split; [rewrite in_app_iff; auto|exact L].
  - destruct (forall2_left _ _ _ (ad_nonboolean _ _ _ _ A) e) as (c & J & L); [apply in_flat_map; eexists; split; [exact I|left; reflexivity]|].
    exists c. split; [rewrite !in_app_iff; auto|exact L].
  - destruct (forall2_left _ _ _ (ad_mixed _ _ _ _ A) ((r, k), e)) as (c & J & L & _); [apply in_flat_map; eexists; split; [exact I|left; reflexivity]|].
    exists (x_con c). split; [rewrite !in_app_iff; right; right; apply in_map; exact J|exact L].
Qed.

Lemma pointing_ref r i : pointing m r = Ref i -> (exists s, r = Own s /\ taken d s) -> exists s, r = Own s /\ get_feature m s = Some i.
Proof. intros E (s & -> & Ts). cbn [pointing] in E. apply get_taken in Ts. destruct Ts as (j & G). rewrite G in E. injection E as ->. eauto. Qed.

Lemma exclusion_described x y a b : get_feature m x = Some a -> get_feature m y = Some b -> (states_exclusion m a b <-> excluding cs x y).
Proof.
  intros Gx Gy. split.
  - intros (c & I & E). destruct (described_constraint c I) as (k & e & J & L). rewrite L in E. pose proof (de_relations _ _ De _ J) as M. cbn [relation_ok] in M. unfold mentions_declared in M.
    destruct e as [o l r|o e|n|r]; try discriminate. cbn [cmap] in E. injection E as -> El Er.
    destruct l as [| | |l]; try discriminate El. destruct r as [| | |r]; try discriminate Er. cbn [cmap] in *. injection El as El. injection Er as Er.
    destruct (pointing_ref l a El) as (s & -> & Gs); [apply M; left; reflexivity|].
    destruct (pointing_ref r b Er) as (s' & -> & Gs'); [apply M; right; left; reflexivity|].
    rewrite (get_inj _ _ _ Gx Gs), (get_inj _ _ _ Gy Gs'). exists k. exact J.
  - intros (k & J). destruct (constraint_described _ _ J) as (c & I & E). exists c. split; [exact I|]. rewrite E. cbn [cmap pointing]. rewrite Gx, Gy. reflexivity.
Qed.

Lemma exclusive_described s p : get_feature m s = Some p -> (exclusive_children h m p <-> alternatives cs d s).
Proof.
  intros G. unfold exclusive_children, alternatives. split.
  - intros ((a & b & Ca & Cb & N) & X). split.
    + apply (child_below s p _ G) in Ca, Cb. destruct Ca as (f & Bf & Gf). destruct Cb as (g & Bg & Gg). exists f, g. split; [exact Bf|]. split; [exact Bg|]. intros E. rewrite E in Gf. congruence.
    + intros f Bf. destruct (declared_feature f (proj1 Bf)) as (i & f' & Gi & Fi & Sd). destruct (X i) as ((f1 & F1 & O1) & Y); [apply (child_below s p i G); eauto|]. split.
      * destruct Sd as (_ & _ & _ & _ & So). congruence.
      * intros g Bg N'. destruct (declared_feature g (proj1 Bg)) as (j & g' & Gj & _ & _). apply (exclusion_described _ _ _ _ Gi Gj).
        apply Y; [apply (child_below s p j G); eauto|]. intros ->. apply N'. exact (get_inj _ _ _ Gj Gi).
  - intros ((f & g & Bf & Bg & N) & X). split.
    + destruct (declared_feature f (proj1 Bf)) as (i & _ & Gi & _ & _). destruct (declared_feature g (proj1 Bg)) as (j & _ & Gj & _ & _). exists i, j.
      split; [apply (child_below s p i G); eauto|]. split; [apply (child_below s p j G); eauto|]. intros ->. apply N. exact (get_inj _ _ _ Gi Gj).
    + intros a Ca. apply (child_below s p a G) in Ca. destruct Ca as (f1 & B1 & G1). destruct (X f1 B1) as (O1 & Y). split.
      * destruct (declared_feature f1 (proj1 B1)) as (i & f' & Gi & Fi & Sd). assert (i = a) by congruence. subst i. exists f'. split; [exact Fi|]. destruct Sd as (_ & _ & _ & _ & So). congruence.
      * intros b Cb N'. apply (child_below s p b G) in Cb. destruct Cb as (g1 & B2 & G2). apply (exclusion_described _ _ _ _ G1 G2). apply Y; [exact B2|]. intros E. rewrite E in G2. congruence.
Qed.
End Described.

(** ** Building and searching *)
Definition unregistered (cs : list bcall) : Prop := forall f, In (BFeature f) cs -> f_excludes f = [] /\ f_implications f = [].
Definition groups_at (ps : list text) : list bcall := map (BRelationship RAlternative) ps.

Section Build.
Variable ord : list nid -> list nid.
Hypothesis ord_ok : is_order ord.

Lemma declared_enrolled h cs d w : heap_ok h -> describes cs d -> unregistered cs -> run ord (feature_ops cs) (new_model h) = Some (w, None) ->
  enrolled (fst w) (snd w) /\ all_resolved (snd w).
Proof.
  intros K D U E. destruct (declared ord h cs d K (de_declares _ _ D) (de_ordinary _ _ D)) as (h1 & m1 & L & r & E1 & R1 & EL & SR & _).
  rewrite E1 in E. injection E as <-. cbn [fst snd].
  assert (N : all_constraints m1 = []).
  { destruct SR as (_ & _ & _ & B & Nb & M). unfold all_constraints. rewrite B, Nb, M. unfold new_model, new_model_with. destruct (h_alloc h _). reflexivity. }
  assert (F : forall s i f, get_feature m1 s = Some i -> feature_at h1 i = Some f -> f_excludes f = [] /\ f_implications f = []).
  { intros s i f G Fi. apply (rep_find R1) in G. apply named_subtree in G. destruct G as (u & f0 & Us & Ei & Df & _). pose proof (rep_feature_at h1 m1 _ u f0 R1 Us Df) as X.
    rewrite Ei in X. assert (f0 = f) by congruence. subst f0. unfold flat in Us. inversion Us as [|? ? ? t It St]; subst.
    - cbn [rdata] in Df. injection Df as <-. split; reflexivity.
    - apply in_map_iff in It. destruct It as (e & <- & Ie). unfold leaf in St. inversion St as [|? ? ? t Bad St']; subst; [|destruct Bad]. cbn [rdata] in Df. injection Df as <-.
      assert (In (snd e) (snd d)) as I by (rewrite <- EL; apply in_map; exact Ie). destruct (declares_from _ _ _ _ (de_declares _ _ D) I) as [[]|Y]. exact (U _ Y). }
  split; [|intros c r0 I; rewrite N in I; destruct I]. constructor.
  - rewrite N. constructor.
  - rewrite N. intros c [].
  - intros s i f id G Fi. rewrite (proj1 (F s i f G Fi)). unfold mentioned. rewrite N. split; [intros []|intros (c & [] & _)].
  - intros s i f id G Fi. rewrite (proj2 (F s i f G Fi)). unfold mentioned. rewrite N. split; [intros []|intros (c & [] & _)].
Qed.

Lemma tree_ops_keep cs o : In o (tree_ops cs) -> keeps_features o.
Proof. unfold tree_ops. rewrite in_flat_map. intros (c & _ & I). destruct c; cbn in I; try contradiction; destruct I as [<-|[]]; exact Logic.I. Qed.
Lemma relation_ops_keep cs o : In o (relation_ops cs) -> keeps_features o.
Proof. unfold relation_ops. rewrite in_flat_map. intros (c & _ & I). destruct c; cbn in I; try contradiction; destruct I as [<-|[]]; exact Logic.I. Qed.

Lemma built_enrolled h cs d h' m' : heap_ok h -> describes cs d -> unregistered cs -> build_calls ord h cs = Some (h', Some m') ->
  enrolled h' m' /\ all_resolved m'.
Proof.
  intros K D U E. destruct (built_steps ord ord_ok h cs d K D) as (w1 & t1 & w2 & t2 & h3 & m3 & t3 & (E1 & R1 & E2 & R2 & E3 & R3 & _) & _).
  rewrite build_calls_queues in E. unfold build in E. cbn [b_model b_features b_tree b_relations bind] in E. rewrite <- surjective_pairing in E.
  rewrite (commit_ok _ _ _ _ _ E1 R1) in E. cbn [bind] in E. rewrite (commit_ok _ _ _ _ _ E2 R2) in E. cbn [bind] in E. rewrite (commit_ok _ _ _ _ _ E3 R3) in E. cbn in E.
  injection E as <- <-. destruct (declared_enrolled h cs d w1 K D U E1) as (N1 & V1).
  destruct (run_enrolled ord _ _ _ (tree_ops_keep cs) E2 N1 V1) as (N2 & V2). exact (run_enrolled ord _ _ _ (relation_ops_keep cs) E3 N2 V2).
Qed.

Lemma last_edge_groups cs ps s x : last_edge (cs ++ groups_at ps) s x = last_edge cs s x.
Proof.
  revert x. induction cs as [|c cs IH]; intros x.
  - cbn [app last_edge]. unfold groups_at. induction ps as [|p ps IH]; [reflexivity|exact IH].
  - destruct c; cbn [app last_edge]; apply IH.
Qed.
Lemma requests_groups cs ps : requests (cs ++ groups_at ps) = requests cs ++ map (fun p => (p, RAlternative)) ps.
Proof. unfold requests. rewrite flat_map_app. f_equal. unfold groups_at. induction ps as [|p ps IH]; [reflexivity|]. cbn. f_equal. exact IH. Qed.
Lemma declares_groups : forall cs d e ps, declares d cs e -> declares d (cs ++ groups_at ps) e.
Proof.
  intros cs d e ps D. induction D; cbn [app]; try (econstructor; eauto; fail).
  unfold groups_at. induction ps as [|p ps IH]; [constructor|]. constructor; [exact I|exact IH].
Qed.
Lemma describes_groups cs d ps : describes cs d -> requests cs = [] -> NoDup ps -> (forall p, In p ps -> taken d p) -> describes (cs ++ groups_at ps) d.
Proof.
  intros [Dd Do Ee Dr Dt Drel Dg] Q N Tk. assert (P : forall c, In c (groups_at ps) -> exists p, In p ps /\ c = BRelationship RAlternative p).
  { intros c I. apply in_map_iff in I. destruct I as (p & <- & I). eauto. }
  constructor.
  - apply declares_groups. exact Dd.
  - intros c I. apply in_app_or in I. destruct I as [I|I]; [auto|]. destruct (P c I) as (p & _ & ->). exact Logic.I.
  - intros c I. apply in_app_or in I. destruct I as [I|I]; [auto|]. destruct (P c I) as (p & _ & ->). exact Logic.I.
  - intros p s I. apply in_app_or in I. destruct I as [I|I]; [eauto|]. destruct (P _ I) as (q & _ & X). discriminate.
  - intros f I. specialize (Dt f I). clear -Dt. induction Dt as [|s L IH]; [apply leads_root|]. apply leads_up. rewrite last_edge_groups. exact IH.
  - intros c I. apply in_app_or in I. destruct I as [I|I]; [auto|]. destruct (P c I) as (p & J & ->). exact (Tk p J).
  - rewrite requests_groups, Q. cbn [app]. rewrite map_map. cbn [fst]. rewrite map_id. exact N.
Qed.

Lemma run_groups qs : forall w w' ps, (forall h m, w = (h, m) -> map (get_feature m) ps = map Some qs) ->
  run ord (relation_ops (groups_at ps)) w = Some (w', None) -> run ord (map (fun i => OAddRelationship RAlternative (ByPtr i)) qs) w = Some (w', None).
Proof.
  induction qs as [|q qs IH]; intros [h m] w' ps Q E; specialize (Q h m eq_refl); destruct ps as [|p ps]; try discriminate; [exact E|].
  cbn [map] in Q. injection Q as Gp Q. cbn [groups_at map relation_ops flat_map app] in E. cbn [map run exec] in *.
  assert (X : exec_add_relationship ord h m RAlternative (ByPtr q) = exec_add_relationship ord h m RAlternative (ByName p)).
  { unfold exec_add_relationship. destruct (store_relationship h m RAlternative) as [[i h1] m1] eqn:St. cbn [resolve].
    assert (get_feature m1 p = get_feature m p) as -> by (unfold store_relationship in St; destruct (h_alloc h _) in St; injection St as _ _ <-; reflexivity).
    rewrite Gp. reflexivity. }
  rewrite X. apply bind_some in E. destruct E as ([[h1 m1] e] & E1 & E). rewrite E1. cbn [bind]. destruct e; [discriminate|].
  apply (IH (h1, m1) w' ps); [|exact E]. intros ? ? H. injection H as <- <-.
  assert (forall s, get_feature m1 s = get_feature m s) as G.
  { unfold exec_add_relationship in E1. destruct (store_relationship h m RAlternative) as [[i h2] m2] eqn:St.
    assert (m_features m2 = m_features m) as Em by (unfold store_relationship in St; destruct (h_alloc h _) in St; injection St as _ _ <-; reflexivity).
    repeat (apply bind_some in E1; destruct E1 as (? & _ & E1)). injection E1 as _ <-. intros s. unfold get_feature. rewrite Em. reflexivity. }
  rewrite <- Q. apply map_ext. exact G.
Qed.

Theorem searched h cs d : heap_ok h -> describes cs d -> requests cs = [] -> unregistered cs ->
  exists h1 m1 h2 m2 ps, build_calls ord h cs = Some (h1, Some m1) /\ detect ord h1 m1 = Some (h2, m2) /\
    NoDup ps /\ (forall s, In s ps <-> taken d s /\ alternatives cs d s) /\
    describes (cs ++ groups_at ps) d /\ as_described (cs ++ groups_at ps) d h2 m2 /\ heap_ok h2 /\ enrolled h2 m2 /\ all_resolved m2.
Proof.
  intros K D Q U. destruct (built_steps ord ord_ok h cs d K D) as (w1 & t1 & w2 & t2 & h1 & m1 & t3 & (E1 & R1 & E2 & R2 & E3 & R3 & _) & A1 & K1).
  assert (B : build_calls ord h cs = Some (h1, Some m1)).
  { rewrite build_calls_queues. unfold build. cbn [b_model b_features b_tree b_relations bind]. rewrite <- surjective_pairing.
    rewrite (commit_ok _ _ _ _ _ E1 R1). cbn [bind]. rewrite (commit_ok _ _ _ _ _ E2 R2). cbn [bind]. rewrite (commit_ok _ _ _ _ _ E3 R3). reflexivity. }
  destruct (built_enrolled h cs d h1 m1 K D U B) as (N1 & V1).
  destruct (model_features_spec ord h1 m1 t3 ord_ok R3) as (l & El & _ & Pl & Dl). unfold SampleModel.model_features in El.
  destruct (detect_ops ord ord_ok h1 m1 t3 R3 N1 V1 l) as (qs & Eq & Iq & Dq); [intros i I; exact (Permutation_in i Pl I)|].
  specialize (Dq Dl).
  assert (exists ps, map (get_feature m1) ps = map Some qs) as (ps & Ep).
  { assert (forall i, In i qs -> exists s, get_feature m1 s = Some i) as X.
    { intros i I. apply Iq in I. destruct I as (I & _). apply (Permutation_in i Pl) in I. destruct (features_exist h1 m1 t3 i R3 I) as (f & _ & G). eauto. }
    clear -X. induction qs as [|q qs IH]; [exists []; reflexivity|]. destruct IH as (ps & E); [intros i I; apply X; right; exact I|].
    destruct (X q (or_introl eq_refl)) as (s & G). exists (s :: ps). cbn. rewrite G, E. reflexivity. }
  assert (Ip : forall s, In s ps <-> exists i, get_feature m1 s = Some i /\ In i qs).
  { intros s. split.
    - intros I. assert (In (get_feature m1 s) (map Some qs)) as J by (rewrite <- Ep; apply in_map; exact I). apply in_map_iff in J. destruct J as (i & E & J). exists i. auto.
    - intros (i & G & I). assert (In (Some i) (map (get_feature m1) ps)) as J by (rewrite Ep; apply in_map; exact I). apply in_map_iff in J. destruct J as (s' & E & J).
      rewrite (get_inj cs d h1 m1 A1 s s' i G E). exact J. }
  assert (Np : NoDup ps).
  { apply (NoDup_map_inv (get_feature m1)). rewrite Ep. apply FinFun.Injective_map_NoDup; [intros x y X; congruence|exact Dq]. }
  assert (Sp : forall s, In s ps <-> taken d s /\ alternatives cs d s).
  { intros s. rewrite Ip. split.
    - intros (i & G & I). apply Iq in I. split; [apply (get_taken cs d h1 m1 A1); eauto|]. apply (exclusive_described cs d h1 m1 D A1 s i G). tauto.
    - intros (Ts & Al). apply (get_taken cs d h1 m1 A1) in Ts. destruct Ts as (i & G). exists i. split; [exact G|]. apply Iq. split.
      + apply (Permutation_in i (Permutation_sym Pl)). apply feature_ids_named. exists s. apply (rep_find R3). exact G.
      + apply (exclusive_described cs d h1 m1 D A1 s i G). exact Al. }
  assert (D2 : describes (cs ++ groups_at ps) d) by (apply describes_groups; auto; intros p I; apply Sp; exact I).
  destruct (built_steps ord ord_ok h _ d K D2) as (w1' & t1' & w2' & t2' & h2 & m2 & t4 & (F1 & _ & F2 & _ & F3 & R4 & _) & A2 & K2).
  assert (X1 : feature_ops (cs ++ groups_at ps) = feature_ops cs).
  { unfold feature_ops. rewrite flat_map_app. rewrite <- (app_nil_r (flat_map _ cs)) at 2. f_equal. unfold groups_at. clear. induction ps as [|p ps IH]; [reflexivity|exact IH]. }
  assert (X2 : tree_ops (cs ++ groups_at ps) = tree_ops cs).
  { unfold tree_ops. rewrite flat_map_app. rewrite <- (app_nil_r (flat_map _ cs)) at 2. f_equal. unfold groups_at. clear. induction ps as [|p ps IH]; [reflexivity|exact IH]. }
  assert (X3 : relation_ops (cs ++ groups_at ps) = relation_ops cs ++ relation_ops (groups_at ps)) by (unfold relation_ops; apply flat_map_app).
  rewrite X1, E1 in F1. injection F1 as <-. rewrite X2, E2 in F2. injection F2 as <-. rewrite X3, run_app, E3 in F3.
  assert (G3 : run ord (map (fun i => OAddRelationship RAlternative (ByPtr i)) qs) (h1, m1) = Some ((h2, m2), None)).
  { apply (run_groups qs _ _ ps); [|exact F3]. intros ? ? H. injection H as <- <-. exact Ep. }
  destruct (run_enrolled ord _ _ _ (relation_ops_keep (groups_at ps)) F3 N1 V1) as (N2 & V2).
  exists h1, m1, h2, m2, ps. split; [exact B|]. split.
  { unfold detect, open_modify. cbn [fst snd]. rewrite (represents_consistent _ _ _ R3). cbn [bind]. rewrite El. cbn [bind]. rewrite Eq. cbn [bind]. unfold mtx_start. cbn [t_open].
    rewrite (commit_ok ord _ _ _ t4 G3 R4). reflexivity. }
  auto 10.
Qed.
End Build.
