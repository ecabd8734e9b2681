(** Constraints, locations and other contents, and the valid configurations. *)
From Coq Require Import List ZArith Arith Bool Ascii String Permutation Lia.
From Verif Require Import Text TextProofs ConstraintModel ConstraintSpec SourceRangeModel ConfigurationModel FeatureTreeModel FeatureTreeSpec FeatureTreeProofs FeatureTransactionModel FeatureTransactionSpec FeatureEditSpec FeatureEditProofs FeatureOpsProofs FeatureDataProofs FeatureBuildSpec
  FeatureHistoryProofs FeatureTransactionFinal SolverModel SolverSpec SolverLoadProofs GeneratorProofs XmlTripWrite XmlModel XmlSpec EditValidSpec EditValidProofs EditValidOps EditValidFinal.
Import ListNotations.
Local Open Scope list_scope.

Definition same_rule (d d' : ndata) : Prop :=
  match d, d' with
  | NFeature f, NFeature f' => f_kind f' = f_kind f /\ f_name f' = f_name f /\ f_optional f' = f_optional f
  | NRelationship k, NRelationship k' => k' = k
  | _, _ => False
  end.
Section Relabel.
Variables (a : assignment) (g : nid -> ndata -> ndata).
Lemma subtree_relabel u t : subtree u (relabel g t) <-> exists v, subtree v t /\ u = relabel g v.
Proof.
  split.
  - induction t as [n d ts IH] using tree_ind'. rewrite Forall_forall in IH. cbn [relabel]. intros U. inversion U as [|? ? ? k Ik Uk]; subst; [exists (Node n d ts); split; [constructor|reflexivity]|].
    apply in_map_iff in Ik. destruct Ik as (k' & <- & Ik). destruct (IH k' Ik Uk) as (v & V & E). exists v. split; [eapply sub_kid; eauto|exact E].
  - intros (v & V & ->). induction V as [|n d ts k Ik V IH]; [constructor|]. cbn [relabel]. eapply sub_kid; [apply in_map; exact Ik|exact IH].
Qed.
Lemma rdata_relabelled v : rdata (relabel g v) = g (rid v) (rdata v).
Proof. destruct v; reflexivity. Qed.
Lemma kids_relabelled v : kids (relabel g v) = map (relabel g) (kids v).
Proof. destruct v; reflexivity. Qed.
Lemma rules_relabel t : (forall u, subtree u t -> same_rule (rdata u) (g (rid u) (rdata u))) -> (rules a t <-> rules a (relabel g t)).
Proof.
  intros H. unfold rules. assert (Q : forall v, subtree v t -> (rules_at a v <-> rules_at a (relabel g v))).
  { intros v V. pose proof (H v V) as Hv. assert (Kd : forall k, In k (kids v) -> subtree k t) by (intros k Ik; exact (kid_sub t v k V Ik)). unfold rules_at. rewrite rdata_relabelled, kids_relabelled.
    destruct (rdata v) as [f|r], (g (rid v) _) as [f'|r']; cbn [same_rule] in Hv; try contradiction; [|tauto]. destruct Hv as (K & Nm & Op).
    assert (At : forall k, In k (kids v) -> ((match rdata k with NFeature e => needs a f e /\ follows a f e | NRelationship q => (forall w e, In w (kids k) -> rdata w = NFeature e -> needs a f e) /\ chosen a q f (names_of (kids k)) end) <->
      (match rdata (relabel g k) with NFeature e => needs a f' e /\ follows a f' e | NRelationship q => (forall w e, In w (kids (relabel g k)) -> rdata w = NFeature e -> needs a f' e) /\ chosen a q f' (names_of (kids (relabel g k))) end))).
    { intros k Ik. pose proof (H k (Kd k Ik)) as Hk. rewrite rdata_relabelled, kids_relabelled. destruct (rdata k) as [e|q], (g (rid k) _) as [e'|q']; cbn [same_rule] in Hk; try contradiction.
      - destruct Hk as (K1 & N1 & O1). unfold needs, follows. rewrite K1, N1, O1, Nm. tauto.
      - subst q'. assert (Hw : forall w, In w (kids k) -> same_rule (rdata w) (rdata (relabel g w))) by (intros w Iw; rewrite rdata_relabelled; apply H; exact (kid_sub t k w (Kd k Ik) Iw)).
        assert (En : names_of (map (relabel g) (kids k)) = names_of (kids k)).
        { unfold names_of. clear -Hw. induction (kids k) as [|w ws IHw]; [reflexivity|]. cbn [map flat_map]. rewrite IHw by (intros x Ix; apply Hw; right; exact Ix). f_equal. pose proof (Hw w (or_introl eq_refl)) as X. destruct (rdata w), (rdata (relabel g w)); cbn in X; try contradiction; [destruct X as (_ & -> & _)|]; reflexivity. }
        rewrite En. unfold chosen. rewrite Nm. assert (Q : (forall w e, In w (kids k) -> rdata w = NFeature e -> needs a f e) <-> (forall w e, In w (map (relabel g) (kids k)) -> rdata w = NFeature e -> needs a f' e)); [|tauto]. split.
        + intros X w e Iw De. apply in_map_iff in Iw. destruct Iw as (w0 & <- & Iw). pose proof (Hw w0 Iw) as Y. destruct (rdata w0) as [e0|] eqn:D0; rewrite De in Y; cbn in Y; [|contradiction]. destruct Y as (Y1 & Y2 & _). unfold needs. rewrite Y1, Y2, Nm. exact (X w0 e0 Iw D0).
        + intros X w e Iw De. pose proof (Hw w Iw) as Y. rewrite De in Y. destruct (rdata (relabel g w)) as [e1|] eqn:D1; cbn in Y; [|contradiction]. destruct Y as (Y1 & Y2 & _). pose proof (X (relabel g w) e1 (in_map _ _ _ Iw) D1) as Z. unfold needs in Z. rewrite Y1, Y2, Nm in Z. exact Z. }
    unfold has_value. rewrite K, Nm. split; intros (X1 & X2 & X3); (split; [exact X1|]); (split; [exact X2|]).
    - intros k Ik. apply in_map_iff in Ik. destruct Ik as (k0 & <- & Ik). apply (At k0 Ik). exact (X3 k0 Ik).
    - intros k Ik. apply (At k Ik). apply X3. apply in_map. exact Ik. }
  split.
  - intros X u U. apply subtree_relabel in U. destruct U as (v & V & ->). apply (Q v V). exact (X v V).
  - intros X u U. apply (Q u U). apply X. apply subtree_relabel. eauto.
Qed.
End Relabel.

(** Changed contents that say the same. *)
Lemma relabelled_looks g h h' i f : relabelled g h h' -> feature_at h i = Some f -> same_rule (NFeature f) (g i (NFeature f)) -> looks h h' (Ref i).
Proof.
  intros Rl F X. unfold feature_at in F. destruct (h_cells h i) as [c|] eqn:C; [|discriminate]. cbn in F. destruct (n_data c) as [f0|] eqn:D; [|discriminate]. injection F as ->.
  destruct (g i (NFeature f)) as [f'|] eqn:G; cbn in X; [|contradiction]. exists f, f'. unfold feature_at. rewrite Rl, C. cbn. rewrite D, G. destruct X as (K & N & _). auto.
Qed.
Lemma relabel_valid h m t h' m' g a : represents h m t -> represents h' m' (relabel g t) -> relabelled g h h' -> all_resolved m -> (forall u, subtree u t -> same_rule (rdata u) (g (rid u) (rdata u))) ->
  m_boolean m' = m_boolean m -> m_nonboolean m' = m_nonboolean m -> m_mixed m' = m_mixed m -> (SolverSpec.valid h m a <-> SolverSpec.valid h' m' a).
Proof.
  intros R R' Rl A Sm B1 B2 B3. rewrite (valid_rules h m t R), (valid_rules h' m' _ R'), <- (rules_relabel a g t Sm). rewrite (constraints_same h h' m m' a B1 B2 B3); [tauto|].
  intros c r C L. destruct (resolved_carries h m t c r R A C L) as (i & f & -> & Cf). apply (relabelled_looks g h h' i f Rl (carries_feature_at h m t i f R Cf)). destruct Cf as (u & U & <- & D). rewrite <- D. exact (Sm u U).
Qed.
Lemma location_valid ord h m t r l (add : bool) h' m' a : represents h m t -> all_resolved m -> ref_ok m r ->
  exec ord (if add then OAddLocation r l else ORemoveLocation r l) (h, m) = Some ((h', m'), None) -> (SolverSpec.valid h' m' a <-> SolverSpec.valid h m a).
Proof.
  intros R A Ok E. destruct (resolve m r) as [i|] eqn:Er; [|destruct add; cbn [exec] in E; unfold exec_add_location, exec_remove_location in E; rewrite Er in E; discriminate]. destruct (rep_resolve R r i Ok Er) as (s & f & S1 & <- & D).
  assert (exists ls, (if add then ls = f_locations f ++ [l] else remove_location (f_locations f) l = Some ls)) as (ls & Els).
  { destruct add; [eauto|]. destruct (remove_location (f_locations f) l) as [ls|] eqn:L; [eauto|]. exfalso. cbn [exec] in E. unfold exec_add_location, exec_remove_location in E. rewrite Er in E. cbn [bind] in E. unfold modify_feature in E.
    pose proof (rep_feature_at h m t s f R S1 D) as Fa. unfold feature_at in Fa. destruct (h_cells h (rid s)) as [c|]; [|discriminate]. cbn in Fa, E. destruct (n_data c); [|discriminate]. injection Fa as ->. rewrite L in E. discriminate. }
  destruct (exec_location_ok ord h m t r s f add l ls R Er S1 D Els) as (h1 & E1 & R1 & Rl & _). rewrite E1 in E. injection E as <- <-. symmetry. eapply relabel_valid; eauto.
  intros u U. unfold at_node. destruct (Nat.eqb_spec (rid u) (rid s)) as [X|_]; [|destruct (rdata u); cbn; auto]. assert (u = s) as -> by (apply (subtree_unique t); [exact (rep_ids _ _ _ R)|exact U|exact S1|exact X]). rewrite D. cbn. auto.
Qed.
Lemma metadata_valid h m m' a : same_contents m m' -> (SolverSpec.valid h m' a <-> SolverSpec.valid h m a).
Proof.
  intros (_ & E2 & E3 & E4 & E5 & E6). assert (Q : forall m1 m2, m_features m2 = m_features m1 -> m_relationships m2 = m_relationships m1 -> m_boolean m2 = m_boolean m1 -> m_nonboolean m2 = m_nonboolean m1 -> m_mixed m2 = m_mixed m1 -> SolverSpec.valid h m1 a -> SolverSpec.valid h m2 a).
  { clear. intros m1 m2 E2 E3 E4 E5 E6 [V1 V2 V3 V4 V5 V6 V7 V8]. constructor; unfold stored, group in *; rewrite ?E2, ?E3, ?E4, ?E5, ?E6; assumption. }
  split; apply Q; congruence.
Qed.
Lemma described_valid ord o h m h' m' e a : (exists s, o = OSetName s \/ o = OSetCommit s \/ o = OSetPath s) -> exec ord o (h, m) = Some ((h', m'), e) -> (SolverSpec.valid h' m' a <-> SolverSpec.valid h m a).
Proof. intros (s & [-> | [-> | ->]]) E; cbn in E; unfold success in E; injection E as <- <- <-; apply metadata_valid; repeat split. Qed.

(** ** Constraints *)
Lemma mentions_listed h m c : mentions_names m c -> exists names, map (cref_name h) (leaves c) = map Some names /\ forall s, In s names <-> In (Own s) (leaves c).
Proof.
  unfold mentions_names. induction (leaves c) as [|r rs IH]; intros H; [exists []; split; [reflexivity|cbn; tauto]|]. destruct (H r (or_introl eq_refl)) as (s & i & -> & _). destruct IH as (ns & E & I); [intros x X; apply H; right; exact X|].
  exists (s :: ns). split; [cbn; rewrite E; reflexivity|]. intros x. cbn [In]. rewrite I. split; (intros [X|X]; [left; congruence|auto]).
Qed.
Lemma leaves_cmap {F G} (f : F -> G) (c : cexpr F) : leaves (cmap f c) = map f (leaves c).
Proof. induction c as [o l IHl r IHr|o e IH|n|x]; cbn [cmap leaves map]; [rewrite map_app, IHl, IHr|rewrite IH| |]; reflexivity. Qed.
Lemma meaning_cmap leaf d (f : cref -> cref) c : meaning xorb leaf d (cmap f c) = meaning xorb (fun r => leaf (f r)) d c.
Proof. induction c as [o l IHl r IHr|o e IH|n|x]; cbn [cmap meaning]; [rewrite IHl, IHr|rewrite IH| |]; reflexivity. Qed.
Lemma add_constraint_valid ord h m t k c h' m' a : represents h m t -> all_resolved m -> mentions_names m c -> exec ord (OAddConstraint k c) (h, m) = Some ((h', m'), None) ->
  (SolverSpec.valid h' m' a <-> SolverSpec.valid h m a /\ says h m a k c).
Proof.
  intros R A Mn E. destruct (mentions_listed h m c Mn) as (names & En & In0). destruct (exec_add_constraint_ok ord h m t k c names R En) as (h1 & c' & E1 & Ec & _ & Rl & R1). set (g := enlist_at m (class_of c) (h_next h) names 0) in *. set (mc := MConstraint (h_next h) c') in *.
  rewrite E1 in E. injection E as <- <- _.
  assert (Sm : forall u, subtree u t -> same_rule (rdata u) (g (rid u) (rdata u))) by (intros u _; unfold g; destruct (rdata u); cbn; auto).
  rewrite (valid_rules h m t R), (valid_rules h1 _ _ R1), <- (rules_relabel a g t Sm).
  assert (Lk : forall i f, carries t i f -> looks h h1 (Ref i)) by (intros i f Cf; apply (relabelled_looks g h h1 i f Rl (carries_feature_at h m t i f R Cf)); cbn; auto).
  assert (Old : constraints_hold h m a <-> constraints_hold h1 m a) by (apply constraints_same; [reflexivity..|]; intros c0 r C L; destruct (resolved_carries h m t c0 r R A C L) as (i & f & -> & Cf); exact (Lk i f Cf)).
  assert (Tg : forall r, In r (leaves c) -> exists s i f, r = Own s /\ get_feature m s = Some i /\ target m (cref_name h) r = Ref i /\ carries t i f /\ f_name f = s).
  { intros r I. destruct (Mn r I) as (s & i & -> & G). pose proof G as G'. apply (rep_find R) in G'. apply named_subtree in G'. destruct G' as (u & f & U & Ei & D & Nf). exists s, i, f. split; [reflexivity|]. split; [exact G|]. split; [unfold target; cbn; rewrite G; reflexivity|]. split; [exists u; auto|exact Nf]. }
  assert (Lv : forall mixed, value_of h1 mixed a c' = meaning xorb (said h m mixed a) (a_div0 a) c).
  { intros mixed. unfold value_of. rewrite Ec, meaning_cmap. apply meaning_ext. intros r I. destruct (Tg r I) as (s & i & f & -> & G & -> & Cf & _). cbn [said]. rewrite G. symmetry. apply looks_leaf. exact (Lk i f Cf). }
  assert (New : constraints_hold h1 (store_constraint m k mc) a <-> constraints_hold h1 m a /\ says h m a k c).
  { unfold constraints_hold, says. destruct k as [| |q e]; cbn [store_constraint with_boolean with_nonboolean with_mixed m_boolean m_nonboolean m_mixed]; try rewrite <- (Lv false).
    - split.
      + intros (V1 & V2). split; [split; [|exact V2]; intros x X; apply V1; apply in_app_or in X; apply in_or_app; destruct X; [left; apply in_or_app|]; auto|]. apply (V1 mc). apply in_or_app. left. apply in_or_app. right. left. reflexivity.
      + intros ((V1 & V2) & V3). split; [|exact V2]. intros x X. apply in_app_or in X. destruct X as [X|X]; [apply in_app_or in X; destruct X as [X|[<-|[]]]; [apply V1, in_or_app; auto|exact V3]|apply V1, in_or_app; auto].
    - split.
      + intros (V1 & V2). split; [split; [|exact V2]; intros x X; apply V1; apply in_app_or in X; apply in_or_app; destruct X; [|right; apply in_or_app]; auto|]. apply (V1 mc). apply in_or_app. right. apply in_or_app. right. left. reflexivity.
      + intros ((V1 & V2) & V3). split; [|exact V2]. intros x X. apply in_app_or in X. destruct X as [X|X]; [apply V1, in_or_app; auto|]. apply in_app_or in X. destruct X as [X|[<-|[]]]; [apply V1, in_or_app; auto|exact V3].
    - assert (Mx : mixed_holds h1 a c' e q <-> meaning xorb (said h m true a) (a_div0 a) c = Some (Truth (match e with ExprPos => true | ExprNeg => false end)) \/
        (q = ReqAll /\ exists s i f, In (Own s) (leaves c) /\ get_feature m s = Some i /\ feature_at h i = Some f /\ numeric_kind (f_kind f) = false /\ a_bool a s = false)).
      { unfold mixed_holds. rewrite (Lv true). split; (intros [X|(-> & X)]; [left; exact X|right; split; [reflexivity|]]).
        - destruct X as (r' & n & Ir & Mr & B). rewrite Ec, leaves_cmap in Ir. apply in_map_iff in Ir. destruct Ir as (r & <- & Ir). destruct (Tg r Ir) as (s & i & f & -> & G & Et & Cf & Nf). rewrite Et in Mr. apply (looks_mentions _ _ _ _ _ (looks_sym _ _ _ (Lk i f Cf))) in Mr. destruct Mr as (f1 & Ef & Kf & ->). pose proof (carries_feature_at h m t i f R Cf) as Ef'. rewrite Ef in Ef'. injection Ef' as ->.
          exists s, i, f. rewrite Nf in B. auto.
        - destruct X as (s & i & f & Is & G & Ef & Kf & B). destruct (Tg (Own s) Is) as (s' & i' & f' & Es & G' & Et & Cf & Nf). injection Es as <-. rewrite G in G'. injection G' as <-. pose proof (carries_feature_at h m t i f' R Cf) as Ef'. rewrite Ef in Ef'. injection Ef' as <-.
          exists (Ref i), s. split; [rewrite Ec, leaves_cmap; rewrite <- Et; apply in_map; exact Is|]. split; [|exact B]. apply (looks_mentions h h1 (Ref i) false s (Lk i f Cf)). exists f. auto. }
      rewrite <- Mx. split.
      + intros (V1 & V2). split; [split; [exact V1|intros x X; apply V2, in_or_app; auto]|]. apply (V2 (Mixed mc q e)). apply in_or_app. right. left. reflexivity.
      + intros ((V1 & V2) & V3). split; [exact V1|]. intros x X. apply in_app_or in X. destruct X as [X|[<-|[]]]; [exact (V2 x X)|exact V3]. }
  rewrite New, Old. tauto.
Qed.
