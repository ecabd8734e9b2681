(** The search for alternatives after an XML document has been read. *)
From Coq Require Import List ZArith Arith Bool Ascii String Permutation Lia.
From Verif Require Import Text TextProofs ConstraintModel ConstraintSpec SourceRangeModel FeatureTreeModel FeatureTreeSpec FeatureTransactionModel
  FeatureTransactionSpec FeatureEditSpec FeatureTreeProofs FeatureOrderProofs FeatureEditProofs FeatureTransactionFinal FeatureHistoryProofs FeatureGroupProofs
  FeatureDataProofs FeatureCloneProofs FeatureMergeResult SampleProofs FeatureBuildSpec FeatureBuildProofs FeatureBuildFinal SxfmModel XmlModel XmlSpec XmlEnrollProofs.
Import ListNotations.

(** ** Children *)
Lemma tops_self_or_below u t : is_feature (rdata u) = true -> subtree u t -> exists v, In v (tops is_feature t) /\ subtree u v.
Proof.
  intros F. induction t as [n d ts IH] using tree_ind'. intros S. cbn [tops]. destruct (is_feature d) eqn:E.
  - exists (Node n d ts). split; [left; reflexivity|exact S].
  - inversion S as [|? ? ? t It St]; subst; [cbn in F; congruence|]. rewrite Forall_forall in IH.
    destruct (IH t It St) as (v & V & X). exists v. split; [apply in_flat_map; eauto|exact X].
Qed.
Lemma height_subtree a b : subtree a b -> height a <= height b.
Proof. intros X. induction X as [|n d ts t I X IH]; [lia|]. pose proof (height_kid n d ts t I). lia. Qed.
Lemma near_height v ts n d : In v (near ts) -> height v < height (Node n d ts).
Proof.
  intros I. apply in_flat_map in I. destruct I as (t & It & Iv). pose proof (height_subtree _ _ (proj1 (tops_subtree _ _ _ Iv))). pose proof (height_kid n d ts t It). lia.
Qed.
Lemma feature_parent_in t : is_feature (rdata t) = true -> forall u, is_feature (rdata u) = true -> subtree u t -> u <> t ->
  exists q, subtree q t /\ is_feature (rdata q) = true /\ In u (near (kids q)).
Proof.
  remember (height t) as k eqn:K. revert t K. induction k as [k IH] using lt_wf_ind. intros t K Ft u Fu S N.
  destruct t as [n d ts]. inversion S as [|? ? ? t It St]; subst; [contradiction|].
  destruct (tops_self_or_below u t Fu St) as (v & V & X). pose proof (tops_subtree _ _ _ V) as [_ Fv].
  assert (In v (near ts)) as Iv by (apply in_flat_map; eauto).
  destruct (Nat.eq_dec (rid u) (rid v)) as [E|E].
  - destruct v as [vn vd vts]. inversion X as [|? ? ? w Iw Sw]; subst.
    + exists (Node n d ts). split; [constructor|]. split; [exact Ft|exact Iv].
    + destruct (IH (height (Node vn vd vts)) (near_height _ ts n d Iv) _ eq_refl Fv u Fu X) as (q & Q & Fq & Iq).
      { intros ->. pose proof (height_kid vn vd vts w Iw). pose proof (height_subtree _ _ Sw). lia. }
      exists q. split; [eapply subtree_trans; [exact Q|exact (near_subtree n d ts _ Iv)]|auto].
  - destruct (IH (height v) (near_height _ ts n d Iv) _ eq_refl Fv u Fu X) as (q & Q & Fq & Iq); [congruence|].
    exists q. split; [eapply subtree_trans; [exact Q|exact (near_subtree n d ts _ Iv)]|auto].
Qed.

Section Model.
Variable ord : list nid -> list nid.
Hypothesis ord_ok : is_order ord.
Variables (h : heap) (m : fmodel) (t : tree).
Hypothesis R : represents h m t.

Lemma model_feature i : (exists s, get_feature m s = Some i) <-> exists u f, subtree u t /\ rid u = i /\ rdata u = NFeature f.
Proof.
  split.
  - intros (s & G). apply (rep_find R) in G. apply named_subtree in G. destruct G as (u & f & U & E & D & _). exists u, f. auto.
  - intros (u & f & U & E & D). exists (f_name f). apply (rep_find R). apply named_subtree. exists u, f. auto.
Qed.
Lemma name_unique a s f : get_feature m s = Some a -> feature_at h a = Some f -> f_name f = s.
Proof.
  intros G F. apply (rep_find R) in G. apply named_subtree in G. destruct G as (u & f0 & U & E & D & N).
  pose proof (rep_feature_at h m t u f0 R U D) as X. rewrite E in X. congruence.
Qed.

Lemma above_kid u n d ts q : holds h q (Node n d ts) -> NoDup (ids (Node n d ts)) -> is_feature d = true -> In u (near ts) -> feature_above h (rid u) n.
Proof. intros H D F I. apply parent_feature_above. exact (parent_feature_near h q n d ts u (rep_ok _ _ _ R) H D F I). Qed.

Lemma rep_children p : In p (feature_ids t) ->
  exists cs, child_features ord h p = Some cs /\ NoDup cs /\ forall i, In i cs <-> child_in h m p i.
Proof.
  intros I. apply feature_ids_named in I. destruct I as (s & I). apply named_subtree in I. destruct I as (q & f & Q & <- & Df & _).
  destruct (holds_sub h None t q (rep_holds _ _ _ R) Q) as (o & Hq). pose proof (subtree_nodup _ _ Q (rep_ids _ _ _ R)) as Dq.
  assert (Fq : is_feature (rdata q) = true) by (rewrite Df; reflexivity).
  destruct q as [n d ts]. cbn [rid rdata] in *.
  unfold child_features. rewrite (get_children_tree ord is_feature h o n d ts (rep_ok _ _ _ R) Hq Dq). eexists. split; [reflexivity|].
  fold (near ts). assert (Nd : NoDup (map rid (near ts))).
  { cbn [ids] in Dq. apply NoDup_cons_iff in Dq. pose proof (near_nodup ts (proj2 Dq)) as X. clear -X. induction (near ts) as [|a l IH]; [constructor|].
    cbn [flat_map map] in *. destruct a as [an ad ats]. cbn [ids app rid] in *. apply NoDup_cons_iff in X. destruct X as [X Y]. constructor.
    - intros J. apply X. apply in_or_app. right. apply in_map_iff in J. destruct J as (v & E & J). apply in_flat_map. exists v. split; [exact J|]. rewrite <- E. destruct v; left; reflexivity.
    - apply IH. clear -Y. induction (flat_map ids ats) as [|b r IH]; [exact Y|]. cbn [app] in Y. apply NoDup_cons_iff in Y. apply IH. exact (proj2 Y). }
  split; [eapply Permutation_NoDup; [symmetry; apply ord_ok|exact Nd]|]. intros i. split.
  - intros J. apply (Permutation_in i (ord_ok _)) in J. apply in_map_iff in J. destruct J as (u & <- & J). split.
    + apply model_feature. pose proof (near_feature ts u J) as Fu. destruct (rdata u) as [g|] eqn:Du; [|discriminate].
      exists u, g. split; [eapply subtree_trans; [exact (near_subtree n d ts u J)|exact Q]|auto].
    + exact (above_kid u n d ts o Hq Dq Fq J).
  - intros (G & Ab). apply (Permutation_in i (Permutation_sym (ord_ok _))). apply model_feature in G. destruct G as (u & g & U & <- & Du).
    destruct (rep_top_data R) as (ft & Dt & _).
    destruct (Nat.eq_dec (rid u) (rid t)) as [E|E].
    { exfalso. assert (C := rep_top R). rewrite <- E in C. inversion Ab as [? c x cp C1 P1|? c x cp y C1 P1]; subst; rewrite C in C1; injection C1 as <-; discriminate. }
    destruct (feature_parent_in t) with (u := u) as (q & Q1 & Fq1 & Iq); auto; [rewrite Dt; reflexivity|rewrite Du; reflexivity|congruence|].
    destruct (holds_sub h None t q (rep_holds _ _ _ R) Q1) as (o1 & Hq1). pose proof (subtree_nodup _ _ Q1 (rep_ids _ _ _ R)) as Dq1.
    destruct q as [n1 d1 ts1]. cbn [rid rdata kids] in *. pose proof (above_kid u n1 d1 ts1 o1 Hq1 Dq1 Fq1 Iq) as Ab1.
    pose proof (feature_above_unique h _ _ Ab _ Ab1). subst n1.
    assert (Node n d1 ts1 = Node n d ts) as X by (apply (subtree_unique t); auto; apply (rep_ids _ _ _ R)). injection X as -> ->. apply in_map. exact Iq.
Qed.

(** ** Exclusions *)
Hypothesis En : enrolled h m.
Hypothesis Rs : all_resolved m.

Lemma constraint_of_in c : In c (all_constraints m) -> constraint_of m (c_id c) = Some (c_expr c).
Proof.
  intros I. unfold constraint_of. pose proof (en_distinct _ _ En) as D. revert D I. generalize (all_constraints m). induction l as [|a l IH]; intros D I; [destruct I|].
  cbn [find map] in *. apply NoDup_cons_iff in D. destruct I as [->|I].
  - rewrite Nat.eqb_refl. reflexivity.
  - destruct (Nat.eqb_spec (c_id a) (c_id c)) as [E|]; [|apply IH; tauto]. exfalso. apply (proj1 D). rewrite E. apply in_map. exact I.
Qed.

Lemma option_any_spec {A} (p : A -> option bool) l (P : A -> Prop) : (forall a, In a l -> exists b, p a = Some b /\ (b = true <-> P a)) ->
  exists b, option_any p l = Some b /\ (b = true <-> exists a, In a l /\ P a).
Proof.
  induction l as [|a l IH]; intros E.
  - exists false. split; [reflexivity|]. split; [discriminate|]. intros (a & [] & _).
  - destruct (E a (or_introl eq_refl)) as (b & Eb & Pb). destruct IH as (c & Ec & Pc); [intros x X; apply E; right; exact X|].
    exists (b || c). unfold option_any in *. cbn [fold_right]. rewrite Eb. cbn [bind]. rewrite Ec. split; [reflexivity|]. rewrite orb_true_iff, Pb, Pc. split.
    + intros [X|(x & I & X)]; [exists a|exists x]; (split; [|exact X]); [left; reflexivity|right; exact I].
    + intros (x & [->|I] & X); [left; exact X|right; eauto].
Qed.
Lemma option_all_iff {A} (p : A -> option bool) l (P : A -> Prop) : (forall a, In a l -> exists b, p a = Some b /\ (b = true <-> P a)) ->
  exists b, option_all p l = Some b /\ (b = true <-> forall a, In a l -> P a).
Proof.
  induction l as [|a l IH]; intros E.
  - exists true. split; [reflexivity|]. split; [intros _ a []|reflexivity].
  - destruct (E a (or_introl eq_refl)) as (b & Eb & Pb). destruct IH as (c & Ec & Pc); [intros x X; apply E; right; exact X|].
    exists (b && c). unfold option_all in *. cbn [fold_right]. rewrite Eb. cbn [bind]. rewrite Ec. split; [reflexivity|]. rewrite andb_true_iff, Pb, Pc. split.
    + intros [X Y] x [->|I]; auto.
    + intros X. split; [apply X; left; reflexivity|]. intros x I. apply X. right. exact I.
Qed.

Lemma model_feature_at i : (exists s, get_feature m s = Some i) -> exists f, feature_at h i = Some f /\ get_feature m (f_name f) = Some i.
Proof.
  intros (s & G). assert (X := G). apply (rep_find R) in G. apply named_subtree in G. destruct G as (u & f & U & E & D & N). exists f.
  pose proof (rep_feature_at h m t u f R U D) as F. rewrite E in F. split; [exact F|]. subst s. exact X.
Qed.

Lemma detect_exclude_spec a b : (exists s, get_feature m s = Some a) -> (exists s, get_feature m s = Some b) ->
  exists x, detect_exclude h m a b = Some x /\ (x = true <-> states_exclusion m a b).
Proof.
  intros Ga Gb. destruct (model_feature_at a Ga) as (f & Fa & Na). destruct (model_feature_at b Gb) as (g & Fb & Nb). unfold detect_exclude. rewrite Fa, Fb. cbn [bind].
  assert (L : forall s i, get_feature m s = Some i -> exists n, cref_name h (Ref i) = Some n /\ get_feature m n = Some i).
  { intros s i G. destruct (model_feature_at i (ex_intro _ s G)) as (f' & F' & N'). exists (f_name f'). cbn [cref_name]. unfold name_at. rewrite F'. split; [reflexivity|exact N']. }
  destruct (option_any_spec (fun id => let* e := constraint_of m id in
      match e with
      | CBin _ (CFeat x) (CFeat y) => let* u := cref_name h x in let* v := cref_name h y in Some (text_eqb u (f_name f) && text_eqb v (f_name g))
      | _ => Some false
      end) (f_excludes f) (fun id => exists c, In c (all_constraints m) /\ c_id c = id /\ c_expr c = CBin BExcludes (CFeat (Ref a)) (CFeat (Ref b)))) as (x & Ex & Px).
  - intros id I. apply (en_excludes _ _ En _ _ _ id Na Fa) in I. destruct I as (c & Ic & Ei & Cl & Le). subst id.
    rewrite (constraint_of_in c Ic). cbn [bind].
    assert (U : forall c', In c' (all_constraints m) -> c_id c' = c_id c -> c_expr c' = c_expr c).
    { intros c' Ic' E. pose proof (constraint_of_in c' Ic') as X. rewrite E, (constraint_of_in c Ic) in X. congruence. }
    assert (V : forall c', In c' (all_constraints m) /\ c_id c' = c_id c /\ c_expr c' = CBin BExcludes (CFeat (Ref a)) (CFeat (Ref b)) ->
      c_expr c = CBin BExcludes (CFeat (Ref a)) (CFeat (Ref b))).
    { intros c' (I' & E' & X). rewrite <- (U c' I' E'). exact X. }
    destruct (c_expr c) as [o l r|o e|n|r] eqn:Ec.
    2-4: exists false; split; [reflexivity|]; split; [discriminate|]; intros (c' & X); specialize (V c' X); discriminate.
    cbn [class_of] in Cl. destruct o; try discriminate Cl.
    assert (W : forall z, In z (leaves l ++ leaves r) -> exists i n, z = Ref i /\ cref_name h z = Some n /\ get_feature m n = Some i).
    { intros z Z. destruct (Rs c z Ic) as (s & i & -> & G); [rewrite Ec; exact Z|]. destruct (L s i G) as (n & N1 & N2). eauto 10. }
    destruct l as [| | |y]; try (exists false; split; [reflexivity|]; split; [discriminate|]; intros (c' & X); specialize (V c' X); discriminate).
    destruct r as [| | |z]; try (exists false; split; [reflexivity|]; split; [discriminate|]; intros (c' & X); specialize (V c' X); discriminate).
    destruct (W y) as (i & n & -> & Ny & Gy); [left; reflexivity|]. destruct (W z) as (j & n2 & -> & Nz & Gz); [right; left; reflexivity|].
    rewrite Ny, Nz. cbn [bind]. eexists. split; [reflexivity|]. rewrite andb_true_iff, !text_eqb_eq. split.
    + intros [-> ->]. exists c. split; [exact Ic|]. split; [reflexivity|]. rewrite Ec. congruence.
    + intros (c' & X). specialize (V c' X). injection V as -> ->. split; symmetry.
      * exact (name_unique a n f Gy Fa).
      * exact (name_unique b n2 g Gz Fb).
  - exists x. split; [exact Ex|]. rewrite Px. split.
    + intros (id & _ & c & Ic & _ & E). exists c. auto.
    + intros (c & Ic & E). exists (c_id c). split; [|eauto]. apply (en_excludes _ _ En _ _ _ _ Na Fa). exists c. rewrite E. cbn. auto.
Qed.

Lemma detect_children_spec p cs : NoDup cs -> (forall i, In i cs <-> child_in h m p i) ->
  exists b, detect_children h m cs = Some b /\ (b = true <-> exclusive_children h m p).
Proof.
  intros D C. unfold detect_children. destruct (List.length cs <=? 1) eqn:Le.
  - exists false. split; [reflexivity|]. split; [discriminate|]. intros ((a & b & Ca & Cb & N) & _). exfalso. apply Nat.leb_le in Le.
    apply C in Ca, Cb. destruct cs as [|x [|y l]]; cbn in *; [destruct Ca|intuition congruence|lia].
  - assert (T2 : exists a b, child_in h m p a /\ child_in h m p b /\ a <> b).
    { apply Nat.leb_gt in Le. destruct cs as [|x [|y l]]; cbn in Le; try lia. exists x, y. split; [apply C; left; reflexivity|]. split; [apply C; right; left; reflexivity|].
      intros ->. apply NoDup_cons_iff in D. apply (proj1 D). left. reflexivity. }
    destruct (option_all_iff (fun a => let* f := feature_at h a in
        let* apart := option_all (fun b => if Nat.eqb a b then Some true else
          let* x := detect_exclude h m a b in let* y := detect_exclude h m b a in Some (x && y)) cs in
        Some (negb (f_optional f) && apart)) cs
        (fun a => (exists f, feature_at h a = Some f /\ f_optional f = false) /\
           forall b, In b cs -> a <> b -> states_exclusion m a b /\ states_exclusion m b a)) as (b & Eb & Pb).
    + intros a Ia. assert (Ga : exists s, get_feature m s = Some a) by (apply C in Ia; exact (proj1 Ia)). destruct (model_feature_at a Ga) as (f & Fa & _). rewrite Fa. cbn [bind].
      destruct (option_all_iff (fun b => if Nat.eqb a b then Some true else
          let* x := detect_exclude h m a b in let* y := detect_exclude h m b a in Some (x && y)) cs
          (fun b => a <> b -> states_exclusion m a b /\ states_exclusion m b a)) as (x & Ex & Px).
      { intros b Ib. destruct (Nat.eqb_spec a b) as [->|N]; [exists true; split; [reflexivity|]; split; [contradiction|reflexivity]|].
        assert (Gb : exists s, get_feature m s = Some b) by (apply C in Ib; exact (proj1 Ib)).
        destruct (detect_exclude_spec a b Ga Gb) as (u & Eu & Pu). destruct (detect_exclude_spec b a Gb Ga) as (v & Ev & Pv). rewrite Eu, Ev. cbn [bind].
        eexists. split; [reflexivity|]. rewrite andb_true_iff. tauto. }
      rewrite Ex. cbn [bind]. eexists. split; [reflexivity|]. rewrite andb_true_iff, negb_true_iff. rewrite Px. split.
      * intros [X Y]. split; [eauto|exact Y].
      * intros [(f' & F' & X) Y]. split; [congruence|exact Y].
    + exists b. split; [exact Eb|]. rewrite Pb. unfold exclusive_children. split.
      * intros X. split; [exact T2|]. intros a Ca. apply C in Ca. destruct (X a Ca) as (X1 & X2). split; [exact X1|]. intros c Cc N. apply C in Cc. destruct (X2 c Cc); auto.
      * intros (_ & X) a Ia. apply C in Ia. destruct (X a Ia) as (X1 & X2). split; [exact X1|]. intros c Ic N. apply C in Ic. split; [apply X2; auto|]. apply (proj2 (X c Ic)); auto.
Qed.

Lemma detect_ops l : (forall i, In i l -> In i (feature_ids t)) ->
  exists qs, fold_right (fun i o =>
      let* cs := child_features ord h i in
      let* b := detect_children h m cs in
      let* r := o in
      Some (if (b : bool) then OAddRelationship RAlternative (ByPtr i) :: r else r)) (Some []) l =
    Some (map (fun i => OAddRelationship RAlternative (ByPtr i)) qs) /\
    (forall i, In i qs <-> In i l /\ exclusive_children h m i) /\ (NoDup l -> NoDup qs).
Proof.
  induction l as [|i l IH]; intros I.
  - exists []. split; [reflexivity|]. split; [intros i; cbn; tauto|]. intros _. constructor.
  - destruct IH as (qs & E & P & D); [intros x X; apply I; right; exact X|].
    destruct (rep_children i (I i (or_introl eq_refl))) as (cs & Ec & Dc & Cc). destruct (detect_children_spec i cs Dc Cc) as (b & Eb & Pb).
    exists (if b then i :: qs else qs). cbn [fold_right]. rewrite Ec. cbn [bind]. rewrite Eb. cbn [bind]. rewrite E. cbn [bind].
    split; [destruct b; reflexivity|]. split.
    + intros x. destruct b.
      * assert (exclusive_children h m i) by (apply Pb; reflexivity). cbn [In]. rewrite P. split.
        -- intros [<-|X]; tauto.
        -- intros [[<-|X] Y]; tauto.
      * rewrite P. cbn [In]. split; [tauto|]. intros [[<-|X] Y]; [|tauto]. apply Pb in Y. discriminate.
    + intros N. apply NoDup_cons_iff in N. destruct b; [|tauto]. constructor; [|tauto]. rewrite P. tauto.
Qed.
End Model.
