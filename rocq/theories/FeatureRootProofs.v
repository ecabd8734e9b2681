(** Replacing the root. *)
From Coq Require Import List ZArith Arith Bool Ascii Permutation Lia.
From Verif Require Import Text TextProofs ConstraintModel SourceRangeModel FeatureTreeModel FeatureTreeSpec FeatureTreeProofs
  FeatureTransactionModel FeatureEditSpec FeatureEditProofs FeatureOpsProofs FeatureRemoveProofs FeatureGroupProofs.
Import ListNotations.

Lemma attach_all_ok i di : forall cs h ei,
  h_cells h i = Some (Cell di None ei) -> NoDup (ei ++ cs) -> ~ In i cs ->
  (forall c, In c cs -> exists x, h_cells h c = Some x) ->
  exists h', attach_all h i cs = Some h' /\ h_next h' = h_next h /\
    h_cells h' i = Some (Cell di None (ei ++ cs)) /\
    (forall c d p e, In c cs -> h_cells h c = Some (Cell d p e) -> h_cells h' c = Some (Cell d (Some i) e)) /\
    (forall j, j <> i -> ~ In j cs -> h_cells h' j = h_cells h j).
Proof.
  induction cs as [|c cs IH]; intros h ei Ci D Ni L.
  - exists h. rewrite app_nil_r. split; [reflexivity|]. split; [reflexivity|]. split; [exact Ci|]. split; [intros c d p e []|reflexivity].
  - destruct (L c (or_introl eq_refl)) as ([dc pc ec] & Cc). cbn [attach_all]. unfold link.
    rewrite (set_parent_some h c (Some i) _ Cc). cbn [bind n_data n_edges]. set (h1 := h_set h c _).
    assert (c <> i) as Nci by (intros ->; apply Ni; left; reflexivity).
    assert (h_cells h1 i = Some (Cell di None ei)) as C1 by (unfold h1; rewrite h_set_other by congruence; exact Ci).
    rewrite (add_edge_some h1 i c _ C1). cbn [bind n_data n_parent n_edges].
    assert (~ In c ei) as Nc.
    { intros X. apply NoDup_remove_2 in D. apply D. apply in_or_app. left. exact X. }
    assert (~ In c cs) as Nc' by (intros X; apply NoDup_remove_2 in D; apply D; apply in_or_app; right; exact X).
    rewrite (set_insert_new c ei Nc). set (h2 := h_set h1 i _).
    destruct (IH h2 (ei ++ [c])) as (h' & E & Hn & Hi & Hc & Ho).
    + unfold h2. apply h_set_same.
    + rewrite <- app_assoc. exact D.
    + intros X. apply Ni. right. exact X.
    + intros x X. destruct (L x (or_intror X)) as (y & Cy). unfold h2, h1. exists y.
      rewrite !h_set_other; [exact Cy| |]; intros ->; [contradiction|apply Ni; right; exact X].
    + exists h'. split; [exact E|]. split; [exact Hn|]. rewrite <- app_assoc in Hi. split; [exact Hi|]. split.
      * intros x d p e [<-|X] Cx.
        -- rewrite Ho by assumption. unfold h2, h1. rewrite h_set_other by congruence. rewrite h_set_same. congruence.
        -- eapply Hc; [exact X|]. unfold h2, h1. rewrite !h_set_other; [exact Cx| |]; intros ->; [contradiction|apply Ni; right; exact X].
      * intros j J1 J2. cbn [In] in J2. rewrite Ho by tauto. unfold h2, h1. rewrite !h_set_other; auto.
Qed.

Lemma detach_all_ok r : forall cs h c, h_cells h r = Some c ->
  exists h' e, detach_all h r cs = Some h' /\ h_next h' = h_next h /\ h_cells h' r = Some (Cell (n_data c) (n_parent c) e) /\
    (forall j, j <> r -> h_cells h' j = h_cells h j).
Proof.
  induction cs as [|x cs IH]; intros h [d p e] C.
  - exists h, e. auto.
  - cbn [detach_all]. rewrite (remove_edge_some h r x _ C). cbn [bind n_data n_parent n_edges]. set (h1 := h_set h r _).
    destruct (IH h1 (Cell d p (set_remove x e))) as (h' & e' & E & Hn & Hr & Ho); [unfold h1; apply h_set_same|].
    exists h', e'. split; [exact E|]. split; [exact Hn|]. split; [exact Hr|]. intros j J. rewrite Ho by exact J. unfold h1.
    apply h_set_other. exact J.
Qed.

Lemma exec_set_root_ok ord h m t s :
  represents h m t -> get_feature m s = None ->
  exists h' m', exec ord (OSetRoot s) (h, m) = Some ((h', m'), None) /\
    represents h' m' (Node (h_next h) (NFeature (root_feature s)) (kids t)) /\
    same_rest m m' /\ m_relationships m' = m_relationships m /\ h_next h' = S (h_next h) /\ h_cells h' (rid t) = None /\
    (forall j, ~ In j (ids t) -> j <> h_next h -> h_cells h' j = h_cells h j).
Proof.
  intros R G. pose proof (rep_holds _ _ _ R) as H. pose proof (rep_ids _ _ _ R) as D. pose proof (rep_ok _ _ _ R) as O.
  pose proof (rep_fresh R) as Fr. destruct (rep_top_data R) as (f0 & Ef & Kf). pose proof (rep_top R) as Ct.
  cbn [exec]. unfold exec_set_root. rewrite (rep_root _ _ _ R).
  assert (name_at h (rid t) = Some (f_name f0)) as Nt by (unfold name_at, feature_at; rewrite Ct; cbn; rewrite Ef; reflexivity).
  assert (In (f_name f0, rid t) (named t)) as It.
  { apply named_subtree. exists t, f0. repeat split; auto. constructor. }
  assert (get_feature m (f_name f0) = Some (rid t)) as Gt by (apply (rep_find R); exact It).
  rewrite Nt. cbn [bind]. destruct (text_eqb (f_name f0) s) eqn:Es; [apply text_eqb_eq in Es; congruence|].
  apply text_eqb_neq in Es.
  unfold store_feature. cbn [f_name root_feature new_feature]. rewrite G. unfold h_alloc. cbn [m_root with_features].
  rewrite (rep_root _ _ _ R). set (i := h_next h) in *. set (h1 := {| h_cells := _ |}).
  assert (forall j, j <> i -> h_cells h1 j = h_cells h j) as U1.
  { intros j J. unfold h1. cbn [h_cells]. destruct (Nat.eqb_spec j i); [contradiction|reflexivity]. }
  assert (h_cells h1 i = Some (Cell (NFeature (root_feature s)) None [])) as C1 by (unfold h1; cbn [h_cells]; rewrite Nat.eqb_refl; reflexivity).
  assert (rid t <> i) as Nti by (intros X; apply Fr; rewrite <- X; apply rid_in_ids).
  rewrite (U1 _ Nti), Ct. cbn [bind n_edges].
  destruct t as [r d ts]. cbn [rid rdata kids ids] in *. apply NoDup_cons_iff in D. destruct D as (Nr & D).
  assert (forall v, In v ts -> h_cells h1 (rid v) = Some (Cell (rdata v) (Some r) (map rid (kids v)))) as Cv.
  { intros v Iv. rewrite U1; [apply (holds_top _ _ _ (holds_kid _ _ _ _ _ _ H Iv))|].
    intros X. apply Fr. rewrite <- X. right. apply rid_in_kids. exact Iv. }
  destruct (attach_all_ok i (NFeature (root_feature s)) (map rid ts) h1 [] C1) as (h2 & E2 & N2 & C2 & K2 & U2).
  { cbn [app]. apply nodup_rids. exact D. }
  { intros X. apply in_map_iff in X. destruct X as (v & Ev & Iv). apply Fr. rewrite <- Ev. right. apply rid_in_kids. exact Iv. }
  { intros c X. apply in_map_iff in X. destruct X as (v & <- & Iv). rewrite (Cv v Iv). eauto. }
  rewrite E2. cbn [bind]. rewrite C2. cbn [bind n_edges app].
  assert (forall x, In x (map rid ts) -> In x (flat_map ids ts)) as Rk.
  { intros x X. apply in_map_iff in X. destruct X as (v & <- & Iv). apply rid_in_kids. exact Iv. }
  assert (h_cells h2 r = Some (Cell d None (map rid ts))) as Cr2.
  { rewrite U2; [rewrite U1 by exact Nti; exact Ct|exact Nti|]. intros X. apply Nr, Rk. exact X. }
  destruct (detach_all_ok r (map rid ts) h2 _ Cr2) as (h3 & e3 & E3 & N3 & C3 & U3). rewrite E3. cbn [bind].
  cbn [n_data n_parent] in C3. subst d.
  unfold erase_feature. unfold name_at, feature_at. rewrite C3. cbn [bind n_data m_root with_features].
  rewrite (rep_root _ _ _ R). cbn [rid]. rewrite Nat.eqb_refl.
  assert (get_feature (with_features m (m_features m ++ [(s, i)])) (f_name f0) = Some r) as G1.
  { unfold get_feature in *. cbn [m_features with_features]. clear - Gt. induction (m_features m) as [|(k & j) l IH]; [discriminate|].
    cbn [app find_name] in *. destruct (text_eqb k (f_name f0)); [exact Gt|apply IH; exact Gt]. }
  rewrite G1. cbn [bind]. eexists _, _. split; [reflexivity|].
  cbn [with_root with_features m_features m_relationships m_name m_path m_commit m_boolean m_nonboolean m_mixed].
  set (h4 := h_set h3 r None).
  assert (forall j, j <> r -> j <> i -> ~ In j (map rid ts) -> h_cells h4 j = h_cells h j) as U4.
  { intros j J1 J2 J3. unfold h4. rewrite h_set_other by exact J1. rewrite U3 by exact J1. rewrite U2 by assumption. apply U1. exact J2. }
  assert (h_next h4 = S i) as N4 by (unfold h4; cbn [h_next h_set]; rewrite N3, N2; reflexivity).
  assert (forall e, In e (m_features m) -> fst e = f_name f0 -> e = (f_name f0, r)) as Only.
  { intros (k & j) Ie Ek. cbn [fst] in Ek. subst k. f_equal. apply (find_name_in _ _ _ (rep_keys R)) in Ie.
    unfold get_feature in Gt. congruence. }
  assert (Permutation (filter (fun e => negb (text_eqb (fst e) (f_name f0))) (m_features m ++ [(s, i)])) ((s, i) :: flat_map named ts)) as Pf.
  { rewrite filter_app. cbn [filter fst]. destruct (text_eqb s (f_name f0)) eqn:Es'; [apply text_eqb_eq in Es'; congruence|]. cbn [negb].
    rewrite <- Permutation_cons_append. constructor.
    pose proof (rep_features _ _ _ R) as Pm. cbn [named app] in Pm. pose proof (rep_names _ _ _ R) as Dn. cbn [named app map fst] in Dn.
    apply NoDup_cons_iff in Dn. destruct Dn as (Nn & Dn). pose proof (rep_keys R) as Dk.
    apply NoDup_Permutation; [apply NoDup_filter; eapply NoDup_map_inv; exact Dk|eapply NoDup_map_inv; exact Dn|].
    intros e. rewrite filter_In, negb_true_iff. split.
    - intros (Ie & Ne). apply text_eqb_neq in Ne. eapply Permutation_in in Ie; [|exact Pm]. destruct Ie as [<-|Ie]; [exfalso; apply Ne; reflexivity|exact Ie].
    - intros Ie. split; [eapply Permutation_in; [apply Permutation_sym; exact Pm|right; exact Ie]|].
      apply text_eqb_neq. intros X. apply Nn. rewrite <- X. apply in_map. exact Ie. }
  split; [|split; [repeat split|split; [reflexivity|split; [exact N4|split; [apply h_set_same|]]]]].
  2:{ intros j J1 J2. cbn [In] in J1. apply U4; [intros ->; apply J1; left; reflexivity|exact J2|].
      intros X. apply J1. right. apply Rk. exact X. }
  pose proof (rep_shape _ _ _ R) as Sh. inversion Sh as [? ? ? L1 L2 E0|]; subst.
  constructor; cbn [m_root m_features m_relationships].
  - intros j J. rewrite N4 in J. assert (forall x, In x (ids (Node r (NFeature f0) ts)) -> x <> j) as Nj.
    { intros x X ->. apply (rep_below R) in X. fold i in X. unfold nid in *. lia. }
    rewrite U4.
    + apply O. fold i. unfold nid in *. lia.
    + intros ->. apply (Nj r); [left; reflexivity|reflexivity].
    + unfold nid in *. lia.
    + intros X. apply (Nj j); [right; apply Rk; exact X|reflexivity].
  - apply holds_node.
    + unfold h4. rewrite h_set_other by congruence. rewrite U3 by congruence. exact C2.
    + intros v Iv. pose proof (holds_kid _ _ _ _ _ _ H Iv) as Hv. pose proof (nodup_flat_map_in _ _ _ D Iv) as Dv.
      assert (forall j, In j (ids v) -> In j (flat_map ids ts)) as Jv by (intros j J; apply in_flat_map; eauto).
      apply (holds_reparent h _ (Some r)); [exact Hv|exact Dv| |].
      * assert (rid v <> r) as Nv by (intros X; apply Nr; rewrite <- X; apply rid_in_kids; exact Iv).
        unfold h4. rewrite h_set_other by exact Nv. rewrite U3 by exact Nv. eapply K2; [apply in_map; exact Iv|apply Cv; exact Iv].
      * intros j J1 J2. apply U4.
        -- intros ->. apply Nr, Jv. exact J1.
        -- intros ->. apply Fr. right. apply Jv. exact J1.
        -- intros X. apply in_map_iff in X. destruct X as (w & Ew & Iw).
           destruct (in_split _ _ Iv) as (l1 & l2 & El). subst ts. rewrite flat_map_app in D. cbn [flat_map] in D.
           apply nodup_app in D. destruct D as (_ & D3 & X1). apply nodup_app in D3. destruct D3 as (_ & _ & X2).
           apply in_app_or in Iw. destruct Iw as [Iw|[Iw|Iw]].
           ++ apply (X1 j); [rewrite <- Ew; apply rid_in_kids; exact Iw|apply in_or_app; left; exact J1].
           ++ subst w. congruence.
           ++ apply (X2 j); [exact J1|rewrite <- Ew; apply rid_in_kids; exact Iw].
  - cbn [ids]. constructor; [intros X; apply Fr; right; exact X|exact D].
  - reflexivity.
  - cbn [roots is_root_kind root_feature new_feature f_kind app rid]. pose proof (rep_roots _ _ _ R) as Rr. cbn [roots rid] in Rr.
    unfold is_root_kind in Rr. rewrite Kf in Rr. cbn [app] in Rr. injection Rr as Rr. rewrite Rr. reflexivity.
  - cbn [named app f_name root_feature new_feature]. exact Pf.
  - eapply Permutation_NoDup; [apply Permutation_map; exact Pf|].
    pose proof (rep_keys R) as Dk. rewrite filter_app, map_app. cbn [filter fst].
    destruct (text_eqb s (f_name f0)) eqn:Es'; [apply text_eqb_eq in Es'; congruence|]. cbn [negb map fst].
    unfold get_feature in G. apply find_name_none in G.
    assert (incl (map fst (filter (fun e => negb (text_eqb (fst e) (f_name f0))) (m_features m))) (map fst (m_features m))) as Inc.
    { intros x X. apply in_map_iff in X. destruct X as (e & <- & Ie). apply filter_In in Ie. apply in_map. tauto. }
    apply nodup_app. split; [|split; [repeat constructor; intros []|]].
    + clear - Dk. induction (m_features m) as [|e l IH]; [constructor|]. cbn [map] in Dk. apply NoDup_cons_iff in Dk. destruct Dk as (Ne & Dk).
      cbn [filter]. destruct (negb _); [|apply IH; exact Dk]. cbn [map]. constructor; [|apply IH; exact Dk].
      intros X. apply Ne. apply in_map_iff in X. destruct X as (y & E & X). apply filter_In in X. apply in_map_iff. exists y. tauto.
    + intros x X [<-|[]]. apply G, Inc. exact X.
  - cbn [groups app]. exact (rep_groups _ _ _ R).
  - constructor; assumption.
Qed.

Lemma exec_set_root_same ord h m t s f : represents h m t -> rdata t = NFeature f -> f_name f = s ->
  exec ord (OSetRoot s) (h, m) = Some ((h, m), None).
Proof.
  intros R E N. cbn [exec]. unfold exec_set_root. rewrite (rep_root _ _ _ R). unfold name_at, feature_at. rewrite (rep_top R).
  cbn [bind n_data]. rewrite E. cbn [bind]. rewrite N.
  assert (text_eqb s s = true) as -> by (apply text_eqb_eq; reflexivity). reflexivity.
Qed.

Lemma exec_set_root_present ord h m t s i : represents h m t -> get_feature m s = Some i -> i <> rid t ->
  exec ord (OSetRoot s) (h, m) = Some ((h, m), Some ALREADY_PRESENT).
Proof.
  intros R G N. cbn [exec]. unfold exec_set_root. rewrite (rep_root _ _ _ R). destruct (rep_top_data R) as (f0 & Ef & Kf).
  unfold name_at, feature_at. rewrite (rep_top R). cbn [bind n_data]. rewrite Ef. cbn [bind].
  destruct (text_eqb (f_name f0) s) eqn:Es.
  - exfalso. apply text_eqb_eq in Es. apply N. assert (get_feature m (f_name f0) = Some (rid t)) as Gt.
    { apply (rep_find R). apply named_subtree. exists t, f0. repeat split; auto. constructor. }
    congruence.
  - unfold store_feature. cbn [f_name root_feature new_feature]. rewrite G. reflexivity.
Qed.
