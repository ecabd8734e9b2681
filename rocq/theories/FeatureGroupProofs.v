(** Adding and removing relationships. *)
From Coq Require Import List ZArith Arith Bool Ascii Permutation Lia.
From Verif Require Import Text TextProofs ConstraintModel SourceRangeModel FeatureTreeModel FeatureTreeSpec FeatureTreeProofs
  FeatureTransactionModel FeatureEditSpec FeatureEditProofs FeatureOpsProofs FeatureRemoveProofs.
Import ListNotations.

Lemma regroup_ok a b da pa db pb : a <> b -> forall cs h ea eb,
  h_cells h a = Some (Cell da pa ea) -> h_cells h b = Some (Cell db pb eb) ->
  NoDup (eb ++ cs) -> incl cs ea -> ~ In a cs -> ~ In b cs ->
  (forall c, In c cs -> exists d e, h_cells h c = Some (Cell d (Some a) e)) ->
  exists h', regroup h a b cs = Some h' /\ h_next h' = h_next h /\
    h_cells h' a = Some (Cell da pa (filter (fun x => negb (mem x cs)) ea)) /\
    h_cells h' b = Some (Cell db pb (eb ++ cs)) /\
    (forall c d e, In c cs -> h_cells h c = Some (Cell d (Some a) e) -> h_cells h' c = Some (Cell d (Some b) e)) /\
    (forall j, j <> a -> j <> b -> ~ In j cs -> h_cells h' j = h_cells h j).
Proof.
  intros Nab cs. induction cs as [|c cs IH]; intros h ea eb Ca Cb D I Na Nb P.
  - exists h. split; [reflexivity|]. split; [reflexivity|]. split.
    + rewrite Ca. do 2 f_equal. symmetry. apply filter_all. reflexivity.
    + rewrite app_nil_r. split; [exact Cb|]. split; [intros c d e []|]. reflexivity.
  - cbn [regroup]. rewrite Ca. cbn [bind n_edges]. destruct (P c (or_introl eq_refl)) as (d & e & Cc). rewrite Cc.
    cbn [bind n_parent]. rewrite Nat.eqb_refl, andb_true_r.
    assert (In c ea) as Ic by (apply I; left; reflexivity). apply mem_spec in Ic. rewrite Ic. apply mem_spec in Ic.
    assert (c <> a) as Nca by (intros ->; apply Na; left; reflexivity).
    assert (c <> b) as Ncb by (intros ->; apply Nb; left; reflexivity).
    rewrite (remove_edge_some h a c _ Ca). cbn [bind n_data n_parent n_edges]. set (h1 := h_set h a _).
    assert (h_cells h1 b = Some (Cell db pb eb)) as Cb1 by (unfold h1; rewrite h_set_other by congruence; exact Cb).
    rewrite (add_edge_some h1 b c _ Cb1). cbn [bind n_data n_parent n_edges]. set (h2 := h_set h1 b _).
    assert (h_cells h2 c = Some (Cell d (Some a) e)) as Cc2
      by (unfold h2, h1; rewrite !h_set_other by congruence; exact Cc).
    rewrite (set_parent_some h2 c (Some b) _ Cc2). cbn [bind n_data n_parent n_edges]. set (h3 := h_set h2 c _).
    assert (~ In c eb /\ NoDup ((eb ++ [c]) ++ cs) /\ ~ In c cs) as (Nc & D' & Nc').
    { rewrite <- app_assoc. split; [|split; [exact D|]].
      - intros X. apply NoDup_remove_2 in D. apply D. apply in_or_app. left. exact X.
      - intros X. apply NoDup_remove_2 in D. apply D. apply in_or_app. right. exact X. }
    destruct (IH h3 (set_remove c ea) (eb ++ [c])) as (h' & E & Hn & Ha & Hb & Hc & Ho).
    + unfold h3, h2, h1. rewrite !h_set_other by congruence. apply h_set_same.
    + unfold h3, h2. rewrite h_set_other by congruence. rewrite set_insert_new by exact Nc. apply h_set_same.
    + exact D'.
    + intros x X. apply in_set_remove. split; [apply I; right; exact X|]. intros ->. contradiction.
    + intros X. apply Na. right. exact X.
    + intros X. apply Nb. right. exact X.
    + intros x X. destruct (P x (or_intror X)) as (d' & e' & Cx). exists d', e'. unfold h3, h2, h1.
      rewrite !h_set_other; [exact Cx| | |]; intros ->; [apply Na|apply Nb|apply Nc']; auto; right; exact X.
    + exists h'. split; [exact E|]. split; [exact Hn|]. split; [|split; [|split]].
      * rewrite Ha. do 2 f_equal. unfold set_remove. rewrite filter_filter. apply filter_ext. intros x. cbn [mem existsb].
        rewrite negb_orb, (Nat.eqb_sym x c). reflexivity.
      * rewrite Hb, <- app_assoc. reflexivity.
      * intros x dx ex [<-|X] Cx.
        -- rewrite Ho by assumption. unfold h3. rewrite h_set_same. congruence.
        -- apply Hc; [exact X|]. unfold h3, h2, h1.
           rewrite !h_set_other; [exact Cx| | |]; intros ->; [apply Na|apply Nb|apply Nc']; auto; right; exact X.
      * intros j J1 J2 J3. cbn [In] in J3. rewrite Ho by tauto. unfold h3, h2, h1. rewrite !h_set_other; auto.
Qed.

Lemma near_features ts : Forall (fun t => is_feature (rdata t) = true) ts -> near ts = ts.
Proof.
  induction ts as [|t ts IH]; [reflexivity|]. intros F. inversion F as [|? ? F1 F2]; subst. unfold near in *. cbn [flat_map].
  rewrite (IH F2). destruct t as [n d us]. cbn [rdata] in F1. cbn [tops]. rewrite F1. reflexivity.
Qed.
Lemma own_groups_none ts : own_groups ts = [] <-> Forall (fun t => is_feature (rdata t) = true) ts.
Proof.
  unfold own_groups, is_relationship. induction ts as [|t ts IH]; [split; constructor|]. cbn [filter].
  destruct (is_feature (rdata t)) eqn:E; cbn [negb].
  - rewrite IH. split; [intros F; constructor; auto|intros F; inversion F; assumption].
  - split; [discriminate|]. intros F. inversion F. congruence.
Qed.

Lemma perm_lists us ts : Permutation us ts ->
  Permutation (flat_map ids us) (flat_map ids ts) /\ Permutation (flat_map named us) (flat_map named ts) /\
  Permutation (flat_map groups us) (flat_map groups ts) /\ Permutation (flat_map roots us) (flat_map roots ts).
Proof. intros P. repeat split; apply permutation_flat_map; exact P. Qed.

Section Grouping.
Variable ord : list nid -> list nid.
Hypothesis ord_ok : is_order ord.

(** The result of grouping all children [ts] of [s] under the new node [i]. *)
Lemma exec_add_relationship_ok h m t k r s :
  represents h m t -> resolve m r = Some (rid s) -> subtree s t -> is_feature (rdata s) = true -> own_groups (kids s) = [] ->
  exists h' us, exec ord (OAddRelationship k r) (h, m) = Some ((h', with_relationships m (m_relationships m ++ [h_next h])), None) /\
    Permutation us (kids s) /\
    represents h' (with_relationships m (m_relationships m ++ [h_next h]))
      (edit (rid s) (with_kids [Node (h_next h) (NRelationship k) us]) t) /\
    (forall j, ~ In j (ids t) -> j <> h_next h -> h_cells h' j = h_cells h j).
Proof.
  intros R E S1 F Og. destruct (holds_sub h None t s (rep_holds _ _ _ R) S1) as (q & Hs).
  pose proof (subtree_nodup s t S1 (rep_ids _ _ _ R)) as Ds. pose proof (rep_ok _ _ _ R) as O.
  pose proof (rep_fresh R) as Fr. pose proof Og as Fk. apply own_groups_none in Fk.
  assert (forall i, In i (ids s) -> i <> h_next h) as Nf by (intros i I ->; apply Fr; eapply subtree_ids; eauto).
  assert (grouped s) as Gs by (eapply grouped_sub; [exact S1|apply (rep_shape _ _ _ R)]).
  cbn [exec]. unfold exec_add_relationship, store_relationship, h_alloc. destruct s as [n d ts]. cbn [rid rdata kids] in *.
  cbv zeta. set (i := h_next h) in *. set (h1 := {| h_cells := _ |}).
  assert (resolve (with_relationships m (m_relationships m ++ [i])) r = Some n) as E'.
  { rewrite <- E. destruct r; reflexivity. }
  rewrite E'. cbn [bind]. assert (n <> i) as Nni by (apply Nf; left; reflexivity).
  assert (h_cells h1 i = Some (Cell (NRelationship k) None [])) as C1 by (unfold h1; cbn [h_cells]; rewrite Nat.eqb_refl; reflexivity).
  assert (forall j, j <> i -> h_cells h1 j = h_cells h j) as U1.
  { intros j J. unfold h1. cbn [h_cells]. destruct (Nat.eqb_spec j i); [contradiction|reflexivity]. }
  unfold link. rewrite (set_parent_some h1 i (Some n) _ C1). cbn [bind n_data n_edges]. set (h1' := h_set h1 i _).
  pose proof (holds_root _ _ _ _ _ Hs) as Cn.
  assert (h_cells h1' n = Some (Cell d q (map rid ts))) as Cn1 by (unfold h1'; rewrite h_set_other by exact Nni; rewrite U1 by exact Nni; exact Cn).
  rewrite (add_edge_some h1' n i _ Cn1). cbn [bind n_data n_parent n_edges].
  assert (~ In i (map rid ts)) as Ni.
  { intros X. apply in_map_iff in X. destruct X as (v & Ev & Iv). apply (Nf i); [|reflexivity]. rewrite <- Ev. right. apply rid_in_kids. exact Iv. }
  rewrite (set_insert_new _ _ Ni). set (h2 := h_set h1' n _).
  set (t2 := Node n d (ts ++ [Node i (NRelationship k) []])).
  assert (forall j, j <> i -> j <> n -> h_cells h2 j = h_cells h j) as U2.
  { intros j J1 J2. unfold h2, h1'. rewrite !h_set_other by assumption. apply U1. exact J1. }
  assert (h_cells h2 n = Some (Cell d q (map rid ts ++ [i]))) as Cn2 by (unfold h2; apply h_set_same).
  assert (h_cells h2 i = Some (Cell (NRelationship k) (Some n) [])) as Ci2
    by (unfold h2, h1'; rewrite h_set_other by congruence; apply h_set_same).
  cbn [ids] in Ds. apply NoDup_cons_iff in Ds. destruct Ds as (Nn & Ds).
  assert (forall v, In v ts -> holds h2 (Some n) v) as Hv.
  { intros v Iv. apply (holds_ext h); [eapply holds_kid; eauto|]. intros j J. apply U2.
    - apply Nf. eapply ids_kid; eauto.
    - intros ->. apply Nn. apply in_flat_map. eauto. }
  assert (holds h2 q t2) as H2.
  { apply holds_node.
    - rewrite map_app. exact Cn2.
    - intros v Iv. apply in_app_or in Iv. destruct Iv as [Iv|[<-|[]]]; [apply Hv; exact Iv|].
      apply holds_node; [exact Ci2|intros w []]. }
  assert (heap_ok h2) as O2.
  { intros j J. unfold h2, h1' in J. cbn [h_next h_set h1] in J. rewrite U2.
    - apply O. lia.
    - unfold nid in *. lia.
    - assert (n < i) by (apply (rep_below R); eapply subtree_ids; [exact S1|left; reflexivity]). unfold nid in *. lia. }
  assert (NoDup (ids t2)) as D2.
  { unfold t2. cbn [ids]. rewrite flat_map_app. cbn [flat_map ids app].
    constructor.
    - intros X. apply in_app_or in X. destruct X as [X|[X|[]]]; [contradiction|congruence].
    - apply nodup_app. split; [exact Ds|]. split; [repeat constructor; intros []|].
      intros x X [<-|[]]. apply (Nf i); [right; exact X|reflexivity]. }
  unfold child_features. rewrite (get_children_tree ord is_feature h2 q n d _ O2 H2 D2).
  change (flat_map (tops is_feature) ?l) with (near l).
  assert (near (ts ++ [Node i (NRelationship k) []]) = ts) as Nr.
  { unfold near. rewrite flat_map_app. cbn [flat_map tops is_feature app]. rewrite app_nil_r. apply near_features. exact Fk. }
  rewrite Nr. cbn [bind]. pose proof (ord_ok (map rid ts)) as P. apply Permutation_map_inv in P. destruct P as (us & Eu & Pu).
  rewrite Eu.
  assert (NoDup (map rid ts)) as Dr.
  { clear - Ds. induction ts as [|v ts IH]; [constructor|]. cbn [flat_map] in Ds. apply nodup_app in Ds. destruct Ds as (_ & D2 & Dx).
    cbn [map]. constructor; [|apply IH; exact D2]. intros X. apply in_map_iff in X. destruct X as (w & Ew & Iw).
    apply (Dx (rid v)); [apply rid_in_ids|]. rewrite <- Ew. apply rid_in_kids. exact Iw. }
  apply Permutation_sym in Pu.
  assert (forall x, In x (map rid us) <-> In x (map rid ts)) as Iu.
  { intros x. split; apply Permutation_in; apply Permutation_map; [|apply Permutation_sym]; exact Pu. }
  destruct (regroup_ok n i d q (NRelationship k) (Some n) Nni (map rid us) h2 (map rid ts ++ [i]) [] Cn2 Ci2) as (h3 & E3 & Hn3 & Ca & Cb & Cc & Co).
  { cbn [app]. eapply Permutation_NoDup; [apply Permutation_map; apply Permutation_sym; exact Pu|exact Dr]. }
  { intros x X. apply in_or_app. left. apply Iu. exact X. }
  { intros X. apply Iu in X. apply in_map_iff in X. destruct X as (v & Ev & Iv). apply Nn. rewrite <- Ev. apply rid_in_kids. exact Iv. }
  { intros X. apply Iu in X. contradiction. }
  { intros c X. apply Iu in X. apply in_map_iff in X. destruct X as (v & <- & Iv). eexists _, _. apply (holds_top _ _ _ (Hv v Iv)). }
  rewrite E3. exists h3, us. split; [reflexivity|]. split; [exact Pu|]. split.
  2:{ intros j J1 J2. assert (j <> n) as J3 by (intros ->; apply J1; eapply subtree_ids; [exact S1|left; reflexivity]).
      rewrite Co; auto. intros X. apply Iu in X. apply in_map_iff in X. destruct X as (v & <- & Iv). apply J1.
      eapply subtree_ids; [exact S1|]. right. apply rid_in_kids. exact Iv. }
  destruct (perm_lists us ts Pu) as (Qi & Qn & Qg & Qr).
  assert (In n (ids t)) as In_ by (eapply subtree_ids; [exact S1|left; reflexivity]).
  apply (represents_edit h m t (Node n d ts) (with_kids [Node i (NRelationship k) us]) h3 _ R S1); unfold with_kids; cbn [rid rdata kids].
  - reflexivity.
  - reflexivity.
  - destruct d as [x|]; [|discriminate]. constructor; [cbn [own_groups filter rdata is_relationship is_feature negb length]; lia|].
    constructor; [|constructor]. inversion Gs as [? ? ? _ Gt E0|]; subst. constructor; apply Forall_forall; intros v Iv;
      assert (In v ts) as Iv' by (eapply Permutation_in; eauto).
    + rewrite Forall_forall in Fk. apply Fk. exact Iv'.
    + rewrite Forall_forall in Gt. apply Gt. exact Iv'.
  - intros j J. rewrite Hn3 in J. unfold h2, h1' in J. cbn [h_next h_set h1] in J.
    assert (forall x, In x (ids t) -> x <> j) as Nj.
    { intros x X ->. apply (rep_below R) in X. unfold nid in *. lia. }
    rewrite Co.
    + rewrite U2; [apply O; unfold nid in *; lia|unfold nid in *; lia|intros ->; apply (Nj n); auto].
    + intros ->. apply (Nj n); auto.
    + unfold nid in *. lia.
    + intros X. apply Iu in X. apply in_map_iff in X. destruct X as (v & <- & Iv). apply (Nj (rid v)); [|reflexivity].
      eapply subtree_ids; [exact S1|]. right. apply rid_in_kids. exact Iv.
  - intros j J1 J2. rewrite Co.
    + apply U2; [intros ->; contradiction|intros ->; apply J2; left; reflexivity].
    + intros ->. apply J2. left. reflexivity.
    + intros ->. contradiction.
    + intros X. apply Iu in X. apply in_map_iff in X. destruct X as (v & <- & Iv). apply J2. right. apply rid_in_kids. exact Iv.
  - intros q' Hq'. pose proof (holds_root _ _ _ _ _ Hq') as C'. rewrite Cn in C'. injection C' as <-.
    apply holds_node; cbn [map rid].
    + rewrite Ca. do 2 f_equal. rewrite filter_app. cbn [filter].
      assert (mem i (map rid us) = false) as -> by (apply mem_false; intros X; apply Iu in X; contradiction). cbn [negb].
      replace (filter _ (map rid ts)) with (@nil nid); [reflexivity|]. symmetry.
      clear - Iu. assert (forall l, incl l (map rid ts) -> filter (fun x => negb (mem x (map rid us))) l = []) as Z.
      { induction l as [|x l IH]; [reflexivity|]. intros I. cbn [filter].
        assert (mem x (map rid us) = true) as -> by (apply mem_spec; apply Iu; apply I; left; reflexivity). cbn [negb].
        apply IH. intros y Y. apply I. right. exact Y. }
      apply Z. intros x X. exact X.
    + intros v [<-|[]]. apply holds_node; [rewrite Cb; reflexivity|].
      intros v Iv. assert (In v ts) as Iv' by (eapply Permutation_in; eauto). pose proof (Hv v Iv') as Hv2.
      pose proof (nodup_flat_map_in _ _ _ Ds Iv') as Dv.
      destruct v as [nv dv tv]. apply holds_node.
      * apply (Cc nv dv (map rid tv)); [apply (in_map rid) in Iv; exact Iv|]. apply (holds_root _ _ _ _ _ Hv2).
      * intros w Iw. apply (holds_ext h2); [eapply holds_kid; eauto|]. intros j J.
        assert (In j (flat_map ids ts)) as J' by (apply in_flat_map; exists (Node nv dv tv); split; [exact Iv'|eapply ids_kid; eauto]).
        apply Co.
        -- intros ->. contradiction.
        -- apply Nf. right. exact J'.
        -- intros X. apply Iu in X. apply in_map_iff in X. destruct X as (z & Ez & Iz).
           destruct (in_split _ _ Iv') as (l1 & l2 & El). rewrite El in Iz, Ds. rewrite flat_map_app in Ds. cbn [flat_map] in Ds.
           apply nodup_app in Ds. destruct Ds as (_ & D3 & X1). apply nodup_app in D3. destruct D3 as (_ & _ & X2).
           assert (In j (ids (Node nv dv tv))) as Jv by (eapply ids_kid; eauto).
           apply in_app_or in Iz. destruct Iz as [Iz|[Iz|Iz]].
           ++ apply (X1 j); [rewrite <- Ez; apply rid_in_kids; exact Iz|apply in_or_app; left; exact Jv].
           ++ subst z. cbn [rid] in Ez. subst j. cbn [ids] in Dv. apply NoDup_cons_iff in Dv. apply Dv. apply in_flat_map. eauto.
           ++ apply (X2 j); [exact Jv|rewrite <- Ez; apply rid_in_kids; exact Iz].
  - cbn [ids flat_map]. rewrite app_nil_r. constructor.
    + intros [X|X]; [congruence|]. apply Nn. eapply Permutation_in; eauto.
    + constructor.
      * intros X. apply (Nf i); [|reflexivity]. right. eapply Permutation_in; eauto.
      * eapply Permutation_NoDup; [apply Permutation_sym; exact Qi|exact Ds].
  - cbn [ids flat_map]. rewrite app_nil_r. intros j [<-|[<-|J]]; [left; left; reflexivity|right; exact Fr|].
    left. right. eapply Permutation_in; eauto.
  - reflexivity.
  - intros A Pa. cbn [m_features with_relationships named flat_map app]. rewrite app_nil_r. rewrite Pa. cbn [named].
    rewrite <- !app_assoc. apply Permutation_app_head. apply Permutation_app_tail. apply Permutation_sym. exact Qn.
  - apply (rep_keys R).
  - intros G Pg. cbn [m_relationships with_relationships groups flat_map app]. rewrite app_nil_r. rewrite Pg. cbn [groups].
    destruct d as [x|]; [|discriminate]. cbn [app].
    apply Permutation_trans with (i :: (flat_map groups ts ++ G)).
    + apply Permutation_sym. apply Permutation_cons_append.
    + constructor. apply Permutation_app_tail. apply Permutation_sym. exact Qg.
  - cbn [roots flat_map app]. rewrite app_nil_r. apply Permutation_app_head. exact Qr.
Qed.

Lemma nodup_rids ts : NoDup (flat_map ids ts) -> NoDup (map rid ts).
Proof.
  intros Ds. induction ts as [|v ts IH]; [constructor|]. cbn [flat_map] in Ds. apply nodup_app in Ds. destruct Ds as (_ & D2 & Dx).
  cbn [map]. constructor; [|apply IH; exact D2]. intros X. apply in_map_iff in X. destruct X as (w & Ew & Iw).
  apply (Dx (rid v)); [apply rid_in_ids|]. rewrite <- Ew. apply rid_in_kids. exact Iw.
Qed.

Lemma holds_reparent h h' p q v : holds h p v -> NoDup (ids v) ->
  h_cells h' (rid v) = Some (Cell (rdata v) q (map rid (kids v))) ->
  (forall j, In j (ids v) -> j <> rid v -> h_cells h' j = h_cells h j) -> holds h' q v.
Proof.
  intros H D C U. destruct v as [n d ts]. cbn [rid rdata kids] in *. apply holds_node; [exact C|].
  intros w Iw. apply (holds_ext h); [eapply holds_kid; eauto|]. intros j J. apply U; [eapply ids_kid; eauto|].
  intros ->. cbn [ids] in D. apply NoDup_cons_iff in D. apply D. apply in_flat_map. eauto.
Qed.

Lemma exec_remove_relationship_ok h m t r n d a i k us b :
  represents h m t -> resolve m r = Some n -> subtree (Node n d (a ++ Node i (NRelationship k) us :: b)) t ->
  is_feature d = true ->
  flat_map (tops is_relationship) (a ++ Node i (NRelationship k) us :: b) = [Node i (NRelationship k) us] ->
  exists h' m' us', exec ord (ORemoveRelationship r) (h, m) = Some ((h', m'), None) /\
    Permutation us' us /\ m' = with_relationships m (set_remove i (m_relationships m)) /\
    represents h' m' (edit n (with_kids ((a ++ b) ++ us')) t) /\
    h_cells h' i = None /\ (forall j, ~ In j (ids t) -> h_cells h' j = h_cells h j).
Proof.
  intros R E S1 F Tr. set (g := Node i (NRelationship k) us) in *. set (ts := a ++ g :: b) in *.
  destruct (holds_sub h None t _ (rep_holds _ _ _ R) S1) as (q & Hs).
  pose proof (subtree_nodup _ t S1 (rep_ids _ _ _ R)) as Ds. pose proof (rep_ok _ _ _ R) as O.
  assert (grouped (Node n d ts)) as Gs by (eapply grouped_sub; [exact S1|apply (rep_shape _ _ _ R)]).
  cbn [exec]. unfold exec_remove_relationship. rewrite E. unfold child_relationships.
  rewrite (get_children_tree ord is_relationship h q n d ts O Hs Ds). rewrite Tr. cbn [map rid g bind].
  rewrite (ord_single ord ord_ok [i] i eq_refl).
  pose proof (holds_root _ _ _ _ _ Hs) as Cn. rewrite (remove_edge_some h n i _ Cn). cbn [bind n_data n_parent n_edges].
  cbn [ids] in Ds. apply NoDup_cons_iff in Ds. destruct Ds as (Nn & Ds).
  pose proof (nodup_rids ts Ds) as Dr.
  assert (In g ts) as Ig by (apply in_or_app; right; left; reflexivity).
  assert (set_remove i (map rid ts) = map rid (a ++ b)) as Er.
  { unfold ts in *. rewrite map_app in *. cbn [map rid g] in *. rewrite map_app. apply set_remove_mid. apply NoDup_remove_2. exact Dr. }
  rewrite Er. set (h1 := h_set h n _).
  assert (n <> i) as Nni by (intros ->; apply Nn; apply (rid_in_kids g); exact Ig).
  assert (forall j, j <> n -> h_cells h1 j = h_cells h j) as U1 by (intros j J; unfold h1; apply h_set_other; exact J).
  assert (forall v, In v ts -> holds h1 (Some n) v) as Hv.
  { intros v Iv. apply (holds_ext h); [eapply holds_kid; eauto|]. intros j J. apply U1. intros ->. apply Nn. apply in_flat_map. eauto. }
  assert (h_cells h1 n = Some (Cell d q (map rid (a ++ b)))) as Cn1 by (unfold h1; apply h_set_same).
  pose proof (holds_root _ _ _ _ _ (Hv g Ig)) as Ci1.
  assert (In n (ids t)) as Int by (eapply subtree_ids; [exact S1|left; reflexivity]).
  assert (heap_ok h1) as O1 by (apply h_set_ok; [exact O|apply (rep_below R); exact Int]).
  pose proof (nodup_flat_map_in _ _ _ Ds Ig) as Dg.
  unfold child_features. rewrite (get_children_tree ord is_feature h1 (Some n) i _ us O1 (Hv g Ig) Dg).
  change (flat_map (tops is_feature) us) with (near us).
  assert (grouped g) as Gg by (eapply grouped_sub; [apply subtree_kid; exact Ig|exact Gs]).
  inversion Gg as [|? ? ? Fu Gu E0]; subst. rewrite (near_features us Fu). cbn [bind].
  pose proof (ord_ok (map rid us)) as P. apply Permutation_map_inv in P. destruct P as (us' & Eu & Pu).
  apply Permutation_sym in Pu. rewrite Eu.
  cbn [ids g] in Dg. apply NoDup_cons_iff in Dg. destruct Dg as (Ni & Du). pose proof (nodup_rids us Du) as Dur.
  assert (forall x, In x (map rid us') <-> In x (map rid us)) as Iu.
  { intros x. split; apply Permutation_in; apply Permutation_map; [|apply Permutation_sym]; exact Pu. }
  (* everything below the group is apart from the other children *)
  assert (forall x, In x (i :: flat_map ids us) -> ~ In x (flat_map ids (a ++ b))) as Dab.
  { intros x X Y. unfold ts in Ds. rewrite flat_map_app in Ds. cbn [flat_map] in Ds. apply nodup_app in Ds. destruct Ds as (_ & D3 & X1).
    apply nodup_app in D3. destruct D3 as (_ & _ & X2). rewrite flat_map_app in Y. apply in_app_or in Y. destruct Y as [Y|Y].
    - apply (X1 x Y). apply in_or_app. left. exact X.
    - apply (X2 x X Y). }
  assert (forall x, In x (map rid us) -> In x (flat_map ids us)) as Ru.
  { intros x X. apply in_map_iff in X. destruct X as (v & <- & Iv). apply rid_in_kids. exact Iv. }
  assert (forall x, In x (flat_map ids us) -> In x (flat_map ids ts)) as Ut.
  { intros x X. apply in_flat_map. exists g. split; [exact Ig|right; exact X]. }
  assert (forall x, In x (flat_map ids (a ++ b)) -> In x (flat_map ids ts)) as At.
  { intros x X. unfold ts. rewrite flat_map_app in *. cbn [flat_map]. apply in_app_or in X. apply in_or_app.
    destruct X as [X|X]; [left; exact X|right; apply in_or_app; right; exact X]. }
  assert (NoDup (flat_map ids (a ++ b))) as Dabn.
  { unfold ts in Ds. rewrite flat_map_app in *. cbn [flat_map] in Ds. apply nodup_app in Ds. destruct Ds as (D4 & D3 & X1).
    apply nodup_app in D3. destruct D3 as (_ & D5 & X2). apply nodup_app. split; [exact D4|]. split; [exact D5|].
    intros x X Y. apply (X1 x X). apply in_or_app. right. exact Y. }
  assert (Node n d ts = Node n d (a ++ g :: b)) as Ets by reflexivity.
  destruct (regroup_ok i n (NRelationship k) (Some n) d q (fun X => Nni (eq_sym X)) (map rid us') h1 (map rid us) (map rid (a ++ b)) Ci1 Cn1)
    as (h2 & E2 & Hn2 & Ca & Cb & Cc & Co).
  { apply nodup_app. split; [apply nodup_rids; exact Dabn|]. split.
    - eapply Permutation_NoDup; [apply Permutation_map; apply Permutation_sym; exact Pu|exact Dur].
    - intros x X Y. apply Iu in Y. apply (Dab x); [right; apply Ru; exact Y|].
      apply in_map_iff in X. destruct X as (v & <- & Iv). apply rid_in_kids. exact Iv. }
  { intros x X. apply Iu. exact X. }
  { intros X. apply Iu, Ru in X. contradiction. }
  { intros X. apply Iu, Ru, Ut in X. contradiction. }
  { intros c X. apply Iu in X. apply in_map_iff in X. destruct X as (v & <- & Iv). eexists _, _.
    apply (holds_top _ _ _ (holds_kid _ _ _ _ _ _ (Hv g Ig) Iv)). }
  rewrite E2. cbn [bind]. unfold erase_relationship.
  assert (In i (m_relationships m)) as Im.
  { eapply Permutation_in; [apply Permutation_sym; apply (rep_groups _ _ _ R)|]. apply groups_subtree. exists g, k.
    split; [eapply subtree_trans; [apply subtree_kid; exact Ig|exact S1]|split; reflexivity]. }
  pose proof Im as Im'. apply mem_spec in Im'. rewrite Im'.
  exists (h_set h2 i None), (with_relationships m (set_remove i (m_relationships m))), us'.
  split; [reflexivity|]. split; [exact Pu|]. split; [reflexivity|].
  assert (In i (ids t)) as Iit by (eapply subtree_ids; [exact S1|]; right; apply (rid_in_kids g); exact Ig).
  split; [|split; [apply h_set_same|]].
  2:{ intros j J. rewrite h_set_other by (intros ->; contradiction). rewrite Co.
      - apply U1. intros ->. contradiction.
      - intros ->. contradiction.
      - intros ->. contradiction.
      - intros X. apply Iu, Ru, Ut in X. apply J. eapply subtree_ids; [exact S1|]. right. exact X. }
  destruct (perm_lists us' us Pu) as (Qi & Qn & Qg & Qr).
  assert (forall j, j <> n -> j <> i -> ~ In j (map rid us) -> h_cells (h_set h2 i None) j = h_cells h j) as Un.
  { intros j J1 J2 J3. rewrite h_set_other by exact J2. rewrite Co; [apply U1; exact J1|exact J2|exact J1|]. intros X. apply J3, Iu. exact X. }
  assert (forall A (f : tree -> list A), Permutation (flat_map f ((a ++ b) ++ us')) (flat_map f (a ++ b) ++ flat_map f us)) as Pf.
  { intros A f. rewrite (flat_map_app f (a ++ b) us'). apply Permutation_app_head. apply permutation_flat_map. exact Pu. }
  apply (represents_edit h m t (Node n d ts) (with_kids ((a ++ b) ++ us')) _ _ R S1); unfold with_kids; cbn [rid rdata kids].
  - reflexivity.
  - reflexivity.
  - destruct d as [x|]; [|discriminate]. inversion Gs as [? ? ? L1 Gt E1'|]; subst. constructor.
    + rewrite own_groups_app. replace (own_groups us') with (@nil tree).
      * rewrite app_nil_r. eapply Nat.le_trans; [apply (own_groups_drop a g b)|exact L1].
      * symmetry. apply own_groups_none. apply Forall_forall. intros v Iv. rewrite Forall_forall in Fu. apply Fu. eapply Permutation_in; eauto.
    + apply Forall_forall. intros v Iv. rewrite Forall_forall in Gt, Gu. apply in_app_or in Iv. destruct Iv as [Iv|Iv].
      * apply Gt. apply in_app_or in Iv. apply in_or_app. cbn [In]. tauto.
      * apply Gu. eapply Permutation_in; eauto.
  - intros j J. assert (forall x, In x (ids t) -> x <> j) as Nj.
    { intros x X ->. apply (rep_below R) in X. cbn [h_next h_set] in J. rewrite Hn2 in J. cbn [h1 h_next h_set] in J. unfold nid in *. lia. }
    rewrite Un.
    + apply O. cbn [h_next h_set] in J. rewrite Hn2 in J. exact J.
    + intros ->. apply (Nj n); auto.
    + intros ->. apply (Nj i); auto.
    + intros X. apply Ru, Ut in X. apply (Nj j); [|reflexivity]. eapply subtree_ids; [exact S1|]. right. exact X.
  - intros j J1 J2. cbn [ids In] in J2. apply Un.
    + intros ->. apply J2. left. reflexivity.
    + intros ->. apply J2. right. apply (rid_in_kids g). exact Ig.
    + intros X. apply J2. right. apply Ut, Ru. exact X.
  - intros q' Hq'. pose proof (holds_root _ _ _ _ _ Hq') as C'. rewrite Cn in C'. injection C' as <-.
    apply holds_node.
    + rewrite h_set_other by exact Nni. rewrite Cb, (map_app rid (a ++ b) us'). reflexivity.
    + intros v Iv. apply in_app_or in Iv. destruct Iv as [Iv|Iv].
      * assert (In v ts) as Iv' by (unfold ts; apply in_app_or in Iv; apply in_or_app; cbn [In]; tauto).
        apply (holds_ext h); [eapply holds_kid; [exact Hs|exact Iv']|]. intros j J.
        assert (In j (flat_map ids (a ++ b))) as Jab by (apply in_flat_map; eauto). apply Un.
        -- intros ->. apply Nn, At. exact Jab.
        -- intros ->. apply (Dab i); [left; reflexivity|exact Jab].
        -- intros X. apply (Dab j); [right; apply Ru; exact X|exact Jab].
      * assert (In v us) as Iv' by (eapply Permutation_in; eauto).
        pose proof (holds_kid _ _ _ _ _ _ (Hv g Ig) Iv') as Hvu. pose proof (nodup_flat_map_in _ _ _ Du Iv') as Dv.
        apply (holds_reparent h1 _ (Some i)); [exact Hvu|exact Dv| |].
        -- rewrite h_set_other by (intros X; apply Ni; rewrite <- X; apply rid_in_kids; exact Iv').
           apply Cc; [apply in_map; exact Iv|]. apply (holds_top _ _ _ Hvu).
        -- intros j J1 J2. assert (In j (flat_map ids us)) as Ju by (apply in_flat_map; eauto).
           rewrite h_set_other by (intros ->; contradiction). apply Co.
           ++ intros ->. contradiction.
           ++ intros ->. apply Nn, Ut. exact Ju.
           ++ intros X. apply Iu in X. apply in_map_iff in X. destruct X as (w & Ew & Iw).
              destruct (in_split _ _ Iv') as (l1 & l2 & El). rewrite El in Iw, Du. rewrite flat_map_app in Du. cbn [flat_map] in Du.
              apply nodup_app in Du. destruct Du as (_ & D3 & X1). apply nodup_app in D3. destruct D3 as (_ & _ & X2).
              apply in_app_or in Iw. destruct Iw as [Iw|[Iw|Iw]].
              ** apply (X1 j); [rewrite <- Ew; apply rid_in_kids; exact Iw|apply in_or_app; left; exact J1].
              ** subst w. congruence.
              ** apply (X2 j); [exact J1|rewrite <- Ew; apply rid_in_kids; exact Iw].
  - cbn [ids]. assert (NoDup (flat_map ids (a ++ b) ++ flat_map ids us)) as Dall.
    { apply nodup_app. split; [exact Dabn|]. split; [exact Du|]. intros x X Y. apply (Dab x); [right; exact Y|exact X]. }
    constructor.
    + intros X. eapply Permutation_in in X; [|apply (Pf nid ids)]. apply in_app_or in X.
      destruct X as [X|X]; apply Nn; [apply At|apply Ut]; exact X.
    + eapply Permutation_NoDup; [apply Permutation_sym; apply (Pf nid ids)|exact Dall].
  - cbn [ids]. intros j [<-|J]; [left; left; reflexivity|]. left. right.
    eapply Permutation_in in J; [|apply (Pf nid ids)]. apply in_app_or in J. destruct J as [J|J]; [apply At|apply Ut]; exact J.
  - reflexivity.
  - intros A Pa. cbn [m_features with_relationships named]. rewrite Pa. cbn [named]. apply Permutation_app_tail. apply Permutation_app_head.
    rewrite (Pf _ named). unfold ts. rewrite !flat_map_app. cbn [flat_map named g app]. rewrite <- app_assoc.
    apply Permutation_app_head. apply Permutation_app_comm.
  - apply (rep_keys R).
  - intros G Pg. cbn [m_relationships with_relationships groups].
    assert (Permutation (m_relationships m) (i :: (groups (Node n d ((a ++ b) ++ us')) ++ G))) as Pi.
    { rewrite Pg. cbn [groups]. destruct d as [x|]; [|discriminate]. cbn [app]. rewrite (Pf _ groups). unfold ts.
      rewrite !flat_map_app. cbn [flat_map groups g app]. rewrite <- !app_assoc. cbn [app].
      rewrite <- Permutation_middle. cbn [app]. constructor. rewrite <- !app_assoc. apply Permutation_app_head.
      rewrite !app_assoc. apply Permutation_app_tail. apply Permutation_app_comm. }
    assert (NoDup (m_relationships m)) as Dm.
    { eapply Permutation_NoDup; [apply Permutation_sym; apply (rep_groups _ _ _ R)|]. apply nodup_groups. apply (rep_ids _ _ _ R). }
    assert (NoDup (i :: (groups (Node n d ((a ++ b) ++ us')) ++ G))) as Dm' by (eapply Permutation_NoDup; eauto).
    apply NoDup_cons_iff in Dm'. destruct Dm' as (Ni' & Dm').
    apply NoDup_Permutation; [apply nodup_set_remove; exact Dm|exact Dm'|]. intros x. rewrite in_set_remove.
    assert (In x (m_relationships m) <-> In x (i :: (groups (Node n d ((a ++ b) ++ us')) ++ G))) as Ix
      by (split; apply Permutation_in; [|apply Permutation_sym]; exact Pi).
    rewrite Ix. cbn [In]. split; [intros ([X|X] & Y); [congruence|exact X]|].
    intros X. split; [right; exact X|]. intros ->. contradiction.
  - cbn [roots]. apply Permutation_app_head. rewrite (Pf _ roots). unfold ts. rewrite !flat_map_app. cbn [flat_map roots g app].
    rewrite <- app_assoc. apply Permutation_app_head. apply Permutation_app_comm.
Qed.

End Grouping.
