(** Histories of modifications keep the model a tree. *)
From Coq Require Import List ZArith Arith Bool Ascii Permutation Lia.
From Verif Require Import Text TextProofs ConstraintModel ConstraintSpec SourceRangeModel FeatureTreeModel FeatureTreeSpec
  FeatureTreeProofs FeatureOrderProofs FeatureTransactionModel FeatureEditSpec FeatureEditProofs FeatureOpsProofs FeatureRemoveProofs
  FeatureGroupProofs FeatureDataProofs FeatureRootProofs.
Import ListNotations.

(** ** The new model *)
Lemma represents_new h name root path commit : heap_ok h ->
  represents (fst (new_model_with h name root path commit)) (snd (new_model_with h name root path commit))
    (Node (h_next h) (NFeature (root_feature root)) []).
Proof.
  intros O. unfold new_model_with, h_alloc. cbn [fst snd]. constructor; cbn.
  - intros j J. cbn. destruct (Nat.eqb_spec j (h_next h)) as [->|N]; [cbn in J; lia|]. apply O. cbn in J. lia.
  - apply holds_node; [cbn; rewrite Nat.eqb_refl; reflexivity|intros t []].
  - repeat constructor. intros [].
  - reflexivity.
  - reflexivity.
  - reflexivity.
  - repeat constructor. intros [].
  - reflexivity.
  - constructor; [cbn; lia|constructor].
Qed.

(** ** Trees are tree shaped *)
Lemma feature_owner s t : subtree s t -> is_feature (rdata s) = true ->
  In s (tops is_feature t) \/ exists u, subtree u t /\ is_feature (rdata u) = true /\ In s (near (kids u)).
Proof.
  intros S1 F. induction S1 as [|n d ts t It S1 IH].
  - left. destruct s as [n d ts]. cbn [rdata] in F. cbn [tops]. rewrite F. left. reflexivity.
  - destruct IH as [I|(u & U & Fu & I)].
    + assert (In s (near ts)) as I' by (apply in_flat_map; eauto).
      destruct (is_feature d) eqn:Fd.
      * right. exists (Node n d ts). split; [constructor|]. split; [exact Fd|exact I'].
      * left. cbn [tops]. rewrite Fd. exact I'.
    + right. exists u. split; [eapply sub_kid; eauto|]. auto.
Qed.

Lemma rep_owner h m t s : represents h m t -> subtree s t -> is_feature (rdata s) = true -> rid s <> rid t ->
  exists u, subtree u t /\ is_feature (rdata u) = true /\ In s (near (kids u)) /\ parent_feature h (rid s) = Some (Some (rid u)).
Proof.
  intros R S1 F N. destruct (feature_owner s t S1 F) as [I|(u & U & Fu & I)].
  - exfalso. destruct (rep_top_data R) as (f & Ef & _). destruct t as [n d ts]. cbn [rdata] in Ef. subst d.
    cbn [tops is_feature] in I. destruct I as [<-|[]]. apply N. reflexivity.
  - exists u. split; [exact U|]. split; [exact Fu|]. split; [exact I|].
    destruct (holds_sub h None t u (rep_holds _ _ _ R) U) as (q & Hu).
    pose proof (subtree_nodup u t U (rep_ids _ _ _ R)) as Du. destruct u as [n d ts].
    exact (parent_feature_near h q n d ts s (rep_ok _ _ _ R) Hu Du Fu I).
Qed.

Lemma represents_tree_shaped h m t : represents h m t -> tree_shaped h m.
Proof.
  intros R. pose proof (rep_holds _ _ _ R) as H. pose proof (rep_ids _ _ _ R) as D. destruct (rep_top_data R) as (f0 & Ef0 & Kf0).
  assert (forall i, In i (nodes m) <-> In i (ids t)) as Nd by (intros i; apply (rep_node R)).
  constructor.
  - apply (rep_keys R).
  - unfold nodes. eapply Permutation_NoDup; [|exact D]. rewrite (ids_named_groups t).
    apply Permutation_app; [apply Permutation_map; apply Permutation_sym; apply (rep_features _ _ _ R)|apply Permutation_sym; apply (rep_groups _ _ _ R)].
  - intros s i I. eapply Permutation_in in I; [|apply (rep_features _ _ _ R)]. apply named_subtree in I.
    destruct I as (u & f & U & <- & Ef & En). exists f. split; [eapply rep_feature_at; eauto|exact En].
  - intros i I. eapply Permutation_in in I; [|apply (rep_groups _ _ _ R)]. apply groups_subtree in I.
    destruct I as (u & k & U & <- & Ek). destruct (rep_cell R u U) as (q & C). eexists _, k. split; [exact C|exact Ek].
  - exists (rid t). eexists _, f0. split; [apply (rep_root _ _ _ R)|]. split.
    + apply (rep_feature_node R). exists t, f0. split; [constructor|]. split; [reflexivity|exact Ef0].
    + split; [apply (rep_top R)|]. cbn [n_parent n_data]. auto.
  - intros i f I Fi K. apply (rep_feature_node R) in I. destruct I as (s & x & S1 & <- & Es). rewrite (rep_root _ _ _ R). f_equal.
    destruct (Nat.eq_dec (rid s) (rid t)) as [E|N]; [symmetry; exact E|]. exfalso.
    pose proof (rep_feature_at h m t s x R S1 Es) as Fx.
    apply (rep_other_kind R s x S1 Es N). congruence.
  - intros i I Ni. apply Nd in I. destruct (ids_subtree i t I) as (s & S1 & <-).
    assert (rid s <> rid t) as N by (intros E; apply Ni; rewrite (rep_root _ _ _ R), E; reflexivity).
    destruct (subtree_proper s t D S1 N) as (u & U & Iu). destruct (rep_cell R u U) as (q & C).
    eexists _, (rid u), _. split; [apply (rep_kid R u s U Iu)|]. split; [reflexivity|].
    split; [apply Nd; eapply subtree_ids; [exact U|apply rid_in_ids]|]. split; [exact C|]. cbn [n_edges].
    pose proof (subtree_nodup u t U D) as Du. destruct u as [n d ts]. cbn [kids ids] in *. apply NoDup_cons_iff in Du. destruct Du as (_ & Du).
    pose proof (nodup_rids ts Du) as Dr. pose proof (NoDup_count_occ' Nat.eq_dec (map rid ts)) as Q.
    apply Q; [exact Dr|]. apply in_map. exact Iu.
  - intros p cp i I Cp Ii. apply Nd in I. destruct (ids_subtree p t I) as (u & U & <-).
    destruct (rep_cell R u U) as (q & C). rewrite Cp in C. injection C as ->. cbn [n_edges] in Ii.
    apply in_map_iff in Ii. destruct Ii as (s & <- & Is). split.
    + apply Nd. eapply subtree_ids; [exact U|]. destruct u as [n d ts]. right. apply rid_in_kids. exact Is.
    + eexists. split; [apply (rep_kid R u s U Is)|reflexivity].
  - intros i r I Er. apply Nd in I. rewrite (rep_root _ _ _ R) in Er. injection Er as <-.
    eapply subtree_reaches; [exact H|constructor|exact I].
Qed.

(** ** Trees are consistent *)
Lemma option_all_true {A} (p : A -> option bool) l : (forall a, In a l -> p a = Some true) -> option_all p l = Some true.
Proof.
  induction l as [|a l IH]; [reflexivity|]. intros E. unfold option_all in *. cbn [fold_right]. rewrite E by (left; reflexivity).
  cbn [bind]. rewrite IH by (intros b I; apply E; right; exact I). reflexivity.
Qed.

Lemma count_roots h : forall t p, holds h p t ->
  length (filter (fun e => match feature_at h (snd e) with Some f => is_root_kind f | None => false end) (named t)) = length (roots t).
Proof.
  induction t as [n d ts IH] using tree_ind'. intros p H. rewrite Forall_forall in IH. cbn [named roots]. rewrite filter_app, !app_length. f_equal.
  - destruct d as [f|k]; [|reflexivity]. cbn [filter snd]. unfold feature_at. rewrite (holds_root _ _ _ _ _ H). cbn [bind n_data].
    destruct (is_root_kind f); reflexivity.
  - assert (forall t, In t ts -> holds h (Some n) t) as Hk by (intros t It; eapply holds_kid; eauto). clear H.
    induction ts as [|t ts IHt]; [reflexivity|]. cbn [flat_map]. rewrite filter_app, !app_length.
    rewrite (IH t (or_introl eq_refl) (Some n)) by (apply Hk; left; reflexivity). f_equal. apply IHt.
    + intros x Ix. apply IH. right. exact Ix.
    + intros x Ix. apply Hk. right. exact Ix.
Qed.

Lemma permutation_filter {A} (p : A -> bool) l r : Permutation l r -> Permutation (filter p l) (filter p r).
Proof.
  intros P. induction P as [|a l r P IH|a b l|l r s P1 IH1 P2 IH2].
  - constructor.
  - cbn [filter]. destruct (p a); [constructor|]; exact IH.
  - cbn [filter]. destruct (p a), (p b); try reflexivity. constructor.
  - eapply Permutation_trans; eauto.
Qed.

Lemma collect_features h l : (forall e, In e l -> exists f, feature_at h (snd e) = Some f) ->
  exists fs, fold_right (fun e o => let* f := feature_at h (snd e) in let* l := o in Some (f :: l)) (Some []) l = Some fs /\
    length (filter is_root_kind fs) =
    length (filter (fun e : text * nid => match feature_at h (snd e) with Some f => is_root_kind f | None => false end) l).
Proof.
  induction l as [|e l IH]; intros A.
  - exists []. split; reflexivity.
  - destruct (A e (or_introl eq_refl)) as (f & Ff). destruct IH as (fs & E & L); [intros x I; apply A; right; exact I|].
    exists (f :: fs). cbn [fold_right filter]. rewrite Ff, E. cbn [bind]. split; [reflexivity|]. destruct (is_root_kind f); cbn [length]; rewrite L; reflexivity.
Qed.

Lemma represents_consistent h m t : represents h m t -> consistent h m = Some true.
Proof.
  intros R. unfold consistent. destruct (rep_top_data R) as (f0 & Ef0 & Kf0).
  assert (forall e, In e (m_features m) -> exists s x, subtree s t /\ rid s = snd e /\ rdata s = NFeature x /\ feature_at h (snd e) = Some x) as A.
  { intros (k & i) I. eapply Permutation_in in I; [|apply (rep_features _ _ _ R)]. apply named_subtree in I.
    destruct I as (u & f & U & <- & Ef & En). exists u, f. cbn [snd]. split; [exact U|]. split; [reflexivity|]. split; [exact Ef|].
    eapply rep_feature_at; eauto. }
  assert (one_root h m = Some true) as E1.
  { unfold one_root. rewrite (rep_root _ _ _ R), (rep_feature_at h m t t f0 R (sub_refl t) Ef0). cbn [bind].
    destruct (collect_features h (m_features m)) as (fs & E & L).
    - intros e I. destruct (A e I) as (s & x & _ & _ & _ & X). eauto.
    - rewrite E. cbn [bind]. rewrite L, (Permutation_length (permutation_filter _ _ _ (rep_features _ _ _ R))).
      rewrite (count_roots h t None (rep_holds _ _ _ R)), (rep_roots _ _ _ R). unfold is_root_kind. rewrite Kf0. reflexivity. }
  assert (every_feature_has_parent h m = Some true) as E2.
  { apply option_all_true. intros e I. destruct (A e I) as (s & x & S1 & Es & Ed & X). rewrite X. cbn [bind].
    destruct (is_root_kind x) eqn:K; [reflexivity|]. destruct (rep_owner h m t s R S1) as (u & _ & _ & _ & P).
    - rewrite Ed. reflexivity.
    - intros E. assert (s = t) as -> by (apply (subtree_unique t); auto; [apply (rep_ids _ _ _ R)|constructor]).
      unfold is_root_kind in K. rewrite Ef0 in Ed. injection Ed as <-. rewrite Kf0 in K. discriminate.
    - rewrite <- Es, P. reflexivity. }
  assert (parents_list_children h m = Some true) as E3.
  { apply option_all_true. intros e I. destruct (A e I) as (s & x & S1 & Es & Ed & X). rewrite X. cbn [bind].
    destruct (is_root_kind x) eqn:K; [reflexivity|]. destruct (subtree_proper s t (rep_ids _ _ _ R) S1) as (u & U & Iu).
    - intros E. assert (s = t) as -> by (apply (subtree_unique t); auto; [apply (rep_ids _ _ _ R)|constructor]).
      unfold is_root_kind in K. rewrite Ef0 in Ed. injection Ed as <-. rewrite Kf0 in K. discriminate.
    - rewrite <- Es, (rep_kid R u s U Iu). cbn [bind n_parent]. destruct (rep_cell R u U) as (q & C). rewrite C. cbn [bind n_edges].
      f_equal. apply mem_spec. apply in_map. exact Iu. }
  rewrite E1. cbn [bind negb]. rewrite E2. cbn [bind negb]. exact E3.
Qed.

(** ** One step *)
Lemma tops_nearest h is_t : forall t q u, holds h q t -> In u (flat_map (tops is_t) (kids t)) -> exists k, nearest h is_t (rid t) k (rid u).
Proof.
  induction t as [n d ts IH] using tree_ind'. intros q u H I. cbn [kids rid] in *. rewrite Forall_forall in IH.
  apply in_flat_map in I. destruct I as (v & Iv & I). pose proof (holds_root _ _ _ _ _ H) as C.
  pose proof (holds_kid _ _ _ _ _ _ H Iv) as Hv. pose proof (holds_top _ _ _ Hv) as Cv.
  destruct (is_t (rdata v)) eqn:E.
  - exists 1. assert (u = v) as ->.
    { destruct v as [a b c]. cbn [tops rdata] in *. rewrite E in I. destruct I as [<-|[]]. reflexivity. }
    eapply near_here; [exact C|cbn [n_edges]; apply in_map; exact Iv|exact Cv|exact E].
  - destruct (IH v Iv (Some n) u Hv) as (k & K).
    { destruct v as [a b c]. cbn [tops rdata kids] in *. rewrite E in I. exact I. }
    exists (S k). eapply near_below; [exact C|cbn [n_edges]; apply in_map; exact Iv|exact Cv|exact E|exact K].
Qed.

Lemma nearest_pos h is_t n k x : nearest h is_t n k x -> 1 <= k.
Proof. intros N. induction N; lia. Qed.

Lemma no_own_relationship h m t s : represents h m t -> subtree s t -> ~ has_relationship h (rid s) -> own_groups (kids s) = [].
Proof.
  intros R S1 N. apply own_groups_none. apply Forall_forall. intros v Iv. destruct (is_feature (rdata v)) eqn:F; [reflexivity|].
  exfalso. apply N. exists (rid v). destruct (rep_cell R s S1) as (q & C).
  eapply near_here; [exact C|cbn [n_edges]; apply in_map; exact Iv|apply (rep_kid R s v S1 Iv)|]. cbn [n_data].
  unfold is_relationship. rewrite F. reflexivity.
Qed.

Lemma only_own_relationships h m t s : represents h m t -> subtree s t -> is_feature (rdata s) = true ->
  (forall k x, nearest h is_relationship (rid s) k x -> k = 1) ->
  flat_map (tops is_relationship) (kids s) = [] \/
  exists a i k us b, kids s = a ++ Node i (NRelationship k) us :: b /\
    flat_map (tops is_relationship) (kids s) = [Node i (NRelationship k) us].
Proof.
  intros R S1 F N. destruct (holds_sub h None t s (rep_holds _ _ _ R) S1) as (q & Hs).
  pose proof (subtree_nodup s t S1 (rep_ids _ _ _ R)) as Ds.
  assert (grouped s) as Gs by (eapply grouped_sub; [exact S1|apply (rep_shape _ _ _ R)]).
  (* the nearest relationships are children *)
  assert (forall u, In u (flat_map (tops is_relationship) (kids s)) -> In u (own_groups (kids s))) as K.
  { intros u I. destruct (tops_nearest h is_relationship s q u Hs I) as (k & Nk). pose proof (N k _ Nk) as ->.
    assert (is_relationship (rdata u) = true) as Fu.
    { apply in_flat_map in I. destruct I as (v & _ & I). apply (tops_subtree _ _ _ I). }
    assert (subtree u s) as Su.
    { apply in_flat_map in I. destruct I as (v & Iv & I). destruct s as [n d ts]. eapply sub_kid; [exact Iv|]. apply (tops_subtree _ _ _ I). }
    inversion Nk as [n0 c0 x0 cx0 C0 I0 Cx0 T0 E1 E2 E3|n0 c0 y0 cy0 k0 x0 C0 I0 Cy0 T0 N0 E1 E2 E3]; subst.
    - rewrite (holds_top _ _ _ Hs) in C0. injection C0 as <-. cbn [n_edges] in I0. apply in_map_iff in I0. destruct I0 as (w & Ew & Iw).
      assert (w = u) as ->.
      { apply (subtree_unique s); auto. destruct s as [n d ts]. apply subtree_kid. exact Iw. }
      apply filter_In. split; assumption.
    - apply nearest_pos in N0. lia. }
  destruct s as [n d ts]. cbn [rdata kids rid] in *. destruct d as [x|]; [|discriminate].
  inversion Gs as [? ? ? L1 Gt E0|]; subst.
  destruct (own_groups_le1 ts L1) as [E|(g & E)].
  - left. destruct (flat_map (tops is_relationship) ts) as [|u l] eqn:El; [reflexivity|]. exfalso.
    specialize (K u). rewrite E in K. apply K. left. reflexivity.
  - right. assert (In g (own_groups ts)) as Ig by (rewrite E; left; reflexivity).
    apply filter_In in Ig. destruct Ig as (Ig & Rg). destruct (in_split _ _ Ig) as (a & b & ->).
    destruct g as [i dg us]. cbn [rdata] in Rg. unfold is_relationship in Rg. destruct dg as [|k]; [discriminate|].
    exists a, i, k, us, b. split; [reflexivity|].
    cbn [ids] in Ds. apply NoDup_cons_iff in Ds. destruct Ds as (_ & Ds).
    rewrite flat_map_app in Ds. cbn [flat_map] in Ds. apply nodup_app in Ds. destruct Ds as (_ & D3 & X1). apply nodup_app in D3. destruct D3 as (_ & _ & X2).
    assert (forall v, In v a \/ In v b -> tops is_relationship v = []) as Z.
    { intros v Iv. destruct (tops is_relationship v) as [|u l] eqn:El; [reflexivity|]. exfalso.
      assert (In u (tops is_relationship v)) as Iu by (rewrite El; left; reflexivity).
      assert (In u [Node i (NRelationship k) us]) as Iu'.
      { rewrite <- E. apply K. apply in_flat_map. exists v. split; [apply in_or_app; cbn [In]; tauto|exact Iu]. }
      destruct Iu' as [<-|[]]. assert (In i (ids v)) as Ii by (eapply tops_ids; apply in_map with (f := rid) in Iu; exact Iu).
      destruct Iv as [Iv|Iv].
      - apply (X1 i); [apply in_flat_map; eauto|left; reflexivity].
      - apply (X2 i); [left; reflexivity|apply in_flat_map; eauto]. }
    rewrite flat_map_app. cbn [flat_map tops is_relationship is_feature negb app].
    assert (forall l, (forall v, In v l -> tops is_relationship v = []) -> flat_map (tops is_relationship) l = []) as Zl.
    { induction l as [|v l IH]; [reflexivity|]. intros Z'. cbn [flat_map]. rewrite Z' by (left; reflexivity). apply IH. intros w Iw. apply Z'. right. exact Iw. }
    rewrite !Zl; [reflexivity| |]; intros v Iv; apply Z; auto.
Qed.

Lemma represents_rest h m m' t : represents h m t -> m_root m' = m_root m -> m_features m' = m_features m ->
  m_relationships m' = m_relationships m -> represents h m' t.
Proof. intros [] E1 E2 E3. constructor; rewrite ?E1, ?E2, ?E3; assumption. Qed.

Lemma connect_names m cl id : forall c pos h c' p h' b,
  connect m cl id c pos h = Some (c', p, h', b) ->
  (forall s i, get_feature m s = Some i -> exists f, feature_at h i = Some f) ->
  exists names, map (cref_name h) (leaves c) = map Some names.
Proof.
  induction c as [o l IHl r IHr|o e IH|n|x]; intros pos h c' p h' b E G; cbn [leaves connect] in *.
  - destruct (connect m cl id l pos h) as [[[[l' p1] h1] b1]|] eqn:E1; [|discriminate]. cbn [bind] in E.
    destruct (connect m cl id r p1 h1) as [[[[r' p2] h2] b2]|] eqn:E2; [|discriminate].
    destruct (IHl _ _ _ _ _ _ E1 G) as (na & Na). destruct (connect_ok m cl id l pos h na Na G) as (h1' & E1' & N1 & R1).
    rewrite E1 in E1'. injection E1' as _ _ <- _.
    assert (forall r0, cref_name h1 r0 = cref_name h r0) as Cn.
    { intros r0. eapply cref_name_relabelled; [exact R1|]. intros i d. apply enlist_at_names. }
    destruct (IHr _ _ _ _ _ _ E2) as (nb & Nb).
    + intros s i Gs. destruct (G s i Gs) as (f & Ff). unfold feature_at in *. rewrite R1.
      destruct (h_cells h i) as [[d pp e]|]; [|discriminate]. cbn in *. destruct d; [|discriminate]. eexists. reflexivity.
    + exists (na ++ nb). rewrite !map_app, Na. f_equal. rewrite <- (map_ext _ _ Cn). exact Nb.
  - destruct (connect m cl id e pos h) as [[[[e' p1] h1] b1]|] eqn:E1; [|discriminate]. eapply IH; eauto.
  - exists []. reflexivity.
  - destruct (cref_name h x) as [s|] eqn:Ex; [|discriminate]. exists [s]. cbn [map]. rewrite Ex. reflexivity.
Qed.

Section Steps.
Variable ord : list nid -> list nid.
Hypothesis ord_ok : is_order ord.

Lemma step_represents h m t o h1 m1 e :
  represents h m t -> allowed (h, m) o -> exec ord o (h, m) = Some ((h1, m1), e) -> exists t', represents h1 m1 t'.
Proof.
  intros R A E. destruct o as [f p|r rec|k r|r|r l|r l|k c|s|s|s|s|rp rc]; cbn [allowed] in A.
  - destruct A as (K & P). destruct (get_feature m (f_name f)) as [i|] eqn:G.
    + rewrite (exec_add_feature_present ord h m f p i G) in E. injection E as <- <- <-. eauto.
    + assert (exists s, subtree s t /\ is_feature (rdata s) = true /\ (p = Some (rid s) \/ p = None /\ s = t)) as (s & S1 & F & Ps).
      { destruct p as [q|].
        - specialize (P q eq_refl). apply (rep_feature_node R) in P. destruct P as (s & x & S1 & Es & F). exists s. subst q. rewrite F. auto.
        - exists t. split; [constructor|]. destruct (rep_top_data R) as (f0 & -> & _). split; [reflexivity|]. right. auto. }
      destruct (exec_add_feature_ok ord h m t f p s R K G S1 F Ps) as (h' & m' & E' & R' & _). rewrite E' in E. injection E as <- <- <-. eauto.
  - destruct (resolve m r) as [i|] eqn:Er.
    + destruct (rep_resolve R r i A Er) as (s & x & S1 & Es & Ed). subst i. assert (is_feature (rdata s) = true) as F by (rewrite Ed; reflexivity).
      destruct (Nat.eq_dec (rid s) (rid t)) as [Et|Nt].
      * assert (s = t) as -> by (apply (subtree_unique t); auto; [apply (rep_ids _ _ _ R)|constructor]).
        destruct rec; [rewrite (exec_remove_root ord ord_ok h m t r true R Er (or_introl eq_refl)) in E; discriminate|].
        destruct (near (kids t)) as [|v l] eqn:Nr.
        -- rewrite (exec_remove_root ord ord_ok h m t r false R Er (or_intror Nr)) in E. discriminate.
        -- rewrite (exec_remove_inner ord ord_ok h m t r t R Er S1) in E by (rewrite Nr; discriminate). injection E as <- <- <-. eauto.
      * destruct rec.
        -- destruct (exec_remove_recursive ord ord_ok h m t r s R Er S1 F Nt) as (h' & m' & E' & R' & _). rewrite E' in E. injection E as <- <- <-. eauto.
        -- destruct (near (kids s)) as [|v l] eqn:Nr.
           ++ destruct (exec_remove_leaf ord ord_ok h m t r s R Er S1 F Nt Nr) as (h' & m' & E' & R' & _). rewrite E' in E. injection E as <- <- <-. eauto.
           ++ rewrite (exec_remove_inner ord ord_ok h m t r s R Er S1) in E by (rewrite Nr; discriminate). injection E as <- <- <-. eauto.
    + rewrite (exec_remove_missing ord h m r rec Er) in E. injection E as <- <- <-. eauto.
  - destruct A as (A & N). destruct (resolve m r) as [i|] eqn:Er.
    + destruct (rep_resolve R r i A Er) as (s & x & S1 & Es & Ed). subst i. assert (is_feature (rdata s) = true) as F by (rewrite Ed; reflexivity).
      pose proof (no_own_relationship h m t s R S1 (N _ eq_refl)) as Og.
      destruct (exec_add_relationship_ok ord ord_ok h m t k r s R Er S1 F Og) as (h' & us & E' & _ & R' & _).
      rewrite E' in E. injection E as <- <- <-. eauto.
    + exfalso. cbn [exec] in E. unfold exec_add_relationship, store_relationship, h_alloc in E.
      replace (resolve _ r) with (resolve m r) in E by (destruct r; reflexivity). rewrite Er in E. discriminate.
  - destruct A as (A & N). destruct (resolve m r) as [i|] eqn:Er.
    + destruct (rep_resolve R r i A Er) as (s & x & S1 & Es & Ed). subst i. assert (is_feature (rdata s) = true) as F by (rewrite Ed; reflexivity).
      destruct (only_own_relationships h m t s R S1 F (fun k x => N _ k x eq_refl)) as [Z|(a & i & k & us & b & Ek & Et)].
      * exfalso. cbn [exec] in E. unfold exec_remove_relationship in E. rewrite Er in E.
        destruct (holds_sub h None t s (rep_holds _ _ _ R) S1) as (q & Hs). pose proof (subtree_nodup s t S1 (rep_ids _ _ _ R)) as Ds.
        destruct s as [n d ts]. cbn [rid kids] in *. unfold child_relationships in E.
        rewrite (get_children_tree ord is_relationship h q n d ts (rep_ok _ _ _ R) Hs Ds), Z in E. cbn [map bind] in E.
        rewrite (ord_nil ord ord_ok) in E. discriminate.
      * destruct s as [n d ts]. cbn [rid rdata kids] in *. subst ts.
        destruct (exec_remove_relationship_ok ord ord_ok h m t r n d a i k us b R Er S1 F Et) as (h' & m' & us' & E' & _ & _ & R' & _).
        rewrite E' in E. injection E as <- <- <-. eauto.
    + cbn [exec] in E. unfold exec_remove_relationship in E. rewrite Er in E. injection E as <- <- <-. eauto.
  - destruct (resolve m r) as [i|] eqn:Er; [|cbn [exec] in E; unfold exec_add_location in E; rewrite Er in E; discriminate].
    destruct (rep_resolve R r i A Er) as (s & f & S1 & Es & Ed). subst i.
    destruct (exec_location_ok ord h m t r s f true l (f_locations f ++ [l]) R Er S1 Ed eq_refl) as (h' & E' & R' & _).
    rewrite E' in E. injection E as <- <- <-. eauto.
  - destruct (resolve m r) as [i|] eqn:Er; [|cbn [exec] in E; unfold exec_remove_location in E; rewrite Er in E; discriminate].
    destruct (rep_resolve R r i A Er) as (s & f & S1 & Es & Ed). subst i.
    destruct (remove_location (f_locations f) l) as [ls|] eqn:El.
    + destruct (exec_location_ok ord h m t r s f false l ls R Er S1 Ed El) as (h' & E' & R' & _).
      rewrite E' in E. injection E as <- <- <-. eauto.
    + exfalso. cbn [exec] in E. unfold exec_remove_location in E. rewrite Er in E. cbn [bind] in E. unfold modify_feature in E.
      destruct (rep_cell R s S1) as (q & C). rewrite C in E. cbn [bind n_data] in E. rewrite Ed, El in E. discriminate.
  - assert (exists names, map (cref_name h) (leaves c) = map Some names) as (names & Ns).
    { cbn [exec] in E. unfold exec_add_constraint in E.
      destruct (connect _ _ _ _ _ _) as [[[[c' p] h'] b]|] eqn:Ec; [|discriminate].
      apply connect_names in Ec; [exact Ec|]. intros s i G. apply (rep_find R) in G. apply named_subtree in G.
      destruct G as (v & f & V & Ei & Ef & En). subst i. exists f. exact (rep_feature_at h m t v f R V Ef). }
    destruct (exec_add_constraint_ok ord h m t k c names R Ns) as (h' & c' & E' & _ & _ & _ & R').
    rewrite E' in E. injection E as <- <- <-. eauto.
  - injection E as <- <- <-. exists t. eapply represents_rest; eauto.
  - injection E as <- <- <-. exists t. eapply represents_rest; eauto.
  - injection E as <- <- <-. exists t. eapply represents_rest; eauto.
  - destruct (get_feature m s) as [i|] eqn:G.
    + destruct (Nat.eq_dec i (rid t)) as [->|N].
      * destruct (rep_top_data R) as (f0 & Ef & _). rewrite (exec_set_root_same ord h m t s f0 R Ef) in E.
        -- injection E as <- <- <-. eauto.
        -- apply (rep_find R) in G. apply named_subtree in G. destruct G as (v & f & V & Ei & Ev & En).
           assert (v = t) as -> by (apply (subtree_unique t); auto; [apply (rep_ids _ _ _ R)|constructor]). congruence.
      * rewrite (exec_set_root_present ord h m t s i R G N) in E. injection E as <- <- <-. eauto.
    + destruct (exec_set_root_ok ord h m t s R G) as (h' & m' & E' & R' & _). rewrite E' in E. injection E as <- <- <-. eauto.
  - destruct A as (Ap & Ac & N). cbn [exec] in E. unfold exec_add_child in E.
    destruct (resolve m rc) as [c|] eqn:Ec; [|injection E as <- <- <-; eauto].
    destruct (resolve m rp) as [p|] eqn:Ep; [|injection E as <- <- <-; eauto].
    destruct (rep_resolve R rc c Ac Ec) as (s & x & S1 & Es & Ed). subst c. assert (is_feature (rdata s) = true) as F by (rewrite Ed; reflexivity).
    pose proof (rep_resolve_node R rp p Ap Ep) as Ip. pose proof (N p (rid s) eq_refl eq_refl) as Nr.
    destruct (exec_add_child_ok ord h m t rp rc p s R Ep Ec Ip S1 F Nr) as (h' & E' & R' & _).
    cbn [exec] in E'. unfold exec_add_child in E'. rewrite Ec, Ep in E'. rewrite E' in E. injection E as <- <- <-. eauto.
Qed.

Lemma history_represents w w' : history ord w w' -> (exists t, represents (fst w) (snd w) t) -> exists t, represents (fst w') (snd w') t.
Proof.
  intros Hs. induction Hs as [w|w w1 w2 o e A E Hs IH]; [auto|]. intros (t & R). apply IH.
  destruct w as [h m], w1 as [h1 m1]. eapply step_represents; eauto.
Qed.

Lemma history_tree h w : heap_ok h -> history ord (new_model h) w -> tree_shaped (fst w) (snd w) /\ consistent (fst w) (snd w) = Some true.
Proof.
  intros O Hs. destruct (history_represents _ _ Hs) as (t & R).
  - eexists. exact (represents_new h _ _ _ _ O).
  - split; [eapply represents_tree_shaped; eauto|eapply represents_consistent; eauto].
Qed.
End Steps.
