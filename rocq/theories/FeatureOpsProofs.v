(** The effect of every modification on a model that is a tree. *)
From Coq Require Import List ZArith Arith Bool Ascii Permutation Lia.
From Verif Require Import Text TextProofs ConstraintModel SourceRangeModel FeatureTreeModel FeatureTreeSpec FeatureTreeProofs
  FeatureTransactionModel FeatureEditSpec FeatureEditProofs.
Import ListNotations.

Lemma represents_edit h m t s g h' m' :
  represents h m t -> subtree s t -> rid (g s) = rid s ->
  is_feature (rdata (g s)) = is_feature (rdata s) -> grouped (g s) -> heap_ok h' ->
  (forall i, In i (ids t) -> ~ In i (ids s) -> h_cells h' i = h_cells h i) ->
  (forall q, holds h q s -> holds h' q (g s)) ->
  NoDup (ids (g s)) -> (forall i, In i (ids (g s)) -> In i (ids s) \/ ~ In i (ids t)) ->
  m_root m' = m_root m ->
  (forall A, Permutation (m_features m) (named s ++ A) -> Permutation (m_features m') (named (g s) ++ A)) ->
  NoDup (map fst (m_features m')) ->
  (forall G, Permutation (m_relationships m) (groups s ++ G) -> Permutation (m_relationships m') (groups (g s) ++ G)) ->
  Permutation (roots (g s)) (roots s) ->
  represents h' m' (edit (rid s) g t).
Proof.
  intros [O H D Rt Rs Rf Rn Rg Sh] S1 Rid Ft Gs O' Fr Hg Dg Ig Rt' Rf' Rn' Rg' Rr.
  destruct (edit_frame None t s D S1) as (q & I & A & G & R & _ & _ & Pi & Pn & Pg & Pr & Hq & E).
  destruct (E g Rid) as (Er & Ei & En & Eg & Ert & Eh).
  assert (NoDup (ids s ++ I)) as Ds by (eapply Permutation_NoDup; eauto).
  apply nodup_app in Ds. destruct Ds as (Ds & DI & Dx).
  assert (Permutation (m_features m') (named (edit (rid s) g t))) as Pf.
  { rewrite En. apply Rf'. rewrite Rf. exact Pn. }
  constructor.
  - exact O'.
  - apply (Eh h); [exact H| |apply Hg; apply Hq; exact H].
    intros i Ii. apply Fr.
    + eapply Permutation_in; [apply Permutation_sym; exact Pi|]. apply in_or_app. right. exact Ii.
    + intros Is. exact (Dx i Is Ii).
  - eapply Permutation_NoDup; [apply Permutation_sym; exact Ei|]. apply nodup_app. split; [exact Dg|]. split; [exact DI|].
    intros x X1 X2. destruct (Ig x X1) as [X3|X3]; [exact (Dx x X3 X2)|]. apply X3.
    eapply Permutation_in; [apply Permutation_sym; exact Pi|]. apply in_or_app. right. exact X2.
  - rewrite Rt', Rt, Er. reflexivity.
  - rewrite Er. apply Permutation_length_1_inv. rewrite <- Rs, Pr, Ert. apply Permutation_app_tail. apply Permutation_sym. exact Rr.
  - exact Pf.
  - eapply Permutation_NoDup; [apply Permutation_map; exact Pf|exact Rn'].
  - rewrite Eg. apply Rg'. rewrite Rg. exact Pg.
  - apply grouped_edit; assumption.
Qed.

(** ** Adding a feature *)
Lemma own_groups_app a b : own_groups (a ++ b) = own_groups a ++ own_groups b.
Proof. apply filter_app. Qed.

Lemma grouped_add_kid s u : grouped s -> is_feature (rdata u) = true -> grouped u -> grouped (add_kid u s).
Proof.
  intros G F U. unfold add_kid, with_kids. destruct s as [n d ts]. cbn [rid rdata kids].
  assert (is_relationship (rdata u) = false) as Ru by (unfold is_relationship; rewrite F; reflexivity).
  inversion G as [n0 f ts0 L K E|n0 k ts0 L K E]; subst.
  - apply grouped_feature.
    + rewrite own_groups_app. unfold own_groups at 2. cbn [filter]. rewrite Ru, app_nil_r. exact L.
    + apply Forall_app. split; [exact K|]. constructor; [exact U|constructor].
  - apply grouped_relationship.
    + apply Forall_app. split; [exact L|]. constructor; [exact F|constructor].
    + apply Forall_app. split; [exact K|]. constructor; [exact U|constructor].
Qed.

Lemma holds_add_kid h h' q s u :
  holds h q s -> NoDup (ids s) -> (forall i, In i (ids s) -> i <> rid s -> h_cells h' i = h_cells h i) ->
  h_cells h' (rid s) = Some (Cell (rdata s) q (map rid (kids s) ++ [rid u])) ->
  holds h' (Some (rid s)) u -> holds h' q (add_kid u s).
Proof.
  intros H D F C U. destruct s as [n d ts]. unfold add_kid, with_kids. cbn [rid rdata kids] in *. apply holds_node.
  - rewrite map_app. exact C.
  - intros t I. apply in_app_or in I. destruct I as [I|[<-|[]]]; [|exact U].
    apply (holds_ext h); [eapply holds_kid; eauto|]. intros i Ii. apply F.
    + eapply ids_kid; eauto.
    + intros ->. cbn [ids] in D. apply NoDup_cons_iff in D. destruct D as (N & _). apply N. apply in_flat_map. eauto.
Qed.

Lemma add_kid_ids u s : ids (add_kid u s) = ids s ++ ids u.
Proof.
  destruct s as [n d ts]. unfold add_kid, with_kids. cbn [ids rid rdata kids app]. rewrite flat_map_app. cbn [flat_map].
  rewrite app_nil_r. reflexivity.
Qed.
Lemma add_kid_named u s : named (add_kid u s) = named s ++ named u.
Proof.
  destruct s as [n d ts]. unfold add_kid, with_kids. cbn [named rid rdata kids]. rewrite flat_map_app. cbn [flat_map].
  rewrite app_nil_r, app_assoc. reflexivity.
Qed.
Lemma add_kid_groups u s : groups (add_kid u s) = groups s ++ groups u.
Proof.
  destruct s as [n d ts]. unfold add_kid, with_kids. cbn [groups rid rdata kids]. rewrite flat_map_app. cbn [flat_map].
  rewrite app_nil_r, app_assoc. reflexivity.
Qed.
Lemma add_kid_roots u s : roots (add_kid u s) = roots s ++ roots u.
Proof.
  destruct s as [n d ts]. unfold add_kid, with_kids. cbn [roots rid rdata kids]. rewrite flat_map_app. cbn [flat_map].
  rewrite app_nil_r, app_assoc. reflexivity.
Qed.

Lemma rep_unlisted h m t s i : represents h m t -> subtree s t -> ~ In i (ids t) -> ~ In i (map rid (kids s)).
Proof.
  intros R S1 N I. apply N. apply in_map_iff in I. destruct I as (u & <- & I). eapply subtree_ids; [exact S1|].
  destruct s as [n d ts]. eapply ids_kid; [exact I|apply rid_in_ids].
Qed.

Lemma add_feature_at h m t f s :
  represents h m t -> f_kind f <> FRoot -> get_feature m (f_name f) = None -> subtree s t -> is_feature (rdata s) = true ->
  exists h1 h2 m1, store_feature h m f = Some (h_next h, h1, m1) /\ link h1 (rid s) (h_next h) = Some h2 /\
    represents h2 m1 (edit (rid s) (add_kid (Node (h_next h) (NFeature f) [])) t) /\
    m1 = with_features m (m_features m ++ [(f_name f, h_next h)]) /\ h_next h2 = S (h_next h) /\
    (forall j, j <> h_next h -> j <> rid s -> h_cells h2 j = h_cells h j).
Proof.
  intros R K N S1 F.
  destruct (rep_cell R s S1) as (q & C).
  assert (In (rid s) (ids t)) as Is by (eapply subtree_ids; [exact S1|apply rid_in_ids]).
  assert (rid s <> (h_next h)) as Ne by (intros E; apply (rep_fresh R); rewrite <- E; exact Is).
  unfold store_feature. rewrite N. cbn [h_alloc]. eexists _, _, _. split; [reflexivity|].
  unfold link. rewrite (set_parent_some _ _ _ (Cell (NFeature f) None [])) by (cbn [h_cells]; rewrite Nat.eqb_refl; reflexivity).
  cbn [bind]. rewrite (add_edge_some _ _ _ (Cell (rdata s) q (map rid (kids s)))).
  2:{ rewrite h_set_other by exact Ne. cbn [h_cells]. apply Nat.eqb_neq in Ne. rewrite Ne. exact C. }
  split; [reflexivity|]. split; [|split; [reflexivity|split; [reflexivity|]]].
  2:{ intros j J1 J2. rewrite h_set_other by exact J2. rewrite h_set_other by exact J1. cbn [h_cells].
      apply Nat.eqb_neq in J1. rewrite J1. reflexivity. }
  set (u := Node (h_next h) (NFeature f) []).
  pose proof (subtree_nodup s t S1 (rep_ids _ _ _ R)) as Ds.
  apply (represents_edit h m); try assumption.
  - reflexivity.
  - reflexivity.
  - apply grouped_add_kid; [eapply grouped_sub; [exact S1|apply (rep_shape _ _ _ R)]|reflexivity|].
    apply grouped_feature; [apply Nat.le_0_l|constructor].
  - intros j J. cbn [h_next h_set] in J. rewrite h_set_other by (pose proof (rep_below R _ Is); lia).
    rewrite h_set_other by (lia). cbn [h_cells].
    destruct (Nat.eqb_spec j (h_next h)) as [E|_]; [lia|]. apply (rep_ok _ _ _ R). lia.
  - intros j J1 J2. rewrite h_set_other by (intros ->; apply J2; apply rid_in_ids).
    assert (j <> (h_next h)) as Ni by (intros ->; apply (rep_fresh R); exact J1).
    rewrite h_set_other by exact Ni. cbn [h_cells]. apply Nat.eqb_neq in Ni. rewrite Ni. reflexivity.
  - intros q' Hs. apply (holds_add_kid h); [exact Hs|exact Ds| | |].
    + intros j J1 J2. rewrite h_set_other by exact J2.
      assert (j <> (h_next h)) as Ni by (intros ->; apply (rep_fresh R); eapply subtree_ids; eauto).
      rewrite h_set_other by exact Ni. cbn [h_cells]. apply Nat.eqb_neq in Ni. rewrite Ni. reflexivity.
    + rewrite h_set_same. cbn [n_data n_parent n_edges]. rewrite set_insert_new.
      2:{ apply (rep_unlisted h m t); [exact R|exact S1|apply (rep_fresh R)]. }
      pose proof (holds_top _ _ _ Hs) as C'. rewrite C in C'. injection C' as ->. reflexivity.
    + apply holds_node; [|intros x []]. cbn [map]. rewrite h_set_other by (intros E; apply Ne; symmetry; exact E).
      rewrite h_set_same. reflexivity.
  - rewrite add_kid_ids. apply nodup_app. split; [exact Ds|]. split; [constructor; [intros []|constructor]|].
    intros x X1 [<-|[]]. apply (rep_fresh R). eapply subtree_ids; eauto.
  - intros x X. rewrite add_kid_ids in X. apply in_app_or in X. destruct X as [X|[<-|[]]]; [left; exact X|right].
    apply (rep_fresh R).
  - reflexivity.
  - intros A P. cbn [m_features with_features]. rewrite add_kid_named, P. cbn [named u flat_map app].
    rewrite <- !app_assoc. apply Permutation_app_head. apply Permutation_app_comm.
  - cbn [m_features with_features]. rewrite map_app. cbn [map fst]. apply nodup_app. split; [apply (rep_keys R)|].
    split; [constructor; [intros []|constructor]|]. intros x X1 [<-|[]].
    unfold get_feature in N. apply find_name_none in N. exact (N X1).
  - intros G P. cbn [m_relationships with_features]. rewrite add_kid_groups. cbn [groups u flat_map app]. rewrite app_nil_r. exact P.
  - rewrite add_kid_roots. cbn [roots u flat_map app]. unfold is_root_kind. destruct (f_kind f); try (rewrite app_nil_r; reflexivity).
    exfalso. apply K. reflexivity.
Qed.

Lemma exec_add_feature_ok ord h m t f p s :
  represents h m t -> f_kind f <> FRoot -> get_feature m (f_name f) = None -> subtree s t -> is_feature (rdata s) = true ->
  (p = Some (rid s) \/ p = None /\ s = t) ->
  exists h' m', exec ord (OAddFeature f p) (h, m) = Some ((h', m'), None) /\
    represents h' m' (edit (rid s) (add_kid (Node (h_next h) (NFeature f) [])) t) /\
    m' = with_features m (m_features m ++ [(f_name f, h_next h)]) /\ h_next h' = S (h_next h) /\
    (forall j, j <> h_next h -> j <> rid s -> h_cells h' j = h_cells h j).
Proof.
  intros R K N S1 F Pp. destruct (add_feature_at h m t f s R K N S1 F) as (h1 & h2 & m1 & E1 & E2 & R2 & Em & X).
  exists h2, m1. split; [|split; [exact R2|split; [exact Em|exact X]]].
  cbn [exec]. unfold exec_add_feature. rewrite E1. destruct Pp as [->|(-> & ->)].
  - rewrite E2. reflexivity.
  - rewrite Em at 1. cbn [m_root with_features]. rewrite (rep_root _ _ _ R), E2. reflexivity.
Qed.

Lemma exec_add_feature_present ord h m f p i :
  get_feature m (f_name f) = Some i -> exec ord (OAddFeature f p) (h, m) = Some ((h, m), Some ALREADY_PRESENT).
Proof. intros N. cbn [exec]. unfold exec_add_feature, store_feature. rewrite N. reflexivity. Qed.

(** ** Taking a subtree out and putting one in *)
Lemma filter_all {A} (p : A -> bool) l : (forall a, In a l -> p a = true) -> filter p l = l.
Proof.
  induction l as [|a l IH]; [reflexivity|]. intros E. cbn [filter]. rewrite E by (left; reflexivity). f_equal.
  apply IH. intros b I. apply E. right. exact I.
Qed.

Lemma kids_split u s : NoDup (ids u) -> In s (kids u) ->
  exists a b, kids u = a ++ s :: b /\ kids (drop_kid (rid s) u) = a ++ b /\
    set_remove (rid s) (map rid (kids u)) = map rid (a ++ b).
Proof.
  intros D I. destruct u as [n d ts]. cbn [kids] in *. destruct (in_split _ _ I) as (a & b & ->). exists a, b.
  split; [reflexivity|]. cbn [ids] in D. apply NoDup_cons_iff in D. destruct D as (_ & D).
  assert (forall x, In x (a ++ b) -> rid x <> rid s) as N.
  { intros x Ix E. rewrite flat_map_app in D. cbn [flat_map] in D. apply nodup_app in D. destruct D as (_ & D & X1).
    apply nodup_app in D. destruct D as (_ & _ & X2). apply in_app_or in Ix. destruct Ix as [Ix|Ix].
    - apply (X1 (rid s)); [rewrite <- E; apply rid_in_kids; exact Ix|apply in_or_app; left; apply rid_in_ids].
    - apply (X2 (rid s)); [apply rid_in_ids|rewrite <- E; apply rid_in_kids; exact Ix]. }
  split.
  - unfold drop_kid, with_kids. cbn [kids]. rewrite filter_app. cbn [filter]. rewrite Nat.eqb_refl. cbn [negb].
    rewrite !filter_all; [reflexivity| |]; intros x Ix; apply negb_true_iff; apply Nat.eqb_neq; apply N; apply in_or_app; auto.
  - rewrite map_app. cbn [map]. rewrite set_remove_mid; [rewrite map_app; reflexivity|].
    rewrite <- map_app. intros X. apply in_map_iff in X. destruct X as (x & E & Ix). exact (N x Ix E).
Qed.

Lemma own_groups_drop a s b : length (own_groups (a ++ b)) <= length (own_groups (a ++ s :: b)).
Proof.
  rewrite !own_groups_app, !app_length. unfold own_groups at 4. cbn [filter].
  destruct (is_relationship (rdata s)); cbn [length]; unfold own_groups; lia.
Qed.

Lemma grouped_drop u s : NoDup (ids u) -> In s (kids u) -> grouped u -> grouped (drop_kid (rid s) u).
Proof.
  intros D I G. destruct (kids_split u s D I) as (a & b & E1 & E2 & _). unfold drop_kid, with_kids in *. cbn [kids] in E2.
  rewrite E2. destruct u as [n d ts]. cbn [kids rid rdata] in *. subst ts.
  inversion G as [n0 f ts0 L K E|n0 k ts0 L K E]; subst.
  - apply grouped_feature.
    + pose proof (own_groups_drop a s b). lia.
    + apply Forall_app in K. destruct K as (K1 & K2). inversion K2; subst. apply Forall_app. auto.
  - apply Forall_app in K. destruct K as (K1 & K2). inversion K2; subst.
    apply Forall_app in L. destruct L as (L1 & L2). inversion L2; subst.
    apply grouped_relationship; apply Forall_app; auto.
Qed.

Lemma drop_lists u s : NoDup (ids u) -> In s (kids u) ->
  Permutation (ids u) (ids (drop_kid (rid s) u) ++ ids s) /\
  Permutation (named u) (named (drop_kid (rid s) u) ++ named s) /\
  Permutation (groups u) (groups (drop_kid (rid s) u) ++ groups s) /\
  Permutation (roots u) (roots (drop_kid (rid s) u) ++ roots s).
Proof.
  intros D I. destruct (kids_split u s D I) as (a & b & E1 & E2 & _). unfold drop_kid, with_kids in *. cbn [kids] in E2.
  rewrite E2. destruct u as [n d ts]. cbn [kids rid rdata] in *. subst ts. cbn [ids named groups roots].
  rewrite !flat_map_app. cbn [flat_map app].
  assert (forall A (x y z : list A), Permutation (x ++ y ++ z) ((x ++ z) ++ y)) as P.
  { intros A x y z. rewrite <- app_assoc. apply Permutation_app_head. apply Permutation_app_comm. }
  repeat split; [constructor; apply P| | |]; rewrite <- app_assoc; apply Permutation_app_head; apply P.
Qed.

(** Removing the child [s] of [u] from the tree. *)
Lemma drop_frame t u s : NoDup (ids t) -> subtree u t -> In s (kids u) ->
  rid (edit (rid u) (drop_kid (rid s)) t) = rid t /\
  Permutation (ids t) (ids (edit (rid u) (drop_kid (rid s)) t) ++ ids s) /\
  Permutation (named t) (named (edit (rid u) (drop_kid (rid s)) t) ++ named s) /\
  Permutation (groups t) (groups (edit (rid u) (drop_kid (rid s)) t) ++ groups s) /\
  Permutation (roots t) (roots (edit (rid u) (drop_kid (rid s)) t) ++ roots s) /\
  (grouped t -> grouped (edit (rid u) (drop_kid (rid s)) t)) /\
  (forall h h' c, holds h None t -> h_cells h (rid u) = Some c ->
     h_cells h' (rid u) = Some (Cell (n_data c) (n_parent c) (set_remove (rid s) (n_edges c))) ->
     (forall i, In i (ids t) -> ~ In i (ids s) -> i <> rid u -> h_cells h' i = h_cells h i) ->
     holds h' None (edit (rid u) (drop_kid (rid s)) t)).
Proof.
  intros D U I. pose proof (subtree_nodup u t U D) as Du.
  destruct (edit_frame None t u D U) as (q & X & A & G & R & _ & _ & Pi & Pn & Pg & Pr & Hq & E).
  destruct (E (drop_kid (rid s)) eq_refl) as (Er & Ei & En & Eg & Ert & Eh).
  destruct (drop_lists u s Du I) as (Li & Ln & Lg & Lr).
  assert (forall B (x y z w : list B), Permutation x (y ++ z) -> Permutation (x ++ w) ((y ++ w) ++ z)) as P.
  { intros B x y z w H. rewrite H, <- !app_assoc. apply Permutation_app_head. apply Permutation_app_comm. }
  split; [exact Er|]. split; [rewrite Ei, Pi; apply P; exact Li|]. split; [rewrite En, Pn; apply P; exact Ln|].
  split; [rewrite Eg, Pg; apply P; exact Lg|]. split; [rewrite Ert, Pr; apply P; exact Lr|]. split.
  - intros Gt. apply grouped_edit; auto. apply grouped_drop; auto. eapply grouped_sub; eauto.
  - assert (NoDup (ids u ++ X)) as DX by (eapply Permutation_NoDup; eauto).
    apply nodup_app in DX. destruct DX as (_ & _ & DX).
    intros h h' c H C C' F. apply (Eh h); [exact H| |].
    + intros i Ii. apply F.
      * eapply Permutation_in; [apply Permutation_sym; exact Pi|]. apply in_or_app. right. exact Ii.
      * intros Is. apply (DX i); [|exact Ii]. destruct u as [n d ts]. eapply ids_kid; eauto.
      * intros ->. apply (DX (rid u)); [apply rid_in_ids|exact Ii].
    + specialize (Hq h H). destruct (kids_split u s Du I) as (a & b & E1 & E2 & E3).
      pose proof (holds_top _ _ _ Hq) as Cu. rewrite C in Cu. injection Cu as ->. cbn [n_data n_parent n_edges] in *.
      rewrite E3 in C'. unfold drop_kid, with_kids in *. cbn [kids] in E2. rewrite E2.
      destruct u as [n d ts]. cbn [rid rdata kids] in *. subst ts. apply holds_node; [exact C'|].
      intros v Iv. assert (In v (a ++ s :: b)) as Iv' by (apply in_app_or in Iv; apply in_or_app; cbn [In]; tauto).
      apply (holds_ext h); [eapply holds_kid; eauto|]. cbn [ids] in Du. apply NoDup_cons_iff in Du. destruct Du as (Nn & Du).
      intros i Ii. apply F.
      * eapply subtree_ids; [exact U|]. eapply ids_kid; eauto.
      * intros Is. rewrite flat_map_app in Du. cbn [flat_map] in Du. apply nodup_app in Du. destruct Du as (_ & Du & X1).
        apply nodup_app in Du. destruct Du as (_ & _ & X2). apply in_app_or in Iv. destruct Iv as [Iv|Iv].
        -- apply (X1 i); [apply in_flat_map; eauto|apply in_or_app; left; exact Is].
        -- apply (X2 i); [exact Is|apply in_flat_map; eauto].
      * intros ->. apply Nn. apply in_flat_map. eauto.
Qed.

(** Adding [u] as last child of [s]. *)
Lemma add_frame t s u : NoDup (ids t) -> subtree s t ->
  rid (edit (rid s) (add_kid u) t) = rid t /\
  Permutation (ids (edit (rid s) (add_kid u) t)) (ids t ++ ids u) /\
  Permutation (named (edit (rid s) (add_kid u) t)) (named t ++ named u) /\
  Permutation (groups (edit (rid s) (add_kid u) t)) (groups t ++ groups u) /\
  Permutation (roots (edit (rid s) (add_kid u) t)) (roots t ++ roots u) /\
  (grouped t -> grouped u -> is_feature (rdata u) = true -> grouped (edit (rid s) (add_kid u) t)) /\
  (forall h h' c, holds h None t -> h_cells h (rid s) = Some c ->
     h_cells h' (rid s) = Some (Cell (n_data c) (n_parent c) (n_edges c ++ [rid u])) ->
     (forall i, In i (ids t) -> i <> rid s -> h_cells h' i = h_cells h i) ->
     holds h' (Some (rid s)) u ->
     holds h' None (edit (rid s) (add_kid u) t)).
Proof.
  intros D S1. pose proof (subtree_nodup s t S1 D) as Ds.
  destruct (edit_frame None t s D S1) as (q & X & A & G & R & _ & _ & Pi & Pn & Pg & Pr & Hq & E).
  destruct (E (add_kid u) eq_refl) as (Er & Ei & En & Eg & Ert & Eh).
  assert (forall B (x y w : list B), Permutation ((x ++ y) ++ w) ((x ++ w) ++ y)) as P.
  { intros B x y w. rewrite <- !app_assoc. apply Permutation_app_head. apply Permutation_app_comm. }
  split; [exact Er|]. split; [rewrite Ei, Pi, add_kid_ids; apply P|]. split; [rewrite En, Pn, add_kid_named; apply P|].
  split; [rewrite Eg, Pg, add_kid_groups; apply P|]. split; [rewrite Ert, Pr, add_kid_roots; apply P|]. split.
  - intros Gt Gu Fu. apply grouped_edit; auto. apply grouped_add_kid; auto. eapply grouped_sub; eauto.
  - assert (NoDup (ids s ++ X)) as DX by (eapply Permutation_NoDup; eauto).
    apply nodup_app in DX. destruct DX as (_ & _ & DX).
    intros h h' c H C C' F Hu. apply (Eh h); [exact H| |].
    + intros i Ii. apply F.
      * eapply Permutation_in; [apply Permutation_sym; exact Pi|]. apply in_or_app. right. exact Ii.
      * intros ->. apply (DX (rid s)); [apply rid_in_ids|exact Ii].
    + specialize (Hq h H). pose proof (holds_top _ _ _ Hq) as Cu. rewrite C in Cu. injection Cu as ->.
      apply (holds_add_kid h); auto. intros i Ii. apply F. eapply subtree_ids; eauto.
Qed.

Lemma prune_absent f t : ~ In f (ids t) -> prune f t = t.
Proof.
  induction t as [n d ts IH] using tree_ind'. intros N. cbn [prune]. f_equal. rewrite Forall_forall in IH.
  induction ts as [|t ts IHt]; [reflexivity|]. cbn [flat_map].
  assert (~ In f (ids t)) as Nt by (intros X; apply N; apply (ids_kid n d (t :: ts) t); [left; reflexivity|exact X]).
  destruct (Nat.eqb_spec (rid t) f) as [E|_]; [exfalso; apply Nt; rewrite <- E; apply rid_in_ids|]. cbn [app].
  f_equal; [apply IH; [left; reflexivity|exact Nt]|]. apply IHt.
  - intros x Ix. apply IH. right. exact Ix.
  - intros [X|X]; apply N; [left; exact X|right]. cbn [flat_map]. apply in_or_app. right. exact X.
Qed.

Lemma prune_edit t u s : NoDup (ids t) -> subtree u t -> In s (kids u) ->
  prune (rid s) t = edit (rid u) (drop_kid (rid s)) t.
Proof.
  revert u s. induction t as [n d ts IH] using tree_ind'. intros u s D U I. rewrite Forall_forall in IH. cbn [prune edit].
  destruct (Nat.eqb_spec n (rid u)) as [E|N].
  - pose proof (subtree_top u n d ts D U (eq_sym E)) as ->. unfold drop_kid, with_kids. cbn [rid rdata kids] in *. f_equal.
    cbn [ids] in D. apply NoDup_cons_iff in D. destruct D as (_ & D).
    destruct (in_split _ _ I) as (a & b & ->). rewrite flat_map_app in D. cbn [flat_map] in D.
    apply nodup_app in D. destruct D as (_ & D & X1). apply nodup_app in D. destruct D as (_ & _ & X2).
    assert (forall l, (forall x, In x l -> ~ In (rid s) (ids x)) ->
      flat_map (fun k => if rid k =? rid s then [] else [prune (rid s) k]) l = filter (fun k => negb (rid k =? rid s)) l) as P.
    { intros l. induction l as [|x l IHl]; [reflexivity|]. intros Nl. cbn [flat_map filter].
      destruct (Nat.eqb_spec (rid x) (rid s)) as [Ex|_].
      - exfalso. apply (Nl x); [left; reflexivity|]. rewrite <- Ex. apply rid_in_ids.
      - cbn [negb app]. rewrite prune_absent by (apply Nl; left; reflexivity). f_equal. apply IHl.
        intros y Iy. apply Nl. right. exact Iy. }
    rewrite flat_map_app, filter_app. cbn [flat_map filter]. rewrite Nat.eqb_refl. cbn [negb app]. f_equal; apply P.
    + intros x Ix Hx. apply (X1 (rid s)); [apply in_flat_map; eauto|apply in_or_app; left; apply rid_in_ids].
    + intros x Ix Hx. apply (X2 (rid s)); [apply rid_in_ids|apply in_flat_map; eauto].
  - inversion U as [|n0 d0 ts0 t I0 U' E0]; [subst u; exfalso; apply N; reflexivity|]. subst. f_equal.
    cbn [ids] in D. apply NoDup_cons_iff in D. destruct D as (_ & D).
    assert (In (rid s) (ids t)) as Is.
    { eapply subtree_ids; [exact U'|]. destruct u as [nu du tu]. eapply ids_kid; [exact I|apply rid_in_ids]. }
    assert (rid t <> rid s) as Nt.
    { intros Et. pose proof (nodup_flat_map_in _ _ _ D I0) as Dt.
      assert (s = t) as ->.
      { apply (subtree_unique t); [exact Dt| |constructor|symmetry; exact Et].
        eapply subtree_trans; [|exact U']. destruct u as [nu du tu]. apply subtree_kid. exact I. }
      (* [t] would be below itself *)
      pose proof (subtree_nodup u t U' Dt) as Du.
      assert (length (ids t) < length (ids u)).
      { destruct u as [nu du tu]. cbn [kids] in I. destruct (in_split _ _ I) as (a & b & ->). cbn [ids]. rewrite flat_map_app.
        cbn [flat_map length]. rewrite !app_length. lia. }
      assert (length (ids u) <= length (ids t)).
      { apply NoDup_incl_length; [exact Du|]. intros x X. eapply subtree_ids; eauto. }
      lia. }
    destruct (in_split _ _ I0) as (a & b & ->). pose proof (nodup_flat_map_in _ _ _ D I0) as Dt.
    rewrite flat_map_app in D. cbn [flat_map] in D.
    apply nodup_app in D. destruct D as (_ & D & X1). apply nodup_app in D. destruct D as (_ & _ & X2).
    pose proof (subtree_ids _ _ _ U' (rid_in_ids u)) as Iu.
    assert (forall l, (forall x, In x l -> ~ In (rid s) (ids x)) -> (forall x, In x l -> ~ In (rid u) (ids x)) ->
      flat_map (fun k => if rid k =? rid s then [] else [prune (rid s) k]) l = map (edit (rid u) (drop_kid (rid s))) l) as P.
    { intros l. induction l as [|x l IHl]; [reflexivity|]. intros Nl Ml. cbn [flat_map map].
      destruct (Nat.eqb_spec (rid x) (rid s)) as [Ex|_].
      - exfalso. apply (Nl x); [left; reflexivity|]. rewrite <- Ex. apply rid_in_ids.
      - cbn [app]. rewrite prune_absent by (apply Nl; left; reflexivity). rewrite edit_absent by (apply Ml; left; reflexivity).
        f_equal. apply IHl; intros y Iy; [apply Nl|apply Ml]; right; exact Iy. }
    rewrite flat_map_app, map_app. cbn [flat_map map]. destruct (Nat.eqb_spec (rid t) (rid s)) as [Et|_]; [contradiction|].
    cbn [app]. rewrite (IH t I0 u s Dt U' I). f_equal; [|f_equal].
    + apply P; intros x Ix Hx.
      * apply (X1 (rid s)); [apply in_flat_map; eauto|apply in_or_app; left; exact Is].
      * apply (X1 (rid u)); [apply in_flat_map; eauto|apply in_or_app; left; exact Iu].
    + apply P; intros x Ix Hx.
      * apply (X2 (rid s)); [exact Is|apply in_flat_map; eauto].
      * apply (X2 (rid u)); [exact Iu|apply in_flat_map; eauto].
Qed.

(** ** Moving *)
Lemma subtree_reaches h o t s x : holds h o t -> subtree s t -> In x (ids s) -> reaches h x (rid s).
Proof.
  intros H S1 X. destruct (holds_sub h o t s H S1) as (q & Hs). clear H S1 t. revert q Hs.
  induction s as [n d ts IH] using tree_ind'. intros q Hs. cbn [rid]. destruct X as [<-|X].
  - eapply reaches_here. eapply holds_root. exact Hs.
  - apply in_flat_map in X. destruct X as (t & It & X). rewrite Forall_forall in IH.
    pose proof (holds_kid _ _ _ _ _ _ Hs It) as Ht. pose proof (IH t It X _ Ht) as P.
    assert (reaches h (rid t) n) as P2.
    { eapply reaches_up; [apply (holds_top _ _ _ Ht)|reflexivity|]. eapply reaches_here. eapply holds_root. exact Hs. }
    clear - P P2. induction P as [i c C|i c p r C Pc P IH]; [exact P2|]. eapply reaches_up; [exact C|exact Pc|]. apply IH. exact P2.
Qed.

Lemma subtree_proper s t : NoDup (ids t) -> subtree s t -> rid s <> rid t ->
  exists u, subtree u t /\ In s (kids u).
Proof.
  intros D S1 N. destruct (subtree_parent s t S1) as [->|E]; [exfalso; apply N; reflexivity|exact E].
Qed.

Lemma move_ok h m t u s p :
  represents h m t -> subtree u t -> In s (kids u) -> is_feature (rdata s) = true ->
  In p (ids t) -> ~ In p (ids s) ->
  exists h1 h2 h3, remove_edge h (rid u) (rid s) = Some h1 /\ add_edge h1 p (rid s) = Some h2 /\
    set_parent h2 (rid s) (Some p) = Some h3 /\
    represents h3 m (edit p (add_kid s) (prune (rid s) t)) /\ h_next h3 = h_next h /\
    (forall j, j <> rid u -> j <> p -> j <> rid s -> h_cells h3 j = h_cells h j).
Proof.
  intros R U I F P Np. pose proof (rep_ids _ _ _ R) as D. pose proof (rep_holds _ _ _ R) as H.
  rewrite (prune_edit t u s D U I).
  destruct (drop_frame t u s D U I) as (Er & Pi & Pn & Pg & Pr & Gr & Hd).
  set (t1 := edit (rid u) (drop_kid (rid s)) t) in *.
  destruct (rep_cell R u U) as (qu & Cu).
  assert (subtree s t) as S1 by (eapply subtree_trans; [|exact U]; destruct u; apply subtree_kid; exact I).
  assert (In (rid s) (ids t)) as Is by (eapply subtree_ids; [exact S1|apply rid_in_ids]).
  assert (In (rid u) (ids t)) as Iu by (eapply subtree_ids; [exact U|apply rid_in_ids]).
  assert (NoDup (ids t1 ++ ids s)) as D1 by (eapply Permutation_NoDup; eauto).
  apply nodup_app in D1. destruct D1 as (D1 & Ds & Dx).
  assert (In p (ids t1)) as P1.
  { eapply Permutation_in in P; [|exact Pi]. apply in_app_or in P. destruct P as [P|P]; [exact P|contradiction]. }
  assert (rid u <> rid s) as Nus.
  { intros E. pose proof (subtree_nodup u t U D) as Du. destruct u as [n d ts]. cbn [rid kids ids] in *.
    apply NoDup_cons_iff in Du. destruct Du as (Nn & _). apply Nn. rewrite E. apply rid_in_kids. exact I. }
  assert (p <> rid s) as Nps by (intros ->; apply Np; apply rid_in_ids).
  pose proof (rep_kid R u s U I) as Cs.
  pose proof (remove_edge_some h (rid u) (rid s) _ Cu) as E1. set (h1 := h_set _ _ _) in E1.
  assert (holds h1 None t1) as H1.
  { apply (Hd h h1 _ H Cu); [unfold h1; rewrite h_set_same; reflexivity|].
    intros i I1 I2 I3. unfold h1. apply h_set_other. exact I3. }
  destruct (ids_subtree p t1 P1) as (sp & Sp & Ep). subst p.
  destruct (holds_sub h1 None t1 sp H1 Sp) as (qp & Hp). pose proof (holds_top _ _ _ Hp) as Cp.
  pose proof (add_edge_some h1 (rid sp) (rid s) _ Cp) as E2. set (h2 := h_set h1 _ _) in E2.
  assert (h_cells h2 (rid s) = Some (Cell (rdata s) (Some (rid u)) (map rid (kids s)))) as Cs2.
  { unfold h2, h1. rewrite !h_set_other by congruence. exact Cs. }
  pose proof (set_parent_some h2 (rid s) (Some (rid sp)) _ Cs2) as E3. set (h3 := h_set h2 _ _) in E3.
  exists h1, h2, h3. split; [exact E1|]. split; [exact E2|]. split; [exact E3|].
  destruct (add_frame t1 sp s D1 Sp) as (Ar & Ai & An & Ag & Art & Agr & Ah).
  split; [|split; [reflexivity|]].
  2:{ intros j J1 J2 J3. unfold h3, h2, h1. rewrite !h_set_other by assumption. reflexivity. }
  constructor.
  - unfold h3, h2, h1. repeat apply h_set_ok; cbn [h_next h_set]; try (apply (rep_below R); assumption). apply (rep_ok _ _ _ R).
  - apply (Ah h1 h3 _ H1 Cp).
    + unfold h3, h2. rewrite h_set_other by congruence. rewrite h_set_same. cbn [n_data n_parent n_edges]. do 2 f_equal.
      apply set_insert_new. intros X. apply (Dx (rid s)); [|apply rid_in_ids].
      apply in_map_iff in X. destruct X as (v & <- & Iv). eapply subtree_ids; [exact Sp|].
      destruct sp as [n d ts]. eapply ids_kid; [exact Iv|apply rid_in_ids].
    + intros i I1 I2. unfold h3, h2. rewrite !h_set_other; [reflexivity|exact I2|].
      intros ->. apply (Dx (rid s)); [exact I1|apply rid_in_ids].
    + pose proof (holds_sub_kid h None t u s H U I) as Hs. destruct s as [n d ts]. cbn [rid rdata kids] in *.
      apply holds_node; [unfold h3; rewrite h_set_same; reflexivity|].
      intros v Iv. apply (holds_ext h); [eapply holds_kid; eauto|]. intros i Ii. unfold h3, h2, h1.
      assert (In i (ids (Node n d ts))) as Ii' by (eapply ids_kid; eauto).
      rewrite !h_set_other; [reflexivity| | |].
      * intros ->. pose proof (subtree_nodup u t U D) as Du. destruct u as [nu du tu]. cbn [rid kids ids] in *.
        apply NoDup_cons_iff in Du. destruct Du as (Nn & _). apply Nn. apply in_flat_map. exists (Node n d ts). auto.
      * intros ->. apply (Dx (rid sp)); [exact P1|exact Ii'].
      * intros ->. cbn [ids] in Ds. apply NoDup_cons_iff in Ds. destruct Ds as (Nn & _). apply Nn. apply in_flat_map. eauto.
  - eapply Permutation_NoDup; [apply Permutation_sym; exact Ai|]. apply nodup_app. auto.
  - rewrite Ar, Er. apply (rep_root _ _ _ R).
  - rewrite Ar, Er. apply Permutation_length_1_inv. rewrite Art, <- Pr, (rep_roots _ _ _ R). reflexivity.
  - rewrite An, <- Pn. apply (rep_features _ _ _ R).
  - eapply Permutation_NoDup; [apply Permutation_map; apply Permutation_sym; exact An|].
    eapply Permutation_NoDup; [apply Permutation_map; exact Pn|]. apply (rep_names _ _ _ R).
  - rewrite Ag, <- Pg. apply (rep_groups _ _ _ R).
  - apply Agr; [apply Gr; apply (rep_shape _ _ _ R)|eapply grouped_sub; [exact S1|apply (rep_shape _ _ _ R)]|exact F].
Qed.

Lemma exec_add_child_ok ord h m t rp rc p s :
  represents h m t -> resolve m rp = Some p -> resolve m rc = Some (rid s) -> In p (ids t) ->
  subtree s t -> is_feature (rdata s) = true -> ~ reaches h p (rid s) ->
  exists h', exec ord (OAddChild rp rc) (h, m) = Some ((h', m), None) /\
    represents h' m (edit p (add_kid s) (prune (rid s) t)) /\ h_next h' = h_next h /\
    (forall u, subtree u t -> In s (kids u) -> forall j, j <> rid u -> j <> p -> j <> rid s -> h_cells h' j = h_cells h j).
Proof.
  intros R Ep Ec P S1 F N. pose proof (rep_ids _ _ _ R) as D. pose proof (rep_holds _ _ _ R) as H.
  assert (~ In p (ids s)) as Np by (intros X; apply N; eapply subtree_reaches; eauto).
  assert (rid s <> rid t) as Nr.
  { intros E. assert (s = t) as -> by (apply (subtree_unique t); auto; constructor). contradiction. }
  destruct (subtree_proper s t D S1 Nr) as (u & U & I).
  destruct (move_ok h m t u s p R U I F P Np) as (h1 & h2 & h3 & E1 & E2 & E3 & R3 & X1 & X2).
  exists h3. split; [|split; [exact R3|split; [exact X1|]]].
  - cbn [exec]. unfold exec_add_child. rewrite Ec, Ep.
    destruct (Nat.eqb_spec (rid s) p) as [E|_]; [exfalso; apply Np; rewrite <- E; apply rid_in_ids|].
    rewrite (rep_kid R u s U I). cbn [bind n_parent]. rewrite E1. cbn [bind]. rewrite E2. cbn [bind]. rewrite E3. reflexivity.
  - intros u' U' I'.
    assert (rid u = rid u') as Eu.
    { pose proof (rep_kid R u s U I) as C1. pose proof (rep_kid R u' s U' I') as C2. congruence. }
    rewrite <- Eu. exact X2.
Qed.
