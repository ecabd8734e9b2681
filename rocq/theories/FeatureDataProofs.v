(** Changing contents of nodes: locations and constraints. *)
From Coq Require Import List ZArith Arith Bool Ascii Permutation Lia.
From Verif Require Import Text TextProofs ConstraintModel ConstraintSpec SourceRangeModel FeatureTreeModel FeatureTreeSpec FeatureTreeProofs
  FeatureTransactionModel FeatureEditSpec FeatureEditProofs FeatureOpsProofs.
Import ListNotations.

(** Contents of the same type, with the same name and root property. *)
Definition alike (d d' : ndata) : Prop :=
  match d, d' with
  | NFeature f, NFeature f' => f_name f' = f_name f /\ is_root_kind f' = is_root_kind f
  | NRelationship k, NRelationship k' => k' = k
  | _, _ => False
  end.

Lemma alike_feature d d' : alike d d' -> is_feature d' = is_feature d.
Proof. destruct d, d'; cbn; tauto. Qed.

Section Relabel.
Variable g : nid -> ndata -> ndata.

Lemma rid_relabel t : rid (relabel g t) = rid t.
Proof. destruct t; reflexivity. Qed.
Lemma map_rid_relabel ts : map rid (map (relabel g) ts) = map rid ts.
Proof. rewrite map_map. apply map_ext. exact rid_relabel. Qed.

Lemma flat_map_relabel {A} (f f' : tree -> list A) ts :
  (forall t, In t ts -> f (relabel g t) = f' t) -> flat_map f (map (relabel g) ts) = flat_map f' ts.
Proof.
  induction ts as [|t ts IH]; [reflexivity|]. intros E. cbn [map flat_map]. rewrite E by (left; reflexivity). f_equal.
  apply IH. intros t' I. apply E. right. exact I.
Qed.

Lemma ids_relabel t : ids (relabel g t) = ids t.
Proof.
  induction t as [n d ts IH] using tree_ind'. cbn [relabel ids]. f_equal. apply flat_map_relabel. rewrite Forall_forall in IH. exact IH.
Qed.

Definition alike_in (t : tree) : Prop := forall s, subtree s t -> alike (rdata s) (g (rid s) (rdata s)).
Lemma alike_in_kid n d ts t : alike_in (Node n d ts) -> In t ts -> alike_in t.
Proof. intros A I s S1. apply A. eapply sub_kid; eauto. Qed.
Lemma alike_in_top n d ts : alike_in (Node n d ts) -> alike d (g n d).
Proof. intros A. exact (A _ (sub_refl _)). Qed.

Lemma named_relabel t : alike_in t -> named (relabel g t) = named t.
Proof.
  induction t as [n d ts IH] using tree_ind'. intros A. cbn [relabel named]. rewrite Forall_forall in IH. f_equal.
  - pose proof (alike_in_top _ _ _ A) as X. destruct d, (g n _); cbn [alike] in X; try contradiction; [|reflexivity].
    destruct X as (-> & _). reflexivity.
  - apply flat_map_relabel. intros t It. apply IH; [exact It|eapply alike_in_kid; eauto].
Qed.
Lemma groups_relabel t : alike_in t -> groups (relabel g t) = groups t.
Proof.
  induction t as [n d ts IH] using tree_ind'. intros A. cbn [relabel groups]. rewrite Forall_forall in IH. f_equal.
  - pose proof (alike_in_top _ _ _ A) as X. destruct d, (g n _); cbn [alike] in X; try contradiction; reflexivity.
  - apply flat_map_relabel. intros t It. apply IH; [exact It|eapply alike_in_kid; eauto].
Qed.
Lemma roots_relabel t : alike_in t -> roots (relabel g t) = roots t.
Proof.
  induction t as [n d ts IH] using tree_ind'. intros A. cbn [relabel roots]. rewrite Forall_forall in IH. f_equal.
  - pose proof (alike_in_top _ _ _ A) as X. destruct d, (g n _); cbn [alike] in X; try contradiction; [|reflexivity].
    destruct X as (_ & ->). reflexivity.
  - apply flat_map_relabel. intros t It. apply IH; [exact It|eapply alike_in_kid; eauto].
Qed.
Lemma rdata_relabel t : alike_in t -> is_feature (rdata (relabel g t)) = is_feature (rdata t).
Proof. destruct t as [n d ts]. intros A. cbn [relabel rdata]. apply alike_feature. eapply alike_in_top; eauto. Qed.
Lemma own_groups_relabel ts : (forall t, In t ts -> alike_in t) -> length (own_groups (map (relabel g) ts)) = length (own_groups ts).
Proof.
  unfold own_groups, is_relationship. induction ts as [|t ts IH]; [reflexivity|]. intros A. cbn [map filter].
  rewrite rdata_relabel by (apply A; left; reflexivity). destruct (is_feature (rdata t)); cbn [negb length];
    rewrite IH; auto; intros t' I; apply A; right; exact I.
Qed.
Lemma grouped_relabel t : alike_in t -> grouped t -> grouped (relabel g t).
Proof.
  induction t as [n d ts IH] using tree_ind'. intros A G. cbn [relabel]. rewrite Forall_forall in IH.
  pose proof (alike_in_top _ _ _ A) as X.
  assert (Forall grouped ts -> Forall grouped (map (relabel g) ts)) as K.
  { intros F. rewrite Forall_forall in *. intros t It. apply in_map_iff in It. destruct It as (t' & <- & It).
    apply IH; [exact It|eapply alike_in_kid; eauto|apply F; exact It]. }
  destruct d as [f|k], (g n _) as [f'|k']; cbn [alike] in X; try contradiction; inversion G as [? ? ? L F E|? ? ? L F E]; subst; constructor; auto.
  - rewrite own_groups_relabel; [exact L|]. intros t It. eapply alike_in_kid; eauto.
  - rewrite Forall_forall in *. intros t It. apply in_map_iff in It. destruct It as (t' & <- & It).
    rewrite rdata_relabel; [apply L; exact It|eapply alike_in_kid; eauto].
Qed.

Lemma holds_relabel h h' p t : relabelled g h h' -> holds h p t -> holds h' p (relabel g t).
Proof.
  intros Rl. revert p. induction t as [n d ts IH] using tree_ind'. intros p H. cbn [relabel]. rewrite Forall_forall in IH.
  apply holds_node.
  - rewrite Rl, (holds_root _ _ _ _ _ H), map_rid_relabel. reflexivity.
  - intros t It. apply in_map_iff in It. destruct It as (t' & <- & It). apply IH; [exact It|eapply holds_kid; eauto].
Qed.

Lemma represents_relabel h h' m m' t :
  represents h m t -> relabelled g h h' -> h_next h <= h_next h' -> alike_in t ->
  m_root m' = m_root m -> m_features m' = m_features m -> m_relationships m' = m_relationships m ->
  represents h' m' (relabel g t).
Proof.
  intros [O H D Rt Rs Rf Rn Rg Sh] Rl Le A E1 E2 E3. constructor.
  - intros i I. rewrite Rl, O by lia. reflexivity.
  - eapply holds_relabel; eauto.
  - rewrite ids_relabel. exact D.
  - rewrite rid_relabel, E1. exact Rt.
  - rewrite rid_relabel, roots_relabel by exact A. exact Rs.
  - rewrite named_relabel, E2 by exact A. exact Rf.
  - rewrite named_relabel by exact A. exact Rn.
  - rewrite groups_relabel, E3 by exact A. exact Rg.
  - apply grouped_relabel; assumption.
Qed.

End Relabel.

(** ** One feature changes *)
Definition at_node (i : nid) (f' : feature) (j : nid) (d : ndata) : ndata := if Nat.eqb j i then NFeature f' else d.

Lemma modify_feature_ok h i f (g : feature -> option feature) f' :
  feature_at h i = Some f -> g f = Some f' ->
  exists h', modify_feature h i g = Some h' /\ relabelled (at_node i f') h h' /\ h_next h' = h_next h.
Proof.
  unfold feature_at, modify_feature. destruct (h_cells h i) as [[d p e]|] eqn:C; [|discriminate]. cbn [bind n_data].
  destruct d as [x|]; [|discriminate]. intros E G. injection E as ->. rewrite G. cbn [bind]. eexists. split; [reflexivity|].
  split; [|reflexivity]. intros j. rewrite h_set_cells. unfold at_node. destruct (Nat.eqb_spec j i) as [->|N].
  - rewrite C. reflexivity.
  - destruct (h_cells h j) as [[d' p' e']|]; reflexivity.
Qed.

Lemma at_node_alike h m t s f f' : represents h m t -> subtree s t -> rdata s = NFeature f ->
  f_name f' = f_name f -> is_root_kind f' = is_root_kind f -> alike_in (at_node (rid s) f') t.
Proof.
  intros R S1 E N K u U. unfold at_node. destruct (Nat.eqb_spec (rid u) (rid s)) as [Er|_].
  - assert (u = s) as -> by (apply (subtree_unique t); auto; apply (rep_ids _ _ _ R)). rewrite E. split; assumption.
  - destruct (rdata u); cbn [alike]; auto.
Qed.

Lemma rep_feature_at h m t s f : represents h m t -> subtree s t -> rdata s = NFeature f -> feature_at h (rid s) = Some f.
Proof. intros R S1 E. unfold feature_at. destruct (rep_cell R s S1) as (q & C). rewrite C. cbn [bind n_data]. rewrite E. reflexivity. Qed.

Lemma exec_location_ok ord h m t r s f (add : bool) l ls :
  represents h m t -> resolve m r = Some (rid s) -> subtree s t -> rdata s = NFeature f ->
  (if add then ls = f_locations f ++ [l] else remove_location (f_locations f) l = Some ls) ->
  exists h', exec ord (if add then OAddLocation r l else ORemoveLocation r l) (h, m) = Some ((h', m), None) /\
    represents h' m (relabel (at_node (rid s) (with_locations f ls)) t) /\
    relabelled (at_node (rid s) (with_locations f ls)) h h' /\ h_next h' = h_next h.
Proof.
  intros R E S1 Ef L. pose proof (rep_feature_at h m t s f R S1 Ef) as Fa.
  assert (alike_in (at_node (rid s) (with_locations f ls)) t) as A by (eapply at_node_alike; eauto).
  destruct add; cbn [exec]; unfold exec_add_location, exec_remove_location; rewrite E; cbn [bind].
  - destruct (modify_feature_ok h (rid s) f (fun f => Some (with_locations f (add_location (f_locations f) l))) (with_locations f ls) Fa)
      as (h' & E1 & Rl & Hn); [rewrite L; reflexivity|].
    rewrite E1. exists h'. split; [reflexivity|]. split; [|split; [exact Rl|exact Hn]].
    eapply represents_relabel; eauto. rewrite Hn. apply Nat.le_refl.
  - destruct (modify_feature_ok h (rid s) f (fun f => let* ls := remove_location (f_locations f) l in Some (with_locations f ls)) (with_locations f ls) Fa)
      as (h' & E1 & Rl & Hn); [rewrite L; reflexivity|].
    rewrite E1. exists h'. split; [reflexivity|]. split; [|split; [exact Rl|exact Hn]].
    eapply represents_relabel; eauto. rewrite Hn. apply Nat.le_refl.
Qed.

(** ** Constraints *)
Definition enlist (cl : cclass) (id : nat) (ps : list nat) (f : feature) : feature :=
  Feature (f_kind f) (f_name f) (f_output f) (f_locations f)
    (f_constraints f ++ map (fun p => (id, p)) ps)
    (f_excludes f ++ (match cl with ClassExcludes => map (fun _ => id) ps | _ => [] end))
    (f_implications f ++ (match cl with ClassImplies => map (fun _ => id) ps | _ => [] end))
    (f_optional f).
Lemma enlist_enlisted c id ps f : enlist (class_of c) id ps f = enlisted c id ps f.
Proof. destruct c as [[] l r| | |]; reflexivity. Qed.
Lemma enlist_app cl id a b f : enlist cl id b (enlist cl id a f) = enlist cl id (a ++ b) f.
Proof.
  unfold enlist. cbn [f_kind f_name f_output f_locations f_constraints f_excludes f_implications f_optional].
  rewrite map_app, <- !app_assoc. destruct cl; cbn [app]; rewrite ?map_app; reflexivity.
Qed.
Lemma enlist_nil cl id f : enlist cl id [] f = f.
Proof. destruct f. unfold enlist. cbn. destruct cl; cbn; rewrite !app_nil_r; reflexivity. Qed.
Lemma register_enlist cl id p f : register cl id p f = enlist cl id [p] f.
Proof. unfold register, enlist. destruct cl; cbn [map]; rewrite ?app_nil_r; reflexivity. Qed.

Definition enlist_at (m : fmodel) (cl : cclass) (id : nat) (names : list text) (k : nat) (i : nid) (d : ndata) : ndata :=
  match d with NFeature f => NFeature (enlist cl id (positions m i names k) f) | NRelationship r => NRelationship r end.

Lemma positions_app m i a b k : positions m i (a ++ b) k = positions m i a k ++ positions m i b (k + length a).
Proof.
  revert k. induction a as [|s a IH]; intros k; cbn [app positions length].
  - rewrite Nat.add_0_r. reflexivity.
  - rewrite IH, <- app_assoc. f_equal. f_equal. f_equal. lia.
Qed.

Lemma relabelled_refl h (g : nid -> ndata -> ndata) : (forall i d, g i d = d) -> relabelled g h h.
Proof. intros E i. destruct (h_cells h i) as [[d p e]|]; [|reflexivity]. cbn. rewrite E. reflexivity. Qed.
Lemma relabelled_trans g1 g2 g h h1 h2 : relabelled g1 h h1 -> relabelled g2 h1 h2 ->
  (forall i d, g2 i (g1 i d) = g i d) -> relabelled g h h2.
Proof.
  intros A B E i. rewrite B, A. destruct (h_cells h i) as [[d p e]|]; [|reflexivity]. cbn. rewrite E. reflexivity.
Qed.

Lemma cref_name_relabelled g h h' r : relabelled g h h' ->
  (forall i d, match d with NFeature f => exists f', g i d = NFeature f' /\ f_name f' = f_name f | NRelationship k => g i d = d end) ->
  cref_name h' r = cref_name h r.
Proof.
  intros Rl G. destruct r as [s|n]; [reflexivity|]. cbn [cref_name]. unfold name_at, feature_at. rewrite Rl.
  destruct (h_cells h n) as [[d p e]|]; [|reflexivity]. cbn. specialize (G n d). destruct d as [f|k].
  - destruct G as (f' & -> & N). cbn. congruence.
  - rewrite G. reflexivity.
Qed.
Lemma enlist_at_names m cl id names k i d :
  match d with NFeature f => exists f', enlist_at m cl id names k i d = NFeature f' /\ f_name f' = f_name f
             | NRelationship _ => enlist_at m cl id names k i d = d end.
Proof. destruct d; [eexists; split; reflexivity|reflexivity]. Qed.

Definition target (m : fmodel) (nm : cref -> option text) (r : cref) : cref :=
  match nm r with Some s => match get_feature m s with Some i => Ref i | None => r end | None => r end.
Definition found (m : fmodel) (s : text) : bool := match get_feature m s with Some _ => true | None => false end.

Lemma connect_ok m cl id : forall c pos h names,
  map (cref_name h) (leaves c) = map Some names ->
  (forall s i, get_feature m s = Some i -> exists f, feature_at h i = Some f) ->
  exists h', connect m cl id c pos h =
      Some (cmap (target m (cref_name h)) c, pos + length names, h', forallb (found m) names) /\
    h_next h' = h_next h /\ relabelled (enlist_at m cl id names pos) h h'.
Proof.
  induction c as [o l IHl r IHr|o e IH|n|x]; intros pos h names E G; cbn [leaves cmap connect] in *.
  - rewrite map_app in E. symmetry in E. apply map_eq_app in E. destruct E as (na & nb & -> & Ea & Eb).
    destruct (IHl pos h na (eq_sym Ea) G) as (h1 & E1 & N1 & R1). rewrite E1. cbn [bind].
    assert (forall r0, cref_name h1 r0 = cref_name h r0) as Cn.
    { intros r0. eapply cref_name_relabelled; [exact R1|]. intros i d. apply enlist_at_names. }
    destruct (IHr (pos + length na) h1 nb) as (h2 & E2 & N2 & R2).
    + rewrite <- (map_ext _ _ Cn) in Eb. symmetry. exact Eb.
    + intros s i Gs. destruct (G s i Gs) as (f & Ff). unfold feature_at in *. rewrite R1.
      destruct (h_cells h i) as [[d p e]|]; [|discriminate]. cbn in *. destruct d; [|discriminate]. eexists. reflexivity.
    + rewrite E2. cbn [bind]. exists h2. split; [|split; [congruence|]].
      * do 2 f_equal; [|symmetry; apply forallb_app]. rewrite app_length, Nat.add_assoc. do 3 f_equal.
        clear - Cn. induction r as [o' l' IHl' r' IHr'|o' e' IH'|n'|x']; cbn [cmap]; try congruence.
        unfold target. rewrite Cn. reflexivity.
      * eapply relabelled_trans; [exact R1|exact R2|]. intros i d. destruct d as [f|k]; [|reflexivity]. cbn [enlist_at].
        rewrite enlist_app, positions_app. reflexivity.
  - destruct (IH pos h names E G) as (h1 & E1 & N1 & R1). rewrite E1. cbn [bind]. exists h1. auto.
  - destruct names; [|discriminate E]. exists h. cbn [length forallb]. rewrite Nat.add_0_r. split; [reflexivity|]. split; [reflexivity|].
    apply relabelled_refl. intros i d. destruct d; [|reflexivity]. cbn [enlist_at positions]. rewrite enlist_nil. reflexivity.
  - destruct names as [|s [|s' names]]; try discriminate E. injection E as Ex. rewrite Ex. cbn [bind length forallb].
    unfold target, found. rewrite Ex. rewrite Nat.add_1_r.
    destruct (get_feature m s) as [i|] eqn:Gs.
    + destruct (G s i Gs) as (f & Ff).
      destruct (modify_feature_ok h i f (fun f => Some (register cl id pos f)) _ Ff eq_refl) as (h1 & E1 & R1 & N1).
      rewrite E1. cbn [bind]. exists h1. split; [reflexivity|]. split; [exact N1|].
      intros j. rewrite R1. destruct (h_cells h j) as [[d p e]|] eqn:C; [|reflexivity]. cbn [option_map n_data n_parent n_edges].
      do 2 f_equal. unfold at_node. destruct (Nat.eqb_spec j i) as [->|Nj].
      * unfold feature_at in Ff. rewrite C in Ff. cbn in Ff. destruct d as [x0|]; [|discriminate]. injection Ff as ->.
        cbn [enlist_at positions]. rewrite Gs, Nat.eqb_refl, register_enlist. reflexivity.
      * destruct d as [x0|]; [|reflexivity]. cbn [enlist_at positions]. rewrite Gs.
        destruct (Nat.eqb_spec i j) as [Eij|_]; [congruence|]. rewrite enlist_nil. reflexivity.
    + exists h. split; [reflexivity|]. split; [reflexivity|]. apply relabelled_refl. intros j d. destruct d; [|reflexivity].
      cbn [enlist_at positions]. rewrite Gs, enlist_nil. reflexivity.
Qed.

Lemma exec_add_constraint_ok ord h m t k c names :
  represents h m t -> map (cref_name h) (leaves c) = map Some names ->
  exists h' c', exec ord (OAddConstraint k c) (h, m) =
      Some ((h', store_constraint m k (MConstraint (h_next h) c')), if forallb (found m) names then None else Some MISSING_FEATURE) /\
    c' = cmap (target m (cref_name h)) c /\ h_next h' = S (h_next h) /\
    relabelled (enlist_at m (class_of c) (h_next h) names 0) h h' /\
    represents h' (store_constraint m k (MConstraint (h_next h) c')) (relabel (enlist_at m (class_of c) (h_next h) names 0) t).
Proof.
  intros R E. cbn [exec]. unfold exec_add_constraint. set (h0 := {| h_cells := h_cells h; h_next := S (h_next h) |}).
  destruct (connect_ok m (class_of c) (h_next h) c 0 h0 names) as (h' & E1 & N1 & R1).
  - exact E.
  - intros s i G. apply (rep_find R) in G. apply named_subtree in G. destruct G as (v & f & V & Ei & Ef & En). subst i.
    exists f. exact (rep_feature_at h m t v f R V Ef).
  - rewrite E1. cbn [bind]. exists h', (cmap (target m (cref_name h)) c). split; [destruct (forallb (found m) names); reflexivity|].
    split; [reflexivity|]. split; [exact N1|]. split; [exact R1|].
    apply (represents_relabel _ h h' m); [exact R|exact R1|rewrite N1; cbn [h0 h_next]; lia| | | |]; try (destruct k; reflexivity).
    intros s _. destruct (rdata s); cbn [alike enlist_at]; auto.
Qed.
