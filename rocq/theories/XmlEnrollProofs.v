(** Features know the implications and exclusions that mention them. *)
From Coq Require Import List ZArith Arith Bool Ascii String Permutation Lia.
From Verif Require Import Text TextProofs ConstraintModel ConstraintSpec SourceRangeModel FeatureTreeModel FeatureTreeSpec FeatureTransactionModel
  FeatureEditSpec FeatureTreeProofs FeatureBuildSpec SxfmModel XmlModel XmlSpec.
Import ListNotations.

(** Features keep everything, and none appears. *)
Definition data_kept (h h' : heap) : Prop :=
  h_next h <= h_next h' /\ forall i f, feature_at h' i = Some f -> feature_at h i = Some f.

Lemma data_kept_refl h : data_kept h h.
Proof. split; auto. Qed.
Lemma data_kept_trans a b c : data_kept a b -> data_kept b c -> data_kept a c.
Proof. intros [L1 A] [L2 B]. split; [lia|auto]. Qed.
Lemma h_modify_kept h i g h' : (forall c, n_data (g c) = n_data c) -> h_modify h i g = Some h' -> data_kept h h'.
Proof.
  intros G E. unfold h_modify in E. destruct (h_cells h i) as [c|] eqn:C; [|discriminate]. cbn [bind] in E. injection E as <-.
  split; [reflexivity|]. intros j f F. unfold feature_at, h_set in *. cbn in F. destruct (Nat.eqb_spec j i) as [->|]; [|exact F].
  cbn [bind] in F. rewrite G in F. rewrite C. exact F.
Qed.
Lemma set_parent_kept h i p h' : set_parent h i p = Some h' -> data_kept h h'.
Proof. apply h_modify_kept. reflexivity. Qed.
Lemma add_edge_kept h i p h' : add_edge h i p = Some h' -> data_kept h h'.
Proof. unfold add_edge. apply h_modify_kept. reflexivity. Qed.
Lemma remove_edge_kept h i p h' : remove_edge h i p = Some h' -> data_kept h h'.
Proof. unfold remove_edge. apply h_modify_kept. reflexivity. Qed.
Lemma link_kept h p c h' : link h p c = Some h' -> data_kept h h'.
Proof.
  unfold link. intros E. apply bind_some in E. destruct E as (h1 & E1 & E2).
  exact (data_kept_trans _ _ _ (set_parent_kept _ _ _ _ E1) (add_edge_kept _ _ _ _ E2)).
Qed.
Lemma regroup_kept a b cs : forall h h', regroup h a b cs = Some h' -> data_kept h h'.
Proof.
  induction cs as [|c r IH]; intros h h' E; cbn [regroup] in E; [injection E as <-; apply data_kept_refl|].
  apply bind_some in E. destruct E as (ca & _ & E). apply bind_some in E. destruct E as (cc & _ & E).
  destruct (_ && _); [|discriminate].
  apply bind_some in E. destruct E as (h1 & E1 & E). apply bind_some in E. destruct E as (h2 & E2 & E). apply bind_some in E. destruct E as (h3 & E3 & E).
  eapply data_kept_trans; [exact (remove_edge_kept _ _ _ _ E1)|]. eapply data_kept_trans; [exact (add_edge_kept _ _ _ _ E2)|].
  eapply data_kept_trans; [exact (set_parent_kept _ _ _ _ E3)|]. exact (IH _ _ E).
Qed.

(** Connecting a constraint enters it at the features it mentions. *)
Lemma modify_register_at h i cl id pos h' : modify_feature h i (fun f => Some (register cl id pos f)) = Some h' ->
  h_next h' = h_next h /\ forall j, feature_at h' j = if Nat.eqb j i then option_map (register cl id pos) (feature_at h i) else feature_at h j.
Proof.
  unfold modify_feature. intros E. apply bind_some in E. destruct E as (c & C & E). destruct (n_data c) as [f|] eqn:D; [|discriminate].
  cbn [bind] in E. injection E as <-. split; [reflexivity|]. intros j. unfold feature_at, h_set. cbn [h_cells]. destruct (Nat.eqb_spec j i) as [->|].
  - cbn [bind n_data]. rewrite C. cbn [bind]. rewrite D. reflexivity.
  - reflexivity.
Qed.

Definition entered (cl : cclass) (id : nat) (rs : list cref) (i : nid) (f f' : feature) : Prop :=
  same_data f f' /\
  (forall x, In x (f_excludes f') <-> In x (f_excludes f) \/ cl = ClassExcludes /\ x = id /\ In (Ref i) rs) /\
  (forall x, In x (f_implications f') <-> In x (f_implications f) \/ cl = ClassImplies /\ x = id /\ In (Ref i) rs).

Lemma connect_enters m cl id : forall c pos h c' p' h',
  connect m cl id c pos h = Some (c', p', h', true) ->
  h_next h' = h_next h /\ (forall r, In r (leaves c') -> exists s i, r = Ref i /\ get_feature m s = Some i) /\
  forall i f', feature_at h' i = Some f' -> exists f, feature_at h i = Some f /\ entered cl id (leaves c') i f f'.
Proof.
  induction c as [o l IHl r IHr|o e IHe|n|r]; intros pos h c' p' h' E; cbn [connect] in E.
  - apply bind_some in E. destruct E as ([[[l' p1] h1] b1] & E1 & E). apply bind_some in E. destruct E as ([[[r' p2] h2] b2] & E2 & E).
    injection E as <- <- <- B. apply andb_prop in B. destruct B as [-> ->].
    destruct (IHl _ _ _ _ _ E1) as (N1 & L1 & A1). destruct (IHr _ _ _ _ _ E2) as (N2 & L2 & A2).
    split; [congruence|]. split.
    + intros x X. cbn [leaves] in X. apply in_app_or in X. destruct X; auto.
    + intros i f2 F2. destruct (A2 i f2 F2) as (f1 & F1 & (S2 & X2 & Y2)). destruct (A1 i f1 F1) as (f & F & (S1 & X1 & Y1)).
      exists f. split; [exact F|]. split.
      * unfold same_data in *. intuition congruence.
      * cbn [leaves]. split; intros x.
        -- rewrite X2, X1, in_app_iff. tauto.
        -- rewrite Y2, Y1, in_app_iff. tauto.
  - apply bind_some in E. destruct E as ([[[l' p1] h1] b1] & E1 & E). injection E as <- <- <- B. subst b1. exact (IHe _ _ _ _ _ E1).
  - injection E as <- <- <-. split; [reflexivity|]. split; [intros r []|]. intros i f' F. exists f'. split; [exact F|].
    split; [repeat split; reflexivity|]. cbn [leaves In]. split; intros x; tauto.
  - apply bind_some in E. destruct E as (s & Es & E). destruct (get_feature m s) as [i|] eqn:G; [|injection E; discriminate].
    apply bind_some in E. destruct E as (h1 & E1 & E). injection E as <- <- <-.
    destruct (modify_register_at _ _ _ _ _ _ E1) as (N & A). split; [exact N|]. split.
    + intros x [<-|[]]. eauto.
    + intros j f' F. rewrite A in F. destruct (Nat.eqb_spec j i) as [->|Nj].
      * destruct (feature_at h i) as [f|]; [|discriminate]. injection F as <-. exists f. split; [reflexivity|].
        split; [repeat split; reflexivity|]. cbn [leaves In]. destruct cl; cbn; (split; intros x; rewrite ?in_app_iff; cbn [In]; split; intros X; intuition (try discriminate; auto)).
      * exists f'. split; [exact F|]. split; [repeat split; reflexivity|]. cbn [leaves In].
        split; intros x; split; intros X; auto; destruct X as [X|(_ & _ & [X|[]])]; auto; congruence.
Qed.

Lemma connect_class m cl id c pos h c' p' h' b : connect m cl id c pos h = Some (c', p', h', b) -> class_of c' = class_of c.
Proof.
  intros E. destruct c as [o l r|o e|n|r]; cbn [connect] in E.
  - apply bind_some in E. destruct E as ([[[l' p1] h1] b1] & E1 & E). apply bind_some in E. destruct E as ([[[r' p2] h2] b2] & E2 & E).
    injection E as <- _ _ _. destruct o; reflexivity.
  - apply bind_some in E. destruct E as ([[[l' p1] h1] b1] & E1 & E). injection E as <- _ _ _. reflexivity.
  - injection E as <- _ _ _. reflexivity.
  - apply bind_some in E. destruct E as (s & Es & E). destruct (get_feature m s) as [i|] eqn:G; [|injection E as <- _ _ _; reflexivity].
    apply bind_some in E. destruct E as (h1 & E1 & E). injection E as <- _ _ _. reflexivity.
Qed.

(** ** Modifications that keep the features enrolled *)
Lemma all_constraints_store m k c x : In x (all_constraints (store_constraint m k c)) <-> x = c \/ In x (all_constraints m).
Proof.
  unfold all_constraints. destruct k; cbn [store_constraint with_boolean with_nonboolean with_mixed m_boolean m_nonboolean m_mixed];
    rewrite ?map_app, !in_app_iff; cbn [map In x_con]; intuition congruence.
Qed.
Lemma all_constraints_perm m k c : Permutation (all_constraints (store_constraint m k c)) (c :: all_constraints m).
Proof.
  unfold all_constraints. destruct k; cbn [store_constraint with_boolean with_nonboolean with_mixed m_boolean m_nonboolean m_mixed].
  - rewrite <- app_assoc. cbn [app]. symmetry. apply Permutation_middle.
  - rewrite (app_assoc _ _ (map x_con _)), <- !app_assoc. cbn [app]. rewrite app_assoc. rewrite (app_assoc (m_boolean m)). symmetry. apply Permutation_middle.
  - rewrite map_app. cbn [map x_con]. rewrite !app_assoc. symmetry. rewrite <- (app_nil_r (_ ++ map x_con (m_mixed m))) at 1.
    etransitivity; [apply Permutation_middle|]. reflexivity.
Qed.
Lemma get_feature_store m k c s : get_feature (store_constraint m k c) s = get_feature m s.
Proof. destruct k; reflexivity. Qed.

Lemma enrolled_kept h m h' m' : data_kept h h' -> all_constraints m' = all_constraints m -> (forall s, get_feature m' s = get_feature m s) ->
  enrolled h m -> enrolled h' m'.
Proof.
  intros [L K] C G [D A X Y]. constructor.
  - rewrite C. exact D.
  - intros c I. rewrite C in I. specialize (A c I). lia.
  - intros s i f id Gs F. unfold mentioned. rewrite C. rewrite G in Gs. exact (X s i f id Gs (K i f F)).
  - intros s i f id Gs F. unfold mentioned. rewrite C. rewrite G in Gs. exact (Y s i f id Gs (K i f F)).
Qed.

Lemma add_constraint_enrolled ord h m k c h' m' : exec ord (OAddConstraint k c) (h, m) = Some ((h', m'), None) ->
  enrolled h m -> all_resolved m -> enrolled h' m' /\ all_resolved m'.
Proof.
  cbn [exec]. unfold exec_add_constraint. intros E [D A X Y] R. apply bind_some in E. destruct E as ([[[c' p] h1] ok] & E1 & E).
  destruct ok; [|discriminate]. injection E as <- <-. pose proof (connect_class _ _ _ _ _ _ _ _ _ _ E1) as Cl.
  destruct (connect_enters _ _ _ _ _ _ _ _ _ E1) as (N & Lv & F). cbn in N. set (c1 := MConstraint (h_next h) c') in *.
  assert (M : forall s i f f' cl (l : feature -> list nat) id, get_feature m s = Some i -> feature_at h i = Some f ->
    (forall x, In x (l f') <-> In x (l f) \/ class_of c = cl /\ x = h_next h /\ In (Ref i) (leaves c')) ->
    (In id (l f) <-> mentioned m cl id i) -> (In id (l f') <-> mentioned (store_constraint m k c1) cl id i)).
  { intros s i f f' cl l id G Fi Q P. rewrite Q, P. unfold mentioned. split.
    - intros [(x & Ix & Z)|(Cx & -> & Ix)].
      + exists x. rewrite all_constraints_store. auto.
      + exists c1. rewrite all_constraints_store. cbn [c1 c_id c_expr]. rewrite Cl. auto.
    - intros (x & Ix & Ei & Ec & El). rewrite all_constraints_store in Ix. destruct Ix as [->|Ix]; [|left; eauto].
      right. cbn [c1 c_id c_expr] in *. rewrite Cl in Ec. auto. }
  split.
  - constructor.
    + eapply Permutation_NoDup; [apply Permutation_map; symmetry; apply all_constraints_perm|]. cbn [map]. constructor; [|exact D].
      intros I. apply in_map_iff in I. destruct I as (x & E & I). specialize (A x I). cbn [c1 c_id] in E. lia.
    + intros x I. apply all_constraints_store in I. destruct I as [->|I]; [cbn [c1 c_id]; lia|]. specialize (A x I). lia.
    + intros s i f id G Fi. rewrite get_feature_store in G. destruct (F i f Fi) as (f0 & F0 & (_ & Q & _)).
      exact (M s i f0 f ClassExcludes f_excludes id G F0 Q (X s i f0 id G F0)).
    + intros s i f id G Fi. rewrite get_feature_store in G. destruct (F i f Fi) as (f0 & F0 & (_ & _ & Q)).
      exact (M s i f0 f ClassImplies f_implications id G F0 Q (Y s i f0 id G F0)).
  - intros x r I Ir. apply all_constraints_store in I. destruct I as [->|I].
    + cbn [c1 c_expr] in Ir. destruct (Lv r Ir) as (s & i & Er & G). exists s, i. rewrite get_feature_store. auto.
    + destruct (R x r I Ir) as (s & i & Er & G). exists s, i. rewrite get_feature_store. auto.
Qed.

Definition keeps_features (o : op) : Prop :=
  match o with OAddChild _ _ | OAddRelationship _ _ | OAddConstraint _ _ | OSetName _ | OSetCommit _ | OSetPath _ => True | _ => False end.

Lemma exec_enrolled ord o h m h' m' : keeps_features o -> exec ord o (h, m) = Some ((h', m'), None) ->
  enrolled h m -> all_resolved m -> enrolled h' m' /\ all_resolved m'.
Proof.
  intros K E En R. destruct o; try contradiction.
  - cbn [exec] in E. unfold exec_add_relationship, store_relationship in E. cbn [h_alloc] in E.
    apply bind_some in E. destruct E as (p & Ep & E). apply bind_some in E. destruct E as (h2 & E2 & E). apply bind_some in E. destruct E as (cs & Ec & E).
    apply bind_some in E. destruct E as (h3 & E3 & E). injection E as <- <-. split; [|exact R].
    apply (enrolled_kept h m); try reflexivity; [|exact En].
    eapply data_kept_trans; [|exact (data_kept_trans _ _ _ (link_kept _ _ _ _ E2) (regroup_kept _ _ _ _ _ E3))].
    split; [cbn; lia|]. intros j f F. unfold feature_at in *. cbn in F. destruct (Nat.eqb j (h_next h)); [discriminate|exact F].
  - exact (add_constraint_enrolled ord h m k c h' m' E En R).
  - injection E as <- <-. split; [|exact R]. apply (enrolled_kept h m); auto using data_kept_refl.
  - injection E as <- <-. split; [|exact R]. apply (enrolled_kept h m); auto using data_kept_refl.
  - injection E as <- <-. split; [|exact R]. apply (enrolled_kept h m); auto using data_kept_refl.
  - cbn [exec] in E. unfold exec_add_child in E. destruct (resolve m child) as [c|]; [|discriminate]. destruct (resolve m parent) as [p|]; [|discriminate].
    destruct (Nat.eqb c p); [discriminate|]. apply bind_some in E. destruct E as (cc & _ & E). apply bind_some in E. destruct E as (h1 & E1 & E).
    apply bind_some in E. destruct E as (h2 & E2 & E). apply bind_some in E. destruct E as (h3 & E3 & E). injection E as <- <-. split; [|exact R].
    apply (enrolled_kept h m); try reflexivity; [|exact En].
    assert (data_kept h h1) by (destruct (n_parent cc); [exact (remove_edge_kept _ _ _ _ E1)|injection E1 as <-; apply data_kept_refl]).
    eapply data_kept_trans; [exact H|]. eapply data_kept_trans; [exact (add_edge_kept _ _ _ _ E2)|exact (set_parent_kept _ _ _ _ E3)].
Qed.

Lemma run_enrolled ord ops : forall w w', (forall o, In o ops -> keeps_features o) -> run ord ops w = Some (w', None) ->
  enrolled (fst w) (snd w) -> all_resolved (snd w) -> enrolled (fst w') (snd w') /\ all_resolved (snd w').
Proof.
  induction ops as [|o r IH]; intros [h m] w' K E En R; cbn [run] in E.
  - injection E as <-. auto.
  - apply bind_some in E. destruct E as ([[h1 m1] e] & E1 & E). destruct e; [discriminate|].
    destruct (exec_enrolled ord o h m h1 m1 (K o (or_introl eq_refl)) E1 En R) as (En1 & R1).
    apply (IH (h1, m1) w'); auto. intros x X. apply K. right. exact X.
Qed.
