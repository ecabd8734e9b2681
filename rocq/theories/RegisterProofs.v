(** Features know the constraints that mention them. *)
From Coq Require Import List ZArith Arith Bool Ascii String Permutation Lia.
From Verif Require Import Text TextProofs ConstraintModel ConstraintSpec SourceRangeModel FeatureTreeModel FeatureTreeSpec FeatureTransactionModel
  FeatureEditSpec FeatureTreeProofs FeatureEditProofs FeatureBuildSpec SxfmModel XmlModel XmlSpec XmlEnrollProofs RegisterSpec.
Import ListNotations.

Definition same4 (f g : feature) : Prop :=
  f_name g = f_name f /\ f_constraints g = f_constraints f /\ f_excludes g = f_excludes f /\ f_implications g = f_implications f.
Lemma same4_refl f : same4 f f.
Proof. repeat split. Qed.
Lemma same4_trans a b c : same4 a b -> same4 b c -> same4 a c.
Proof. unfold same4. intuition congruence. Qed.

(** ** Steps that keep the model *)
Definition carried (h h' : heap) : Prop :=
  h_next h <= h_next h' /\ (heap_ok h -> heap_ok h') /\ forall i f', feature_at h' i = Some f' -> exists f, feature_at h i = Some f /\ same4 f f'.
Lemma carried_refl h : carried h h.
Proof. split; [lia|]. split; [auto|]. intros i f F. exists f. split; [exact F|apply same4_refl]. Qed.
Lemma carried_trans a b c : carried a b -> carried b c -> carried a c.
Proof.
  intros (L1 & O1 & A) (L2 & O2 & B). split; [lia|]. split; [auto|]. intros i f F. destruct (B i f F) as (g & G & S1). destruct (A i g G) as (k & K & S2).
  exists k. split; [exact K|]. eapply same4_trans; eassumption.
Qed.
Lemma h_modify_carried h i g h' : (forall c, n_data (g c) = n_data c) -> h_modify h i g = Some h' -> carried h h'.
Proof.
  intros G E. pose proof (h_modify_kept h i g h' G E) as (L & K). split; [exact L|]. split.
  - unfold h_modify in E. apply bind_some in E. destruct E as (c & C & E). injection E as <-. intros O. apply h_set_ok; [exact O|]. eapply heap_ok_live; eassumption.
  - intros j f F. exists f. split; [exact (K j f F)|apply same4_refl].
Qed.
Lemma set_parent_carried h i p h' : set_parent h i p = Some h' -> carried h h'.
Proof. apply h_modify_carried. reflexivity. Qed.
Lemma add_edge_carried h i p h' : add_edge h i p = Some h' -> carried h h'.
Proof. unfold add_edge. apply h_modify_carried. reflexivity. Qed.
Lemma remove_edge_carried h i p h' : remove_edge h i p = Some h' -> carried h h'.
Proof. unfold remove_edge. apply h_modify_carried. reflexivity. Qed.
Lemma link_carried h p c h' : link h p c = Some h' -> carried h h'.
Proof.
  unfold link. intros E. apply bind_some in E. destruct E as (h1 & E1 & E2).
  exact (carried_trans _ _ _ (set_parent_carried _ _ _ _ E1) (add_edge_carried _ _ _ _ E2)).
Qed.
Lemma regroup_carried a b cs : forall h h', regroup h a b cs = Some h' -> carried h h'.
Proof.
  induction cs as [|c r IH]; intros h h' E; cbn [regroup] in E; [injection E as <-; apply carried_refl|].
  apply bind_some in E. destruct E as (ca & _ & E). apply bind_some in E. destruct E as (cc & _ & E).
  destruct (_ && _); [|discriminate].
  apply bind_some in E. destruct E as (h1 & E1 & E). apply bind_some in E. destruct E as (h2 & E2 & E). apply bind_some in E. destruct E as (h3 & E3 & E).
  eapply carried_trans; [exact (remove_edge_carried _ _ _ _ E1)|]. eapply carried_trans; [exact (add_edge_carried _ _ _ _ E2)|].
  eapply carried_trans; [exact (set_parent_carried _ _ _ _ E3)|]. exact (IH _ _ E).
Qed.
Lemma attach_all_carried new cs : forall h h', attach_all h new cs = Some h' -> carried h h'.
Proof.
  induction cs as [|c r IH]; intros h h' E; cbn [attach_all] in E; [injection E as <-; apply carried_refl|].
  apply bind_some in E. destruct E as (h1 & E1 & E). eapply carried_trans; [exact (link_carried _ _ _ _ E1)|exact (IH _ _ E)].
Qed.
Lemma detach_all_carried old cs : forall h h', detach_all h old cs = Some h' -> carried h h'.
Proof.
  induction cs as [|c r IH]; intros h h' E; cbn [detach_all] in E; [injection E as <-; apply carried_refl|].
  apply bind_some in E. destruct E as (h1 & E1 & E). eapply carried_trans; [exact (remove_edge_carried _ _ _ _ E1)|exact (IH _ _ E)].
Qed.
Lemma modify_locations_carried h i g h' : (forall f f', g f = Some f' -> same4 f f') -> modify_feature h i g = Some h' -> carried h h'.
Proof.
  intros G E. unfold modify_feature in E. apply bind_some in E. destruct E as (c & C & E). destruct (n_data c) as [f|] eqn:D; [|discriminate].
  apply bind_some in E. destruct E as (f1 & Ef & E). injection E as <-. split; [reflexivity|]. split.
  - intros O. apply h_set_ok; [exact O|]. eapply heap_ok_live; eassumption.
  - intros j f' F. unfold feature_at, h_set in *. cbn [h_cells] in F. destruct (Nat.eqb_spec j i) as [->|N].
    + cbn [bind n_data] in F. injection F as <-. exists f. rewrite C. cbn [bind]. rewrite D. split; [reflexivity|exact (G _ _ Ef)].
    + exists f'. split; [exact F|apply same4_refl].
Qed.

(** ** Steps that change the model *)
Definition sound (w : world) : Prop := heap_ok (fst w) /\ forall s i, get_feature (snd w) s = Some i -> i < h_next (fst w).
Definition moved (w w' : world) : Prop := sound w ->
  h_next (fst w) <= h_next (fst w') /\ sound w' /\ all_constraints (snd w') = all_constraints (snd w) /\
  forall s i f', get_feature (snd w') s = Some i -> feature_at (fst w') i = Some f' ->
    (exists f, get_feature (snd w) s = Some i /\ feature_at (fst w) i = Some f /\ same4 f f') \/
    (h_next (fst w) <= i /\ f_name f' = s /\ fresh f').
Lemma moved_carried h m h' : carried h h' -> moved (h, m) (h', m).
Proof.
  intros (L & O & K) (So & Sk). cbn [fst snd] in *. split; [exact L|]. split; [split; [exact (O So)|cbn; intros s i G; specialize (Sk s i G); lia]|]. split; [reflexivity|].
  intros s i f' G F. left. destruct (K i f' F) as (f & Ff & Sf). exists f. auto.
Qed.
Lemma moved_refl w : moved w w.
Proof. destruct w. apply moved_carried, carried_refl. Qed.
Lemma moved_trans a b c : moved a b -> moved b c -> moved a c.
Proof.
  intros M1 M2 Sa. destruct (M1 Sa) as (L1 & Sb & C1 & A). destruct (M2 Sb) as (L2 & Sc & C2 & B). split; [lia|]. split; [exact Sc|]. split; [congruence|]. intros s i f G F. destruct (B s i f G F) as [(g & Gg & Fg & S1)|(Lg & X)].
  - destruct (A s i g Gg Fg) as [(k & Gk & Fk & S2)|(Lk & Nk & K1 & K2 & K3)].
    + left. exists k. split; [exact Gk|]. split; [exact Fk|]. eapply same4_trans; eassumption.
    + right. split; [exact Lk|]. destruct S1 as (S1 & S2 & S3 & S4). unfold fresh. rewrite S1, S2, S3, S4. auto.
  - right. split; [lia|exact X].
Qed.
Lemma moved_model h m m' : all_constraints m' = all_constraints m -> (forall s i, get_feature m' s = Some i -> get_feature m s = Some i) -> moved (h, m) (h, m').
Proof.
  intros C G (So & Sk). split; [cbn; lia|]. split; [split; [exact So|cbn in *; intros s i X; exact (Sk s i (G s i X))]|]. split; [exact C|]. cbn. intros s i f Gs F. left. exists f. split; [auto|]. split; [exact F|apply same4_refl].
Qed.
Lemma freed_carried h j : carried h (h_set h j None).
Proof.
  split; [cbn; lia|]. split.
  - intros O i Li. cbn in *. destruct (Nat.eqb i j); [reflexivity|]. apply O. exact Li.
  - intros i f F. exists f. split; [|apply same4_refl]. unfold feature_at, h_set in *. cbn [h_cells] in F. destruct (Nat.eqb i j); [discriminate|exact F].
Qed.
Lemma find_name_filter s s' l i : find_name s' (filter (fun e => negb (text_eqb (fst e) s)) l) = Some i -> find_name s' l = Some i.
Proof.
  induction l as [|(k, j) l IH]; cbn [filter find_name fst]; [auto|]. destruct (text_eqb k s) eqn:E; cbn [negb].
  - intros F. destruct (text_eqb k s') eqn:E'; [|auto]. exfalso. apply text_eqb_eq in E, E'. subst. clear -F. induction l as [|(k, j') l IH]; cbn [filter find_name fst] in F; [discriminate|].
    destruct (text_eqb k s') eqn:E; cbn [negb] in F; [auto|]. cbn [find_name] in F. rewrite E in F. auto.
  - cbn [find_name]. destruct (text_eqb k s'); auto.
Qed.
Lemma erase_feature_moved h m i w : erase_feature h m i = Some w -> moved (h, m) w.
Proof.
  unfold erase_feature. intros E. apply bind_some in E. destruct E as (s & _ & E).
  set (m1 := match m_root m with Some r => if Nat.eqb i r then with_root m None else m | None => m end) in *.
  assert (all_constraints m1 = all_constraints m /\ m_features m1 = m_features m) as (C & F) by (unfold m1; destruct (m_root m) as [r|]; [destruct (Nat.eqb i r)|]; split; reflexivity).
  destruct (get_feature m s) as [j|] eqn:G; injection E as <-.
  - eapply moved_trans; [exact (moved_carried h m _ (freed_carried h j))|]. apply moved_model; [exact C|]. unfold get_feature. cbn [with_features m_features]. rewrite F. intros s' i'. apply find_name_filter.
  - apply moved_model; [exact C|]. unfold get_feature. rewrite F. auto.
Qed.
Lemma erase_relationship_moved h m i w : erase_relationship h m i = Some w -> moved (h, m) w.
Proof.
  unfold erase_relationship. destruct (mem i (m_relationships m)); [|discriminate]. intros E. injection E as <-.
  eapply moved_trans; [exact (moved_carried h m _ (freed_carried h i))|]. apply moved_model; [reflexivity|auto].
Qed.
Lemma detach_moved h m f w : detach h m f = Some w -> moved (h, m) w.
Proof.
  unfold detach. intros E. apply bind_some in E. destruct E as (c & _ & E). apply bind_some in E. destruct E as (p & _ & E). apply bind_some in E. destruct E as (h1 & E1 & E).
  eapply moved_trans; [exact (moved_carried h m h1 (remove_edge_carried _ _ _ _ E1))|]. exact (erase_feature_moved _ _ _ _ E).
Qed.
Lemma fold_moved {A} (F : world -> A -> option world) (l : list A) : (forall w a w', F w a = Some w' -> moved w w') ->
  forall w w', fold_left (fun o a => let* w := o in F w a) l (Some w) = Some w' -> moved w w'.
Proof.
  intros HF. induction l as [|a l IH]; intros w w' E; cbn [fold_left] in E; [injection E as <-; apply moved_refl|]. cbn [bind] in E.
  destruct (F w a) as [w1|] eqn:E1.
  - eapply moved_trans; [exact (HF _ _ _ E1)|exact (IH _ _ E)].
  - exfalso. clear -E. induction l as [|b l IH]; cbn in E; [discriminate|auto].
Qed.
Lemma remove_tree_moved ord fuel : forall w f w', remove_tree ord fuel w f = Some w' -> moved w w'.
Proof.
  induction fuel as [|k IH]; intros w f w' E; [discriminate|]. cbn [remove_tree] in E.
  apply bind_some in E. destruct E as (cs & _ & E). apply bind_some in E. destruct E as (w1 & E1 & E). apply bind_some in E. destruct E as (rs & _ & E). apply bind_some in E. destruct E as (w2 & E2 & E).
  eapply moved_trans; [exact (fold_moved _ cs IH _ _ E1)|]. eapply moved_trans; [|pose proof (detach_moved _ _ _ _ E) as Md; rewrite <- surjective_pairing in Md; exact Md].
  refine (fold_moved (fun w r => let* h := remove_edge (fst w) f r in erase_relationship h (snd w) r) rs _ _ _ E2).
  intros [h m] r w3 E3. cbn [fst snd] in E3. apply bind_some in E3. destruct E3 as (h1 & X & Y). eapply moved_trans; [exact (moved_carried h m h1 (remove_edge_carried _ _ _ _ X))|exact (erase_relationship_moved _ _ _ _ Y)].
Qed.
Lemma find_name_app s a b : find_name s (a ++ b) = match find_name s a with Some i => Some i | None => find_name s b end.
Proof. induction a as [|(k, i) a IH]; cbn [app find_name]; [reflexivity|]. destruct (text_eqb k s); [reflexivity|exact IH]. Qed.
Lemma store_feature_moved h m f i h' m' : fresh f -> store_feature h m f = Some (i, h', m') -> moved (h, m) (h', m').
Proof.
  intros Fr. unfold store_feature. destruct (get_feature m (f_name f)); [discriminate|]. cbn [h_alloc]. intros E. injection E as <- <- <-. intros (So & Sk). cbn [fst snd] in *.
  assert (forall s j, get_feature (with_features m (m_features m ++ [(f_name f, h_next h)])) s = Some j -> get_feature m s = Some j \/ (s = f_name f /\ j = h_next h)) as K.
  { intros s j G. unfold get_feature in *. cbn [with_features m_features] in G. rewrite find_name_app in G. destruct (find_name s (m_features m)) as [k|]; [left; exact G|].
    cbn [find_name] in G. destruct (text_eqb (f_name f) s) eqn:E; [|discriminate]. apply text_eqb_eq in E. injection G as <-. right. auto. }
  split; [cbn; lia|]. split; [split|].
  - cbn. intros j J. cbn in J. cbn [h_cells]. destruct (Nat.eqb_spec j (h_next h)); [lia|]. apply So. lia.
  - cbn [fst snd h_next]. intros s j G. destruct (K s j G) as [G'|(_ & ->)]; [specialize (Sk s j G')|]; lia.
  - split; [reflexivity|]. intros s j f' G F. unfold feature_at in F. cbn [h_cells] in F. destruct (K s j G) as [G'|(-> & ->)].
    + specialize (Sk s j G'). destruct (Nat.eqb_spec j (h_next h)) as [->|_]; [lia|]. left. exists f'. split; [exact G'|]. split; [exact F|apply same4_refl].
    + rewrite Nat.eqb_refl in F. cbn [bind n_data] in F. injection F as <-. right. split; [lia|]. auto.
Qed.
Lemma store_relationship_moved h m k i h' m' : store_relationship h m k = (i, h', m') -> moved (h, m) (h', m').
Proof.
  unfold store_relationship. cbn [h_alloc]. intros E. injection E as <- <- <-. intros (So & Sk). cbn [fst snd] in *. split; [cbn; lia|]. split; [split|].
  - cbn. intros j J. cbn in J. cbn [h_cells]. destruct (Nat.eqb_spec j (h_next h)); [lia|]. apply So. lia.
  - cbn [fst snd h_next]. intros s j G. specialize (Sk s j G). lia.
  - split; [reflexivity|]. intros s j f' G F. left. exists f'. split; [exact G|]. split; [|apply same4_refl]. unfold feature_at in *. cbn [h_cells] in F. destruct (Nat.eqb j (h_next h)); [discriminate|exact F].
Qed.
Lemma root_fresh s : fresh (root_feature s).
Proof. repeat split. Qed.

(** All modifications but the addition of constraints. *)
Lemma exec_moved ord o h m w e : fresh_op o -> (forall k c, o <> OAddConstraint k c) -> exec ord o (h, m) = Some (w, e) -> moved (h, m) w.
Proof.
  intros Fr Nc E. destruct o as [f p|r b|k r|r|r l|r l|k c|s|s|s|s|p c]; cbn [exec] in E.
  - unfold exec_add_feature in E. destruct (store_feature h m f) as [((i & h1) & m1)|] eqn:St; [|injection E as <- _; apply moved_refl]. pose proof (store_feature_moved _ _ _ _ _ _ Fr St) as M.
    destruct p as [p|]; [|destruct (m_root m1) as [r|]].
    + apply bind_some in E. destruct E as (h2 & El & E). injection E as <- _. eapply moved_trans; [exact M|]. apply moved_carried. exact (link_carried _ _ _ _ El).
    + apply bind_some in E. destruct E as (h2 & El & E). injection E as <- _. eapply moved_trans; [exact M|]. apply moved_carried. exact (link_carried _ _ _ _ El).
    + injection E as <- _. exact M.
  - unfold exec_remove_feature in E. destruct (resolve m r) as [f|]; [|injection E as <- _; apply moved_refl]. destruct b.
    + apply bind_some in E. destruct E as (w1 & E1 & E). injection E as <- _. exact (remove_tree_moved _ _ _ _ _ E1).
    + apply bind_some in E. destruct E as (cs & _ & E). destruct cs; [|injection E as <- _; apply moved_refl]. apply bind_some in E. destruct E as (rs & _ & E). apply bind_some in E. destruct E as (w1 & E1 & E).
      apply bind_some in E. destruct E as (w2 & E2 & E). injection E as <- _. eapply moved_trans; [|pose proof (detach_moved _ _ _ _ E2) as Md; rewrite <- surjective_pairing in Md; exact Md].
      destruct rs; [injection E1 as <-; apply moved_refl|exact (erase_relationship_moved _ _ _ _ E1)].
  - unfold exec_add_relationship in E. destruct (store_relationship h m k) as ((i & h1) & m1) eqn:St. apply bind_some in E. destruct E as (p & _ & E). apply bind_some in E. destruct E as (h2 & E2 & E).
    apply bind_some in E. destruct E as (cs & _ & E). apply bind_some in E. destruct E as (h3 & E3 & E). injection E as <- _. eapply moved_trans; [exact (store_relationship_moved _ _ _ _ _ _ St)|].
    apply moved_carried. eapply carried_trans; [exact (link_carried _ _ _ _ E2)|exact (regroup_carried _ _ _ _ _ E3)].
  - unfold exec_remove_relationship in E. destruct (resolve m r) as [p|]; [|injection E as <- _; apply moved_refl]. apply bind_some in E. destruct E as (rs & _ & E). destruct rs as [|i rs]; [discriminate|].
    apply bind_some in E. destruct E as (h1 & E1 & E). apply bind_some in E. destruct E as (cs & _ & E). apply bind_some in E. destruct E as (h2 & E2 & E). apply bind_some in E. destruct E as (w1 & E3 & E). injection E as <- _.
    eapply moved_trans; [|exact (erase_relationship_moved _ _ _ _ E3)]. apply moved_carried. eapply carried_trans; [exact (remove_edge_carried _ _ _ _ E1)|exact (regroup_carried _ _ _ _ _ E2)].
  - unfold exec_add_location in E. apply bind_some in E. destruct E as (i & _ & E). apply bind_some in E. destruct E as (h1 & E1 & E). injection E as <- _. apply moved_carried.
    eapply modify_locations_carried; [|exact E1]. intros f f' X. injection X as <-. repeat split.
  - unfold exec_remove_location in E. apply bind_some in E. destruct E as (i & _ & E). apply bind_some in E. destruct E as (h1 & E1 & E). injection E as <- _. apply moved_carried.
    eapply modify_locations_carried; [|exact E1]. intros f f' X. apply bind_some in X. destruct X as (ls & _ & X). injection X as <-. repeat split.
  - exfalso. exact (Nc k c eq_refl).
  - injection E as <- _. apply moved_model; [reflexivity|auto].
  - injection E as <- _. apply moved_model; [reflexivity|auto].
  - injection E as <- _. apply moved_model; [reflexivity|auto].
  - unfold exec_set_root in E.
    assert (forall w e, match store_feature h m (root_feature s) with
      | None => failure ALREADY_PRESENT (h, m)
      | Some (i, h1, m1) => match m_root m1 with
          | None => success (h1, with_root m1 (Some i))
          | Some r => let* c := h_cells h1 r in let* h2 := attach_all h1 i (n_edges c) in let* ci := h_cells h2 i in let* h3 := detach_all h2 r (n_edges ci) in
              let* (h4, m2) := erase_feature h3 m1 r in success (h4, with_root m2 (Some i)) end end = Some (w, e) -> moved (h, m) w) as Ins.
    { clear. intros w e E. destruct (store_feature h m (root_feature s)) as [((i & h1) & m1)|] eqn:St; [|injection E as <- _; apply moved_refl]. eapply moved_trans; [exact (store_feature_moved _ _ _ _ _ _ (root_fresh s) St)|].
      destruct (m_root m1) as [r|]; [|injection E as <- _; apply moved_model; [reflexivity|auto]].
      apply bind_some in E. destruct E as (c & _ & E). apply bind_some in E. destruct E as (h2 & E2 & E). apply bind_some in E. destruct E as (ci & _ & E). apply bind_some in E. destruct E as (h3 & E3 & E).
      apply bind_some in E. destruct E as ((h4 & m2) & E4 & E). injection E as <- _. eapply moved_trans; [apply moved_carried; eapply carried_trans; [exact (attach_all_carried _ _ _ _ E2)|exact (detach_all_carried _ _ _ _ E3)]|].
      eapply moved_trans; [exact (erase_feature_moved _ _ _ _ E4)|]. apply moved_model; [reflexivity|auto]. }
    destruct (m_root m) as [r|]; [|exact (Ins _ _ E)]. apply bind_some in E. destruct E as (t & _ & E). destruct (text_eqb t s); [injection E as <- _; apply moved_refl|exact (Ins _ _ E)].
  - unfold exec_add_child in E. destruct (resolve m c) as [i|]; [|injection E as <- _; apply moved_refl]. destruct (resolve m p) as [q|]; [|injection E as <- _; apply moved_refl]. destruct (Nat.eqb i q); [injection E as <- _; apply moved_refl|].
    apply bind_some in E. destruct E as (cc & _ & E). apply bind_some in E. destruct E as (h1 & E1 & E). apply bind_some in E. destruct E as (h2 & E2 & E). apply bind_some in E. destruct E as (h3 & E3 & E). injection E as <- _.
    apply moved_carried. eapply carried_trans; [|eapply carried_trans; [exact (add_edge_carried _ _ _ _ E2)|exact (set_parent_carried _ _ _ _ E3)]].
    destruct (n_parent cc); [exact (remove_edge_carried _ _ _ _ E1)|injection E1 as <-; apply carried_refl].
Qed.
Lemma unmentioned i e : ~ In (Ref i) (leaves e) -> how_often i e = 0.
Proof.
  unfold how_often. induction (leaves e) as [|r l IH]; [reflexivity|]. intros N. cbn [filter]. destruct r as [s|j]; [apply IH; intros X; apply N; right; exact X|].
  destruct (Nat.eqb_spec j i) as [->|]; [destruct N; left; reflexivity|apply IH; intros X; apply N; right; exact X].
Qed.
Lemma moved_registered h m h' m' : moved (h, m) (h', m') -> registered h m -> registered h' m'.
Proof.
  intros M [[I1 I2 I3 I4 I5 I6] Ho Ke Na Di Id Re]. destruct (M (conj Ho Ke)) as (L & (So & Sk) & C & A). cbn [fst snd] in *.
  assert (forall i, h_next h <= i -> forall id pos, ~ mention_at m' id pos i) as Nm.
  { intros i Li id pos (c & Ic & _ & N). rewrite C in Ic. apply nth_error_In in N. specialize (Re c i Ic N). lia. }
  assert (forall i, h_next h <= i -> forall cl id, ~ mentioned m' cl id i) as Nm'.
  { intros i Li cl id (c & Ic & _ & _ & N). rewrite C in Ic. specialize (Re c i Ic N). lia. }
  assert (forall i, h_next h <= i -> forall c, In c (all_constraints m') -> how_often i (c_expr c) = 0) as Nh.
  { intros i Li c Ic. apply unmentioned. intros X. apply (Nm' i Li (class_of (c_expr c)) (c_id c)). exists c. auto. }
  constructor; auto.
  - constructor; intros s i f'.
    + intros id pos G F. destruct (A s i f' G F) as [(f & Gf & Ff & (_ & -> & _))|(Li & _ & -> & _)].
      * unfold mention_at. rewrite C. apply (I1 s i f); assumption.
      * split; [intros []|intros X; destruct (Nm i Li id pos X)].
    + intros G F. destruct (A s i f' G F) as [(f & Gf & Ff & (_ & -> & _))|(Li & _ & -> & _)]; [exact (I2 s i f Gf Ff)|constructor].
    + intros id G F. destruct (A s i f' G F) as [(f & Gf & Ff & (_ & _ & -> & _))|(Li & _ & _ & -> & _)].
      * unfold mentioned. rewrite C. apply (I3 s i f); assumption.
      * split; [intros []|intros X; destruct (Nm' i Li _ id X)].
    + intros id G F. destruct (A s i f' G F) as [(f & Gf & Ff & (_ & _ & _ & ->))|(Li & _ & _ & _ & ->)].
      * unfold mentioned. rewrite C. apply (I4 s i f); assumption.
      * split; [intros []|intros X; destruct (Nm' i Li _ id X)].
    + intros c G F Ic Cl. destruct (A s i f' G F) as [(f & Gf & Ff & (_ & _ & -> & _))|(Li & _ & _ & -> & _)]; [rewrite C in Ic; exact (I5 s i f c Gf Ff Ic Cl)|]. rewrite (Nh i Li c Ic). reflexivity.
    + intros c G F Ic Cl. destruct (A s i f' G F) as [(f & Gf & Ff & (_ & _ & _ & ->))|(Li & _ & _ & _ & ->)]; [rewrite C in Ic; exact (I6 s i f c Gf Ff Ic Cl)|]. rewrite (Nh i Li c Ic). reflexivity.
  - intros s i f' G F. destruct (A s i f' G F) as [(f & Gf & Ff & (-> & _))|(Li & E & _)]; [exact (Na s i f Gf Ff)|exact E].
  - rewrite C. exact Di.
  - intros c Ic. rewrite C in Ic. specialize (Id c Ic). lia.
  - intros c i Ic Il. rewrite C in Ic. specialize (Re c i Ic Il). lia.
Qed.

(** ** Adding a constraint *)
Fixpoint places (i : nid) (rs : list cref) (pos : nat) : list nat :=
  match rs with
  | [] => []
  | r :: l => (match r with Ref j => if Nat.eqb j i then [pos] else [] | Own _ => [] end) ++ places i l (S pos)
  end.
Lemma places_app i a : forall b pos, places i (a ++ b) pos = places i a pos ++ places i b (pos + List.length a).
Proof. induction a as [|r a IH]; intros b pos; cbn [app places List.length]; [rewrite Nat.add_0_r; reflexivity|]. rewrite IH, <- app_assoc. do 2 f_equal. f_equal. lia. Qed.
Lemma places_iff i rs : forall pos p, In p (places i rs pos) <-> exists k, p = pos + k /\ nth_error rs k = Some (Ref i).
Proof.
  induction rs as [|r rs IH]; intros pos p; cbn [places].
  - split; [intros []|intros (k & _ & N); destruct k; discriminate].
  - rewrite in_app_iff, IH. split.
    + intros [I|(k & -> & N)].
      * destruct r as [|j]; [destruct I|]. destruct (Nat.eqb_spec j i) as [->|]; [|destruct I]. destruct I as [<-|[]]. exists 0. split; [lia|reflexivity].
      * exists (S k). split; [lia|exact N].
    + intros ([|k] & -> & N); cbn [nth_error] in N.
      * left. injection N as ->. rewrite Nat.eqb_refl. left. lia.
      * right. exists k. split; [lia|exact N].
Qed.
Lemma places_nodup i rs : forall pos, NoDup (places i rs pos).
Proof.
  induction rs as [|r rs IH]; intros pos; cbn [places]; [constructor|]. destruct r as [|j]; [apply IH|]. destruct (Nat.eqb j i); [|apply IH]. cbn [app]. constructor; [|apply IH].
  intros I. apply places_iff in I. destruct I as (k & E & _). lia.
Qed.
Lemma places_often i e : forall pos, List.length (places i (leaves e) pos) = how_often i e.
Proof.
  unfold how_often. induction (leaves e) as [|r l IH]; intros pos; [reflexivity|]. cbn [places filter]. rewrite app_length, IH. destruct r as [s|j]; [reflexivity|]. destruct (Nat.eqb j i); reflexivity.
Qed.
Lemma count_same {A} (x y : nat) (l : list A) : count_occ Nat.eq_dec (map (fun _ => x) l) y = if Nat.eqb x y then List.length l else 0.
Proof. induction l as [|a l IH]; cbn [map count_occ List.length]; [destruct (Nat.eqb x y); reflexivity|]. rewrite IH. destruct (Nat.eq_dec x y) as [->|N]; [rewrite Nat.eqb_refl; reflexivity|]. destruct (Nat.eqb_spec x y); [contradiction|reflexivity]. Qed.
Definition noted (cl : cclass) (id : nat) (ps : list nat) (f f' : feature) : Prop :=
  f_name f' = f_name f /\ f_constraints f' = f_constraints f ++ map (fun p => (id, p)) ps /\
  f_excludes f' = f_excludes f ++ (match cl with ClassExcludes => map (fun _ => id) ps | _ => [] end) /\
  f_implications f' = f_implications f ++ (match cl with ClassImplies => map (fun _ => id) ps | _ => [] end).
Lemma noted_none cl id f : noted cl id [] f f.
Proof. unfold noted. destruct cl; cbn [map]; rewrite !app_nil_r; auto. Qed.
Lemma connect_notes m cl id : forall c pos h c' p' h' b, (forall s i f, get_feature m s = Some i -> feature_at h i = Some f -> f_name f = s) -> heap_ok h ->
  connect m cl id c pos h = Some (c', p', h', b) ->
  h_next h' = h_next h /\ heap_ok h' /\ p' = pos + List.length (leaves c') /\ (forall i, In (Ref i) (leaves c') -> i < h_next h) /\
  forall i f', feature_at h' i = Some f' -> exists f, feature_at h i = Some f /\ f_name f' = f_name f /\ ((exists s, get_feature m s = Some i) -> noted cl id (places i (leaves c') pos) f f').
Proof.
  induction c as [o l IHl r IHr|o e IHe|n|r]; intros pos h c' p' h' b Na Ho E; cbn [connect] in E.
  - apply bind_some in E. destruct E as ([[[l' p1] h1] b1] & E1 & E). apply bind_some in E. destruct E as ([[[r' p2] h2] b2] & E2 & E). injection E as <- <- <- _.
    destruct (IHl _ _ _ _ _ _ Na Ho E1) as (N1 & Ho1 & P1 & L1 & A1).
    destruct (IHr _ _ _ _ _ _ (fun s i f' G F => match A1 i f' F with ex_intro _ f (conj Ff (conj Nf _)) => eq_trans Nf (Na s i f G Ff) end) Ho1 E2) as (N2 & Ho2 & P2 & L2 & A2).
    split; [congruence|]. split; [exact Ho2|]. cbn [leaves]. rewrite app_length. split; [lia|]. split.
    + intros i I. apply in_app_iff in I. destruct I as [I|I]; [exact (L1 i I)|rewrite <- N1; exact (L2 i I)].
    + intros i f2 F2. destruct (A2 i f2 F2) as (f1 & F1 & S2 & X2). destruct (A1 i f1 F1) as (f & F & S1 & X1). exists f. split; [exact F|]. split; [congruence|]. intros G.
      destruct (X1 G) as (_ & C1 & Ex1 & Im1). destruct (X2 G) as (_ & C2 & Ex2 & Im2). rewrite places_app, <- P1. unfold noted. rewrite C2, C1, Ex2, Ex1, Im2, Im1, !map_app, <- !app_assoc.
      split; [congruence|]. destruct cl; rewrite ?map_app, ?app_nil_r, <- ?app_assoc; auto.
  - apply bind_some in E. destruct E as ([[[l' p1] h1] b1] & E1 & E). injection E as <- <- <- _. exact (IHe _ _ _ _ _ _ Na Ho E1).
  - injection E as <- <- <- _. split; [reflexivity|]. split; [exact Ho|]. cbn [leaves List.length]. split; [lia|]. split; [intros i []|]. intros i f F. exists f. split; [exact F|]. split; [reflexivity|]. intros _. apply noted_none.
  - apply bind_some in E. destruct E as (s & Es & E). destruct (get_feature m s) as [i|] eqn:G.
    + apply bind_some in E. destruct E as (h1 & E1 & E). injection E as <- <- <- _. destruct (modify_register_at _ _ _ _ _ _ E1) as (N & A). split; [exact N|].
      assert (exists c, h_cells h i = Some c) as (c & C). { unfold modify_feature in E1. apply bind_some in E1. destruct E1 as (c & C & _). eauto. }
      split. { intros j J. unfold modify_feature in E1. rewrite C in E1. cbn [bind] in E1. destruct (n_data c); [|discriminate]. injection E1 as <-. apply h_set_ok; [exact Ho|eapply heap_ok_live; eassumption|exact J]. }
      cbn [leaves List.length]. split; [lia|]. split; [intros j [X|[]]; injection X as <-; eapply heap_ok_live; eassumption|].
      intros j f' F. rewrite A in F. cbn [places]. destruct (Nat.eqb_spec j i) as [->|Nj].
      * destruct (feature_at h i) as [f|]; [|discriminate]. injection F as <-. exists f. split; [reflexivity|]. split; [reflexivity|]. intros _. rewrite Nat.eqb_refl. unfold noted. destruct cl; cbn; rewrite ?app_nil_r; auto.
      * exists f'. split; [exact F|]. split; [reflexivity|]. intros _. destruct (Nat.eqb_spec i j); [congruence|]. apply noted_none.
    + injection E as <- <- <- _. split; [reflexivity|]. split; [exact Ho|]. cbn [leaves List.length]. split; [lia|]. split.
      * intros j [->|[]]. cbn [cref_name] in Es. unfold name_at, feature_at in Es. apply bind_some in Es. destruct Es as (f & Es & _). apply bind_some in Es. destruct Es as (c & C & _). eapply heap_ok_live; eassumption.
      * intros j f F. exists f. split; [exact F|]. split; [reflexivity|]. intros (s' & G'). cbn [places]. destruct r as [t|k]; [apply noted_none|]. destruct (Nat.eqb_spec k j) as [->|]; [|apply noted_none].
        exfalso. cbn [cref_name] in Es. unfold name_at in Es. rewrite F in Es. cbn [bind] in Es. injection Es as <-. rewrite (Na s' j f G' F) in G. congruence.
Qed.
Lemma add_constraint_registered h m k c w e : exec_add_constraint h m k c = Some (w, e) -> registered h m -> registered (fst w) (snd w).
Proof.
  unfold exec_add_constraint. intros E [[I1 I2 I3 I4 I5 I6] Ho Ke Na Di Id Re]. apply bind_some in E. destruct E as ([[[c' p] h1] ok] & E1 & E).
  pose proof (connect_class _ _ _ _ _ _ _ _ _ _ E1) as Cl.
  assert (heap_ok (Heap (h_cells h) (S (h_next h)))) as Ho' by (intros i Li; cbn in *; apply Ho; lia).
  destruct (connect_notes m (class_of c) (h_next h) c 0 (Heap (h_cells h) (S (h_next h))) c' p h1 ok Na Ho' E1) as (N & Ho1 & _ & Lv & F). cbn in N.
  assert (w = (h1, store_constraint m k (MConstraint (h_next h) c'))) as -> by (destruct ok; injection E as <- _; reflexivity). cbn [fst snd].
  set (c1 := MConstraint (h_next h) c') in *. clear E E1.
  assert (forall x, In x (all_constraints (store_constraint m k c1)) <-> x = c1 \/ In x (all_constraints m)) as Al by (intros x; apply all_constraints_store).
  assert (Fx : forall s i f', get_feature (store_constraint m k c1) s = Some i -> feature_at h1 i = Some f' -> exists f, get_feature m s = Some i /\ feature_at h i = Some f /\ noted (class_of c) (h_next h) (places i (leaves c') 0) f f').
  { intros s i f' G Ff. rewrite get_feature_store in G. destruct (F i f' Ff) as (f & Ff0 & _ & X). exists f. split; [exact G|]. split; [exact Ff0|]. apply X. eauto. }
  assert (Pm : forall i id, In id (map (fun _ : nat => h_next h) (places i (leaves c') 0)) <-> id = h_next h /\ In (Ref i) (leaves c')).
  { intros i id. rewrite in_map_iff. split.
    - intros (q & <- & I). apply places_iff in I. destruct I as (n & _ & I). split; [reflexivity|]. exact (nth_error_In _ _ I).
    - intros (-> & I). apply In_nth_error in I. destruct I as (n & I). exists n. split; [reflexivity|]. apply places_iff. exists n. auto. }
  assert (Cm : forall (s : text) i cl id (P : Prop), (P <-> class_of c = cl /\ id = h_next h /\ In (Ref i) (leaves c')) -> (mentioned m cl id i \/ P <-> mentioned (store_constraint m k c1) cl id i)).
  { intros s i cl id P HP. unfold mentioned. rewrite HP. split.
    - intros [(x & Ix & Z)|(Cx & -> & Ix)]; [exists x; rewrite Al; auto|]. exists c1. rewrite Al. cbn [c1 c_id c_expr]. rewrite Cl. auto.
    - intros (x & Ix & Ei & Ec & El). rewrite Al in Ix. destruct Ix as [->|Ix]; [|left; eauto]. right. cbn [c1 c_id c_expr] in *. rewrite Cl in Ec. auto. }
  constructor; auto.
  - constructor.
    + intros s i f' id pos G Ff. destruct (Fx s i f' G Ff) as (f & Gm & F0 & (_ & -> & _)). rewrite in_app_iff, (I1 s i f id pos Gm F0). unfold mention_at. split.
      * intros [(x & Ix & X)|I]; [exists x; rewrite Al; auto|]. apply in_map_iff in I. destruct I as (q & X & I). injection X as <- <-. apply places_iff in I. destruct I as (n & -> & I). exists c1. rewrite Al. auto.
      * intros (x & Ix & Ei & En). rewrite Al in Ix. destruct Ix as [->|Ix]; [|left; eauto]. right. cbn [c1 c_id c_expr] in Ei, En. subst id. apply in_map. apply places_iff. exists pos. auto.
    + intros s i f' G Ff. destruct (Fx s i f' G Ff) as (f & Gm & F0 & (_ & -> & _)). apply nodup_app. split; [exact (I2 s i f Gm F0)|]. split.
      * apply FinFun.Injective_map_NoDup; [intros x y X; injection X as ->; reflexivity|apply places_nodup].
      * intros (x & q) Ix Iy. apply in_map_iff in Iy. destruct Iy as (q' & X & _). injection X as <- _. apply (I1 s i f _ q Gm F0) in Ix. destruct Ix as (y & Iy & Ey & _). specialize (Id y Iy). lia.
    + intros s i f' id G Ff. destruct (Fx s i f' G Ff) as (f & Gm & F0 & (_ & _ & -> & _)). rewrite in_app_iff, (I3 s i f id Gm F0). apply (Cm s i ClassExcludes id). destruct (class_of c); [split; [intros []|intros (X & _); discriminate X]| |split; [intros []|intros (X & _); discriminate X]]. rewrite Pm. tauto.
    + intros s i f' id G Ff. destruct (Fx s i f' G Ff) as (f & Gm & F0 & (_ & _ & _ & ->)). rewrite in_app_iff, (I4 s i f id Gm F0). apply (Cm s i ClassImplies id). destruct (class_of c); [|split; [intros []|intros (X & _); discriminate X]..]. rewrite Pm. tauto.
    + intros s i f' x G Ff Ix Cx. destruct (Fx s i f' G Ff) as (f & Gm & F0 & (_ & _ & -> & _)). rewrite count_occ_app. apply Al in Ix. destruct Ix as [->|Ix].
      * cbn [c1 c_id c_expr] in *. rewrite Cl in Cx. rewrite Cx, count_same, Nat.eqb_refl, places_often, (proj1 (count_occ_not_In Nat.eq_dec (f_excludes f) (h_next h))); [reflexivity|].
        intros X. apply (I3 s i f _ Gm F0) in X. destruct X as (y & Iy & Ey & _). specialize (Id y Iy). lia.
      * rewrite (I5 s i f x Gm F0 Ix Cx). assert (Lx := Id x Ix). destruct (class_of c); cbn [count_occ]; try lia. rewrite count_same. destruct (Nat.eqb_spec (h_next h) (c_id x)); lia.
    + intros s i f' x G Ff Ix Cx. destruct (Fx s i f' G Ff) as (f & Gm & F0 & (_ & _ & _ & ->)). rewrite count_occ_app. apply Al in Ix. destruct Ix as [->|Ix].
      * cbn [c1 c_id c_expr] in *. rewrite Cl in Cx. rewrite Cx, count_same, Nat.eqb_refl, places_often, (proj1 (count_occ_not_In Nat.eq_dec (f_implications f) (h_next h))); [reflexivity|].
        intros X. apply (I4 s i f _ Gm F0) in X. destruct X as (y & Iy & Ey & _). specialize (Id y Iy). lia.
      * rewrite (I6 s i f x Gm F0 Ix Cx). assert (Lx := Id x Ix). destruct (class_of c); cbn [count_occ]; try lia. rewrite count_same. destruct (Nat.eqb_spec (h_next h) (c_id x)); lia.
  - rewrite N. intros s i G. rewrite get_feature_store in G. specialize (Ke s i G). lia.
  - intros s i f' G Ff. destruct (Fx s i f' G Ff) as (f & Gm & F0 & (-> & _)). exact (Na s i f Gm F0).
  - eapply Permutation_NoDup; [apply Permutation_map; symmetry; apply all_constraints_perm|]. cbn [map]. constructor; [|exact Di].
    intros I. apply in_map_iff in I. destruct I as (x & E & I). specialize (Id x I). cbn [c1 c_id] in E. lia.
  - intros x I. apply Al in I. rewrite N. destruct I as [->|I]; [cbn [c1 c_id]; lia|]. specialize (Id x I). lia.
  - intros x i I Ir. apply Al in I. rewrite N. destruct I as [->|I]; [exact (Lv i Ir)|]. specialize (Re x i I Ir). lia.
Qed.

(** ** Runs *)
Lemma exec_registered ord o h m w e : fresh_op o -> exec ord o (h, m) = Some (w, e) -> registered h m -> registered (fst w) (snd w).
Proof.
  intros Fr E R. destruct o as [f p|r b|k r|r|r l|r l|k c|s|s|s|s|p c]; try (apply (moved_registered h m); [rewrite <- surjective_pairing; eapply exec_moved; [exact Fr| |exact E]; discriminate|exact R]).
  exact (add_constraint_registered h m k c w e E R).
Qed.
Lemma run_registered ord ops : forall w w' e, (forall o, In o ops -> fresh_op o) -> run ord ops w = Some (w', e) -> registered (fst w) (snd w) -> registered (fst w') (snd w').
Proof.
  induction ops as [|o r IH]; intros (h & m) w' e K E R; cbn [run] in E; [injection E as <- _; exact R|].
  apply bind_some in E. destruct E as ((w1 & e1) & E1 & E). pose proof (exec_registered ord o h m w1 e1 (K o (or_introl eq_refl)) E1 R) as R1.
  destruct e1; [injection E as <- _; exact R1|]. apply (IH w1 w' e); auto. intros x X. apply K. right. exact X.
Qed.
Lemma commit_registered ord t w t' w' e : (forall o, In o (t_queue t) -> fresh_op o) -> commit_modify ord t w = Some (t', w', e) -> registered (fst w) (snd w) -> registered (fst w') (snd w').
Proof.
  unfold commit_modify. intros K E R. destruct (t_open t); [|injection E as _ <- _; exact R]. apply bind_some in E. destruct E as ((w1 & e1) & E1 & E). pose proof (run_registered ord _ _ _ _ K E1 R) as R1.
  destruct e1; [injection E as _ <- _; exact R1|]. apply bind_some in E. destruct E as (ok & _ & E). injection E as _ <- _. exact R1.
Qed.
Lemma new_model_registered h name root path commit : heap_ok h -> registered (fst (new_model_with h name root path commit)) (snd (new_model_with h name root path commit)).
Proof.
  intros Ho. unfold new_model_with. cbn [h_alloc fst snd].
  assert (forall s i, get_feature (FModel name (Some (h_next h)) path commit [(root, h_next h)] [] [] [] []) s = Some i -> s = root /\ i = h_next h) as G.
  { intros s i G. unfold get_feature in G. cbn in G. destruct (text_eqb root s) eqn:E; [|discriminate]. apply text_eqb_eq in E. injection G as <-. auto. }
  constructor; cbn [h_next h_cells all_constraints m_boolean m_nonboolean m_mixed app map].
  - constructor; intros s i f; [intros id pos| |intros id|intros id|intros x|intros x]; intros Gs F; destruct (G s i Gs) as (-> & ->); unfold feature_at in F; cbn [h_cells] in F; rewrite Nat.eqb_refl in F; injection F as <-; cbn.
    + split; [intros []|intros (c & [] & _)].
    + constructor.
    + split; [intros []|intros (c & [] & _)].
    + split; [intros []|intros (c & [] & _)].
    + intros [].
    + intros [].
  - intros i Li. cbn in *. destruct (Nat.eqb_spec i (h_next h)); [lia|]. apply Ho. lia.
  - intros s i Gs. destruct (G s i Gs) as (-> & ->). lia.
  - intros s i f Gs F. destruct (G s i Gs) as (-> & ->). unfold feature_at in F. cbn [h_cells] in F. rewrite Nat.eqb_refl in F. injection F as <-. reflexivity.
  - constructor.
  - intros c [].
  - intros c i [].
Qed.
