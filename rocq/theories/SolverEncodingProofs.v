(** The formulas of a loaded model have exactly the valid configurations as solutions. *)
From Coq Require Import List ZArith Arith Bool Ascii String Permutation Lia.
From Coq Require Import ZifyBool.
From Verif Require Import Text TextProofs ConstraintModel ConstraintSpec SourceRangeModel StepFunctionModel StepFunctionSpec StepFunctionProofs
  ConfigurationModel FeatureTreeModel FeatureTreeSpec FeatureTreeProofs FeatureOrderProofs FeatureTreeFinal FeatureTransactionModel
  FeatureEditSpec FeatureEditProofs FeatureOpsProofs FeatureDataProofs FeatureHistoryProofs FeatureBuildSpec FeatureCloneProofs SolverModel SolverSpec SolverProofs SolverLoadProofs.
Import ListNotations.
Local Open Scope list_scope.

Lemma nodup_split_unique {A} (x : A) : forall l1 l2 k1 k2, NoDup (l1 ++ x :: l2) -> l1 ++ x :: l2 = k1 ++ x :: k2 -> l1 = k1 /\ l2 = k2.
Proof.
  induction l1 as [|y l1 IH]; intros l2 k1 k2 D E; destruct k1 as [|z k1]; cbn in *.
  - injection E as ->. auto.
  - injection E as <- ->. apply NoDup_cons_iff in D. destruct D as (N & _). exfalso. apply N, in_or_app. right. left. reflexivity.
  - injection E as -> <-. apply NoDup_cons_iff in D. destruct D as (N & _). exfalso. apply N, in_or_app. right. left. reflexivity.
  - injection E as <- E. apply NoDup_cons_iff in D. destruct (IH _ _ _ (proj2 D) E) as (-> & ->). auto.
Qed.

Lemma feature_ids_subtree i t : In i (feature_ids t) <-> exists u, subtree u t /\ rid u = i /\ is_feature (rdata u) = true.
Proof.
  induction t as [n d ts IH] using tree_ind'. rewrite Forall_forall in IH. cbn [feature_ids]. rewrite in_app_iff, in_flat_map. split.
  - intros [H|(t & It & H)].
    + destruct (is_feature d) eqn:F; [|destruct H]. destruct H as [<-|[]]. exists (Node n d ts). split; [constructor|]. auto.
    + apply (IH t It) in H. destruct H as (u & U & X). exists u. split; [eapply sub_kid; eauto|exact X].
  - intros (u & U & <- & F). inversion U as [|n0 d0 ts0 v Iv U' E]; subst.
    + left. cbn [rid rdata] in *. rewrite F. left. reflexivity.
    + right. exists v. split; [exact Iv|]. apply (IH v Iv). eauto.
Qed.

Section Encoding.
Variables (h : heap) (m : fmodel) (t : tree).
Hypothesis R : represents h m t.
Hypothesis Su : supported h m.

(** What the formulas added with a feature say. *)
Definition feature_holds (a : assignment) (i : nid) : Prop :=
  forall f, feature_at h i = Some f ->
  match f_kind f with
  | FRoot => selected a (f_name f)
  | FBinary => forall p g r, hangs h i p r -> feature_at h p = Some g ->
      (selected a (f_name f) -> selected a (f_name g)) /\
      (r = None -> f_optional f = false -> selected a (f_name g) -> selected a (f_name f))
  | FNumeric v step => allowed_value v step (a_int a (f_name f))
  | FUnknown => True
  end.
Definition option_of (i : nid) : text * sort :=
  match feature_at h i with
  | Some f => (f_name f, if numeric_kind (f_kind f) then SInt else SBool)
  | None => ([], SBool)
  end.

(** The features [l] have been added. *)
Record added (l : list nid) (s : solver) : Prop := Added {
  ad_vars : s_vars s = map option_of l;
  ad_model : s_model s = None;
  ad_holds : forall a, satisfies a (s_asserted s) <-> forall i, In i l -> feature_holds a i
}.

Lemma option_name i f : stored h m i f -> fst (option_of i) = f_name f.
Proof. intros (_ & F). unfold option_of. rewrite F. reflexivity. Qed.

Lemma not_known l s i f : added l s -> (forall j, In j l -> exists g, stored h m j g) -> stored h m i f -> ~ In i l -> known s (f_name f) = false.
Proof.
  intros A St X N. unfold known. destruct (sort_of (s_vars s) (f_name f)) eqn:E; [|reflexivity]. exfalso. apply sort_of_in in E.
  rewrite (ad_vars _ _ A) in E. apply in_map_iff in E. destruct E as (j & E & J). destruct (St j J) as (g & Sg). apply N.
  assert (j = i) as <-; [|exact J]. apply (stored_names h m t R _ _ g f Sg X). rewrite <- (option_name j g Sg), E. reflexivity.
Qed.

Lemma sort_known l s i f : added l s -> NoDup l -> (forall j, In j l -> exists g, stored h m j g) -> stored h m i f -> In i l ->
  sort_of (s_vars s) (f_name f) = Some (if numeric_kind (f_kind f) then SInt else SBool).
Proof.
  intros A D St X I. apply sort_of_first.
  - rewrite (ad_vars _ _ A), map_map. clear A I. induction l as [|j l IH]; cbn; [constructor|]. apply NoDup_cons_iff in D. destruct D as (N & D). constructor.
    + intros Y. apply in_map_iff in Y. destruct Y as (k & E & K). destruct (St j (or_introl eq_refl)) as (g & Sg). destruct (St k (or_intror K)) as (g' & Sg').
      rewrite (option_name _ _ Sg), (option_name _ _ Sg') in E. apply N. rewrite <- (stored_names h m t R _ _ _ _ Sg' Sg E). exact K.
    + apply IH; [exact D|]. intros k K. apply St. right. exact K.
  - rewrite (ad_vars _ _ A). apply in_map_iff. exists i. split; [|exact I]. unfold option_of. destruct X as (_ & F). rewrite F. reflexivity.
Qed.

Lemma added_more l s i ts : added l s -> (forall a, satisfies a ts <-> feature_holds a i) ->
  added (l ++ [i]) (Solver (s_vars s ++ [option_of i]) (s_asserted s ++ ts) (s_model s)).
Proof.
  intros [V M H] T. constructor; cbn.
  - rewrite V, map_app. reflexivity.
  - exact M.
  - intros a. rewrite satisfies_app, H, T. split.
    + intros (X & Y) j J. apply in_app_or in J. destruct J as [J|[<-|[]]]; auto.
    + intros X. split; [intros j J; apply X, in_or_app; auto|apply X, in_or_app; right; left; reflexivity].
Qed.

(** Adding the next feature, its parent being known. *)
Lemma add_next v : 
  (forall i f p g r, stored h m i f -> hangs h i p r -> feature_at h p = Some g -> (existsb (text_eqb (f_name f)) v = true <-> r <> None)) ->
  forall i f, stored h m i f -> exists N, forall fuel, N <= fuel -> forall l s,
  added l s -> NoDup l -> (forall j, In j l -> exists g, stored h m j g) -> ~ In i l ->
  (forall p, parent_feature h i = Some (Some p) -> In p l) ->
  exists s', (let* n := name_at h i in add_feature fuel h i (existsb (text_eqb n) v) s) = done s' /\ added (l ++ [i]) s'.
Proof.
  intros Hv i f St. pose proof St as (_ & F). rewrite (stored_name h m i f St). cbn [bind]. unfold add_feature. rewrite F. cbn [bind].
  assert (Op : option_of i = (f_name f, if numeric_kind (f_kind f) then SInt else SBool)) by (unfold option_of; rewrite F; reflexivity).
  assert (Par : f_kind f <> FRoot -> forall l s, added l s -> NoDup l -> (forall j, In j l -> exists g, stored h m j g) ->
    (forall p, parent_feature h i = Some (Some p) -> In p l) ->
    exists p g r, parent_feature h i = Some (Some p) /\ hangs h i p r /\ stored h m p g /\ name_at h p = Some (f_name g) /\
      sort_of (s_vars s) (f_name g) = Some (if numeric_kind (f_kind g) then SInt else SBool) /\
      forall p' g' r', hangs h i p' r' -> feature_at h p' = Some g' -> p' = p /\ g' = g /\ r' = r).
  { intros K l s A D Sl Pl. destruct (hangs_below h m t R i f St K) as (p & g & r & Hg & Sg & Pp & U). exists p, g, r.
    split; [exact Pp|]. split; [exact Hg|]. split; [exact Sg|]. split; [exact (stored_name h m p g Sg)|]. split; [|exact U].
    exact (sort_known l s p g A D Sl Sg (Pl p Pp)). }
  destruct (f_kind f) as [|vs step| |] eqn:K.
  - (* binary *)
    exists 0. intros fuel _ l s A D Sl N Pl. destruct (Par ltac:(congruence) l s A D Sl Pl) as (p & g & r & Pp & Hg & Sg & Np & So & U).
    pose proof Sg as (_ & Fg). rewrite Pp. cbn [bind]. rewrite Np. cbn [bind]. unfold known at 1. rewrite So. cbn [negb]. rewrite (not_known l s i f A Sl St N).
    rewrite (su_parents _ _ Su i f p g r St K Hg Fg) in So. unfold bool_var. cbn [add_option s_vars].
    assert (So' : sort_of (s_vars s ++ [(f_name f, SBool)]) (f_name g) = Some SBool).
    { clear - So. induction (s_vars s) as [|[n u] vs IH]; cbn in *; [discriminate|]. destruct (text_eqb n (f_name g)); auto. }
    rewrite So'. cbn [bind].
    assert (G : existsb (text_eqb (f_name f)) v = true <-> r <> None) by (apply (Hv i f p g r St Hg Fg)).
    cbn [numeric_kind] in Op.
    assert (B : forall a, feature_holds a i <-> (selected a (f_name f) -> selected a (f_name g)) /\
      (r = None -> f_optional f = false -> selected a (f_name g) -> selected a (f_name f))).
    { intros a. unfold feature_holds. rewrite F. split.
      - intros H. specialize (H f eq_refl). rewrite K in H. exact (H p g r Hg Fg).
      - intros H f' E. injection E as <-. rewrite K. intros p' g' r' Hg' F'. destruct (U _ _ _ Hg' F') as (-> & -> & ->). exact H. }
    destruct (negb (existsb (text_eqb (f_name f)) v) && negb (f_optional f)) eqn:E.
    + eexists. split; [reflexivity|]. unfold assert_term, add_option. cbn [s_vars s_asserted s_model]. rewrite <- Op, <- app_assoc. apply added_more; [exact A|].
      intros a. rewrite satisfies_app, !satisfies_one, B. cbn [beval]. rewrite !implb_true_iff. unfold selected. apply andb_true_iff in E. destruct E as (E1 & E2).
      apply negb_true_iff in E1, E2. destruct r as [k|]; [|tauto]. exfalso. rewrite (proj2 G) in E1; discriminate.
    + eexists. split; [reflexivity|]. unfold assert_term, add_option. cbn [s_vars s_asserted s_model]. rewrite <- Op. apply added_more; [exact A|].
      intros a. rewrite satisfies_one, B. cbn [beval]. rewrite implb_true_iff. unfold selected. split; [|tauto]. intros X. split; [exact X|]. intros -> Eo.
      exfalso. rewrite Eo in E. cbn in E. rewrite andb_true_r in E. apply negb_false_iff in E. apply G in E. contradiction.
  - (* numeric *)
    destruct (values_listed vs step (su_ranges _ _ Su i f vs step St K)) as (N0 & zs & Ex & In_zs).
    exists N0. intros fuel Le l s A D Sl N Pl. destruct (Par ltac:(congruence) l s A D Sl Pl) as (p & g & r & Pp & Hg & Sg & Np & So & U).
    rewrite Pp. cbn [bind]. rewrite Np. cbn [bind]. unfold known at 1. rewrite So. cbn [negb]. rewrite (not_known l s i f A Sl St N).
    specialize (Ex fuel Le).
    assert (Av : exists s', add_values (f_name f) zs s = done s' /\ added (l ++ [i]) s').
    { unfold add_values. rewrite (not_known l s i f A Sl St N). eexists. split; [reflexivity|].
      cbn [numeric_kind] in Op. unfold assert_term, add_option. cbn [s_vars s_asserted s_model]. rewrite <- Op. apply added_more; [exact A|].
      intros a. rewrite satisfies_one, one_of_eval, In_zs. unfold feature_holds. rewrite F. split.
      - intros H f' E. injection E as <-. rewrite K. exact H.
      - intros H. specialize (H f eq_refl). rewrite K in H. exact H. }
    destruct vs as [lo hi|l0]; [rewrite Ex|rewrite Ex]; exact Av.
  - (* root *)
    exists 0. intros fuel _ l s A D Sl N Pl. 
    assert (Pr : parent_feature h i = Some None).
    { destruct (entry_facts h m t R _ _ (stored_entry h m t R i f St)) as (Fa & _ & [(_ & _ & P)|(_ & K' & _)]); [exact P|]. rewrite F in Fa. injection Fa as E. rewrite <- E, K in K'. contradiction. }
    rewrite Pr. cbn [bind negb]. rewrite (not_known l s i f A Sl St N). eexists. split; [reflexivity|].
    cbn [numeric_kind] in Op. unfold assert_term, add_option. cbn [s_vars s_asserted s_model]. rewrite <- Op. apply added_more; [exact A|].
    intros a. rewrite satisfies_one. cbn [beval]. unfold feature_holds. rewrite F. split.
    + intros E f' E'. injection E' as <-. rewrite K. exact E.
    + intros H. specialize (H f eq_refl). rewrite K in H. exact H.
  - exfalso. exact (su_kinds _ _ Su i f St K).
Qed.

(** Adding all features, parents first. *)
Lemma add_all v :
  (forall i f p g r, stored h m i f -> hangs h i p r -> feature_at h p = Some g -> (existsb (text_eqb (f_name f)) v = true <-> r <> None)) ->
  forall l, NoDup l -> (forall j, In j l -> exists g, stored h m j g) ->
  (forall i p, In i l -> parent_feature h i = Some (Some p) -> before l p i) ->
  exists N, forall fuel, N <= fuel -> exists s,
    call_all (fun i s => let* n := name_at h i in add_feature fuel h i (existsb (text_eqb n) v) s) l new_solver = Some s /\ added l s.
Proof.
  intros Hv l D St Pb.
  destruct (enough_fuel (fun i fuel => forall l s, added l s -> NoDup l -> (forall j, In j l -> exists g, stored h m j g) -> ~ In i l ->
    (forall p, parent_feature h i = Some (Some p) -> In p l) ->
    exists s', (let* n := name_at h i in add_feature fuel h i (existsb (text_eqb n) v) s) = done s' /\ added (l ++ [i]) s') l) as (N & H).
  { intros i I. destruct (St i I) as (f & Sf). exact (add_next v Hv i f Sf). }
  exists N. intros fuel Le. specialize (H fuel Le).
  assert (G : forall l2 l1 s, l = l1 ++ l2 -> added l1 s -> exists s',
    call_all (fun i s => let* n := name_at h i in add_feature fuel h i (existsb (text_eqb n) v) s) l2 s = Some s' /\ added l s').
  { induction l2 as [|i l2 IH]; intros l1 s E A.
    - rewrite app_nil_r in E. subst l1. exists s. split; [reflexivity|exact A].
    - assert (Ii : In i l) by (rewrite E; apply in_or_app; right; left; reflexivity).
      destruct (H i Ii l1 s A) as (s1 & Es & A1).
      + rewrite E in D. exact (proj1 (proj1 (nodup_app _ _) D)).
      + intros j J. apply St. rewrite E. apply in_or_app. auto.
      + rewrite E in D. apply NoDup_remove_2 in D. intros X. apply D. apply in_or_app. auto.
      + intros p Pp. destruct (Pb i p Ii Pp) as (x & y & z & Ex). rewrite E in Ex, D.
        assert (Q : l1 = x ++ p :: y).
        { change (x ++ p :: y ++ i :: z) with (x ++ (p :: y) ++ i :: z) in Ex. rewrite app_assoc in Ex. exact (proj1 (nodup_split_unique _ _ _ _ _ D Ex)). }
        rewrite Q. apply in_or_app. right. left. reflexivity.
      + rewrite call_all_cons. rewrite Es. cbn [bind done]. apply (IH (l1 ++ [i]) s1); [rewrite <- app_assoc; exact E|exact A1]. }
  apply (G l [] new_solver eq_refl). constructor; [reflexivity|reflexivity|]. intros a. split; [intros _ i []|intros _; apply satisfies_nil].
Qed.

(** Groups. *)
Definition group_holds (a : assignment) (q : nid) : Prop :=
  forall k p e n ns, h_cells h q = Some (Cell (NRelationship k) (Some p) e) -> name_at h p = Some n ->
    Forall2 (fun i s => name_at h i = Some s) e ns -> selected a n ->
    match k with
    | RAlternative => exists s, In s ns /\ selected a s /\ forall s', In s' ns -> selected a s' -> s' = s
    | ROr => exists s, In s ns /\ selected a s
    end.

Lemma any_eval a ns : existsb (a_bool a) ns = true <-> exists s, In s ns /\ selected a s.
Proof. rewrite existsb_exists. reflexivity. Qed.
Lemma at_most_one a ns : NoDup ns -> ((List.length (filter (a_bool a) ns) <=? 1) = true <->
  forall s s', In s ns -> In s' ns -> selected a s -> selected a s' -> s = s').
Proof.
  intros D. rewrite Nat.leb_le. assert (Df := NoDup_filter (a_bool a) D).
  assert (I : forall s, In s (filter (a_bool a) ns) <-> In s ns /\ selected a s) by (intros s; apply filter_In).
  destruct (filter (a_bool a) ns) as [|x [|y l]] eqn:E; cbn [List.length].
  - split; [|intros _; lia]. intros _ s s' A _ B _. exfalso. exact (proj2 (I s) (conj A B)).
  - split; [|intros _; lia]. intros _ s s' A A' B B'. destruct (proj2 (I s) (conj A B)) as [<-|[]]. destruct (proj2 (I s') (conj A' B')) as [<-|[]]. reflexivity.
  - split; [intros L; exfalso; lia|]. intros H. exfalso. assert (x = y); [|subst y; apply NoDup_cons_iff in Df; apply (proj1 Df); left; reflexivity].
    destruct (proj1 (I x)) as (X1 & X2); [left; reflexivity|]. destruct (proj1 (I y)) as (Y1 & Y2); [right; left; reflexivity|]. auto.
Qed.

Lemma add_relationship_spec q s : In q (m_relationships m) ->
  exists u, add_relationship h q s = done (assert_term s u) /\ forall a, beval a u = true <-> group_holds a q.
Proof.
  intros Q. destruct (group_cell h m t R q Q) as (k & p & e & n & ns & C & Np & Mo & F2 & D & _).
  assert (U : forall k' p' e' n' ns', h_cells h q = Some (Cell (NRelationship k') (Some p') e') -> name_at h p' = Some n' ->
    Forall2 (fun i s => name_at h i = Some s) e' ns' -> k' = k /\ n' = n /\ ns' = ns).
  { intros k' p' e' n' ns' C' Np' F2'. rewrite C in C'. injection C' as <- <- <-. split; [reflexivity|]. split; [congruence|].
    clear - F2 F2'. revert ns' F2'. induction F2 as [|i x is xs E _ IH]; intros ns' F2'; inversion F2'; subst; [reflexivity|]. f_equal; [congruence|auto]. }
  unfold add_relationship. rewrite C. cbn [bind n_parent n_edges n_data]. rewrite Np. cbn [bind]. rewrite Mo. cbn [bind]. destruct k.
  - destruct ns as [|x ns'] eqn:En.
    { exfalso. apply (su_alternatives _ _ Su n []); [|reflexivity]. exists q, p, e. auto. }
    rewrite <- En in *. eexists. split; [reflexivity|]. intros a. cbn [beval]. rewrite implb_true_iff, andb_true_iff, any_eval, (at_most_one a ns D). split.
    + intros H k' p' e' n' ns'' C' Np' F2' Sel. destruct (U _ _ _ _ _ C' Np' F2') as (-> & -> & ->). destruct (H Sel) as (H1 & s' & I & Y).
      exists s'. split; [exact I|]. split; [exact Y|]. intros s'' I' Y'. apply H1; auto.
    + intros H Sel. destruct (H _ _ _ _ _ C Np F2 Sel) as (s' & I & Y & H1). split; [|eauto]. intros u v Iu Iv Yu Yv. rewrite (H1 u Iu Yu), (H1 v Iv Yv). reflexivity.
  - eexists. split; [reflexivity|]. intros a. cbn [beval]. rewrite implb_true_iff, any_eval. split.
    + intros H k' p' e' n' ns'' C' Np' F2' Sel. destruct (U _ _ _ _ _ C' Np' F2') as (-> & -> & ->). exact (H Sel).
    + intros H Sel. exact (H _ _ _ _ _ C Np F2 Sel).
Qed.

(** The whole model. *)
Theorem load_spec ord : is_order ord -> exists N, forall fuel, N <= fuel -> exists s,
  load ord fuel h m = Some s /\ s_model s = None /\
  NoDup (map fst (s_vars s)) /\
  (forall n so, In (n, so) (s_vars s) <-> exists i f, stored h m i f /\ n = f_name f /\ so = if numeric_kind (f_kind f) then SInt else SBool) /\
  (no_xor m -> forall a, satisfies a (s_asserted s) <-> valid h m a).
Proof.
  intros Or. destruct (members_known h m t R) as (v & Ev & Hv).
  assert (Ft : is_feature (rdata t) = true) by (destruct (rep_top_data R) as (f0 & E0 & _); rewrite E0; reflexivity).
  destruct (iterate_features ord h t Or (rep_ok _ _ _ R) (rep_holds _ _ _ R) (rep_ids _ _ _ R) Ft) as (l & El & Pl & Perm & Dl).
  assert (Fi : forall i, In i l <-> exists f, stored h m i f).
  { intros i. split.
    - intros I. eapply Permutation_in in I; [|exact Perm]. apply feature_ids_subtree in I. destruct I as (u & U & Ru & Fu).
      destruct (rdata u) as [f|k] eqn:Du; [|discriminate]. exists f. apply (stored_sub h m t R). eauto.
    - intros (f & Sf). apply (stored_sub h m t R) in Sf. destruct Sf as (u & U & Ru & Du). eapply Permutation_in; [apply Permutation_sym; exact Perm|].
      apply feature_ids_subtree. exists u. rewrite Du. auto. }
  assert (E1 : iterate ord (S (h_next h)) h (Some (rid t)) = Some l) by (apply El; lia).
  destruct (add_all v Hv l Dl (fun j J => proj1 (Fi j) J)) as (N & HN).
  { intros i p I Pp. apply (proj2 (iterate_parents_first ord h t l i p Or (rep_ok _ _ _ R) (rep_holds _ _ _ R) (rep_ids _ _ _ R) Ft E1 (Permutation_in _ Perm I)) Pp). }
  exists N. intros fuel Le. destruct (HN fuel Le) as (s1 & Es1 & A1).
  destruct (call_all_asserts (fun c => add_constraint h (c_expr c)) (fun a c => meaning not_both (leaf_value h false a) (a_div0 a) (c_expr c) = Some (Truth true)) (m_boolean m)) with (s := s1) as (s2 & E2 & V2 & M2 & Q2).
  { intros c s I. destruct (add_constraint_spec h (c_expr c) s) as (u & Eu & Hu); [apply (su_constraints _ _ Su), in_or_app; auto|].
    exists u. split; [exact Eu|]. intros a. rewrite <- Hu. split; congruence. }
  destruct (call_all_asserts (fun c => add_constraint h (c_expr c)) (fun a c => meaning not_both (leaf_value h false a) (a_div0 a) (c_expr c) = Some (Truth true)) (m_nonboolean m)) with (s := s2) as (s3 & E3 & V3 & M3 & Q3).
  { intros c s I. destruct (add_constraint_spec h (c_expr c) s) as (u & Eu & Hu); [apply (su_constraints _ _ Su), in_or_app; auto|].
    exists u. split; [exact Eu|]. intros a. rewrite <- Hu. split; congruence. }
  assert (X4 : exists s4, call_all (fun x => add_mixed h (c_expr (x_con x)) (x_kind x) (x_req x)) (m_mixed m) s3 = Some s4 /\ s_vars s4 = s_vars s3 /\ s_model s4 = s_model s3 /\
    (no_xor m -> forall a, satisfies a (s_asserted s4) <-> satisfies a (s_asserted s3) /\ forall x, In x (m_mixed m) -> mixed_holds h a (c_expr (x_con x)) (x_kind x) (x_req x))).
  { assert (W : forall x, In x (m_mixed m) -> well_typed h true (c_expr (x_con x)) /\ (no_xor m -> xor_free (c_expr (x_con x)))).
    { intros x I. split; [apply (su_mixed _ _ Su); exact I|]. intros X. apply X. apply in_map. rewrite !in_app_iff. right. right. apply in_map. exact I. }
    clear - W. revert s3. induction (m_mixed m) as [|x xs IH]; intros s3.
    - exists s3. split; [reflexivity|]. split; [reflexivity|]. split; [reflexivity|]. intros _ a. split; [intros H; split; [exact H|intros y []]|tauto].
    - destruct (W x (or_introl eq_refl)) as (Wx & Xx). destruct (add_mixed_spec h (c_expr (x_con x)) (x_kind x) (x_req x) s3 Wx) as (u & Eu & Hu).
      destruct (IH (fun y I => W y (or_intror I)) (assert_term s3 u)) as (s4 & E4 & V4 & M4 & Q4). exists s4. rewrite call_all_cons, Eu. cbn [bind done].
      split; [exact E4|]. split; [exact V4|]. split; [exact M4|]. intros X a. rewrite (Q4 X). cbn [assert_term s_asserted]. rewrite satisfies_app, satisfies_one, (Hu (Xx X)). split.
      + intros ((Sa & Px) & F). split; [exact Sa|]. intros y [<-|I]; auto.
      + intros (Sa & F). split; [split; [exact Sa|apply F; left; reflexivity]|]. intros y I. apply F. right. exact I. }
  destruct X4 as (s4 & E4 & V4 & M4 & Q4).
  destruct (call_all_asserts (add_relationship h) group_holds (m_relationships m)) with (s := s4) as (s5 & E5 & V5 & M5 & Q5).
  { intros q s I. exact (add_relationship_spec q s I). }
  assert (Vs : s_vars s5 = map option_of l) by (rewrite V5, V4, V3, V2; apply (ad_vars _ _ A1)).
  exists s5. split.
  { unfold load, apply_model. rewrite Ev. cbn [bind]. rewrite (rep_root _ _ _ R), E1. cbn [bind]. rewrite Es1. cbn [bind]. rewrite E2. cbn [bind]. rewrite E3. cbn [bind]. rewrite E4. exact E5. }
  split; [rewrite M5, M4, M3, M2; apply (ad_model _ _ A1)|]. split.
  { rewrite Vs, map_map. assert (St : forall j, In j l -> exists g, stored h m j g) by (intros j; apply Fi). clear - Dl St R. induction l as [|j l IH]; cbn; [constructor|].
    apply NoDup_cons_iff in Dl. destruct Dl as (N & D). constructor; [|apply IH; [exact D|intros k K; apply St; right; exact K]].
    intros Y. apply in_map_iff in Y. destruct Y as (k & E & K). destruct (St j (or_introl eq_refl)) as (g & Sg). destruct (St k (or_intror K)) as (g' & Sg').
    rewrite (option_name _ _ Sg), (option_name _ _ Sg') in E. apply N. rewrite <- (stored_names h m t R _ _ _ _ Sg' Sg E). exact K. }
  split.
  { intros n so. rewrite Vs, in_map_iff. split.
    - intros (i & E & I). destruct (proj1 (Fi i) I) as (f & Sf). exists i, f. split; [exact Sf|]. unfold option_of in E. destruct Sf as (_ & F). rewrite F in E. split; congruence.
    - intros (i & f & Sf & -> & ->). exists i. split; [|apply Fi; eauto]. unfold option_of. destruct Sf as (_ & F). rewrite F. reflexivity. }
  intros X a. rewrite Q5, (Q4 X), Q3, Q2, (ad_holds _ _ A1).
  assert (Xc : forall c, In c (m_boolean m ++ m_nonboolean m) -> (meaning not_both (leaf_value h false a) (a_div0 a) (c_expr c) = Some (Truth true) <-> value_of h false a (c_expr c) = Some (Truth true))).
  { intros c I. unfold value_of. rewrite (meaning_xor_free not_both xorb); [reflexivity|]. apply X. apply in_map. rewrite app_assoc. apply in_or_app. auto. }
  split.
  - intros ((((Hf & Hb) & Hn) & Hm) & Hg). constructor.
    + intros i f Sf K. specialize (Hf i (proj2 (Fi i) (ex_intro _ f Sf)) f (proj2 Sf)). rewrite K in Hf. exact Hf.
    + intros i f p g r Sf K H1 H2. specialize (Hf i (proj2 (Fi i) (ex_intro _ f Sf)) f (proj2 Sf)). rewrite K in Hf. exact (proj1 (Hf p g r H1 H2)).
    + intros i f p g Sf K O H1 H2. specialize (Hf i (proj2 (Fi i) (ex_intro _ f Sf)) f (proj2 Sf)). rewrite K in Hf. exact (proj2 (Hf p g None H1 H2) eq_refl O).
    + intros n ns (q & p & e & Iq & C & Np & F2) Sel. exact (Hg q Iq _ _ _ _ _ C Np F2 Sel).
    + intros n ns (q & p & e & Iq & C & Np & F2) Sel. exact (Hg q Iq _ _ _ _ _ C Np F2 Sel).
    + intros i f vs step Sf K. specialize (Hf i (proj2 (Fi i) (ex_intro _ f Sf)) f (proj2 Sf)). rewrite K in Hf. exact Hf.
    + intros c I. apply (Xc c I). apply in_app_or in I. destruct I as [I|I]; auto.
    + exact Hm.
  - intros [v1 v2 v3 v4 v5 v6 v7 v8]. split; [split; [split; [split|]|]|].
    + intros i I f F. destruct (proj1 (Fi i) I) as (f' & Sf). assert (f' = f) as -> by (destruct Sf; congruence). destruct (f_kind f) eqn:K; [|exact (v6 i f _ _ Sf K)|exact (v1 i f Sf K)|exact Logic.I].
      intros p g r H1 H2. split; [exact (v2 i f p g r Sf K H1 H2)|]. intros -> O. exact (v3 i f p g Sf K O H1 H2).
    + intros c I. apply Xc; [apply in_or_app; auto|]. apply v7, in_or_app. auto.
    + intros c I. apply Xc; [apply in_or_app; auto|]. apply v7, in_or_app. auto.
    + exact v8.
    + intros q Iq k p e n ns C Np F2 Sel. destruct k; [apply (v4 n ns); [exists q, p, e; auto|exact Sel]|apply (v5 n ns); [exists q, p, e; auto|exact Sel]].
Qed.
End Encoding.
