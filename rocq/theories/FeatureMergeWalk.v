(** Walking over the second model while merging. *)
From Coq Require Import List ZArith Arith Bool Ascii String Permutation Lia.
From Verif Require Import Text TextProofs ConstraintModel ConstraintSpec SourceRangeModel FeatureTreeModel FeatureTreeSpec FeatureTreeProofs FeatureOrderProofs
  FeatureTreeFinal FeatureTransactionModel FeatureEditSpec FeatureEditProofs FeatureOpsProofs FeatureRemoveProofs FeatureGroupProofs FeatureDataProofs
  FeatureHistoryProofs FeatureTransactionSpec FeatureTransactionFinal FeatureBuildSpec FeatureBuildProofs FeatureBuildFinal FeatureCloneSpec FeatureCloneProofs
  FeatureIsolationProofs FeatureMergeSpec FeatureMergeProofs.
Import ListNotations.

(** What merging does at one feature of the second model. *)
Definition merge_node (ord : list nid -> list nid) (strict : bool) (m1 : fmodel) (f : nid) (h : heap) (t : ctx) : option (bool * heap * ctx) :=
  let* x := feature_at h f in
  match get_feature m1 (f_name x) with
  | Some c =>
      let* same := compare_properties h c f strict in
      if (same : bool) then
        let* y := feature_at h c in
        let* (h1, t1) := copy_run ord (map (OAddLocation (ByPtr c)) (missing_locations y x)) h t in
        Some (true, h1, t1)
      else Some (false, h, t)
  | None =>
      match feature_copy x with
      | None => Some (false, h, t)
      | Some y =>
          let* p := parent_feature h f in
          let* (h1, t1, _) := copy_exec ord (OAddFeature y p) h t in
          Some (true, h1, t1)
      end
  end.
Definition merge_kids ord k strict m1 cs (s : bool * heap * ctx) : option (bool * heap * ctx) :=
  fold_left (fun o c =>
    let* (b, h2, t2) := o in
    if (b : bool) then merge_subtree ord k strict m1 c h2 t2 else Some (false, h2, t2)) cs (Some s).
Lemma merge_subtree_S ord k strict m1 f h t :
  merge_subtree ord (S k) strict m1 f h t =
  let* (ok, h1, t1) := merge_node ord strict m1 f h t in
  if negb ok then Some (false, h1, t1)
  else let* cs := child_features ord h1 f in merge_kids ord k strict m1 cs (true, h1, t1).
Proof. cbn [merge_subtree]. unfold merge_node. destruct (feature_at h f); reflexivity. Qed.
Lemma merge_kids_false ord k strict m1 cs h t : merge_kids ord k strict m1 cs (false, h, t) = Some (false, h, t).
Proof. unfold merge_kids. induction cs as [|c cs IH]; [reflexivity|]. cbn [fold_left bind]. exact IH. Qed.

Section Walk.
Variable ord : list nid -> list nid.
Hypothesis ord_ok : is_order ord.
Variables (h0 : heap) (m1 m2 : fmodel) (t1 t2 : tree) (strict : bool).
Hypothesis R1 : represents h0 m1 t1.
Hypothesis R2 : represents h0 m2 t2.
Let N := h_next h0.

Section Stable.
Variable h : heap.
Hypothesis A : apart N h0 h.

Lemma live j c : h_cells h0 j = Some c -> j < N /\ h_cells h j = Some c.
Proof.
  intros C. assert (j < N) as L.
  { destruct (le_lt_dec N j) as [G|G]; [|exact G]. rewrite (rep_ok _ _ _ R1 j G) in C. discriminate. }
  split; [exact L|]. rewrite (ap_same _ _ _ A j L). exact C.
Qed.
Lemma stable_rep m t : represents h0 m t -> represents h m t.
Proof. intros R. exact (represents_kept h0 h m t R (ap_ok _ _ _ A) (ap_same _ _ _ A)). Qed.
Lemma stable_feature i f : feature_at h0 i = Some f -> feature_at h i = Some f.
Proof.
  unfold feature_at. destruct (h_cells h0 i) as [c|] eqn:C; [|discriminate]. cbn [bind]. intros E.
  destruct (live i c C) as (_ & ->). exact E.
Qed.
Lemma stable_name i s : name_at h0 i = Some s -> name_at h i = Some s.
Proof.
  unfold name_at. destruct (feature_at h0 i) as [f|] eqn:F; [|discriminate]. rewrite (stable_feature i f F). auto.
Qed.
Lemma stable_parent m t s i : represents h0 m t -> In (s, i) (m_features m) -> parent_feature h i = parent_feature h0 i.
Proof.
  intros R X. pose proof (stable_rep m t R) as R'.
  destruct (entry_facts h0 m t R s i X) as (F & _ & C). destruct (entry_facts h m t R' s i X) as (_ & _ & C').
  destruct C as [(E & _ & P)|(Ne & _ & u & p & P & Ip & Np)], C' as [(E' & _ & P')|(Ne' & _ & u' & p' & P' & Ip' & Np')]; try contradiction; [congruence|].
  rewrite P, P'. do 2 f_equal. eapply feature_above_unique; [apply parent_feature_above; exact P'|].
  apply (above_same N h0 h); [apply (ap_same _ _ _ A)|apply (rep_ok _ _ _ R1)|]. apply parent_feature_above. exact P.
Qed.

Lemma stable_alike i j f g s : get_feature m1 s = Some i -> get_feature m2 s = Some j -> feature_at h0 i = Some f -> feature_at h0 j = Some g ->
  ((parents_alike h i j f g /\ (strict = true -> strictly_alike h i j f g)) <->
   (parents_alike h0 i j f g /\ (strict = true -> strictly_alike h0 i j f g))).
Proof.
  intros G1 G2 F1 F2. apply (entry_find h0 m1 t1 R1) in G1. apply (entry_find h0 m2 t2 R2) in G2.
  destruct (entry_facts h0 m1 t1 R1 s i G1) as (F1' & N1 & C1). destruct (entry_facts h0 m2 t2 R2 s j G2) as (F2' & N2 & C2).
  assert (fd h0 i = f) as E1 by congruence. assert (fd h0 j = g) as E2 by congruence. rewrite E1 in *. rewrite E2 in *.
  assert (PA : parents_alike h i j f g <-> parents_alike h0 i j f g).
  { unfold parents_alike. destruct C1 as [(_ & K & _)|(_ & _ & u & p & P & Ip & Np)]; [tauto|].
    destruct C2 as [(_ & K & _)|(_ & _ & v & q & Q & Iq & Nq)]; [tauto|]. apply parent_feature_above in P. apply parent_feature_above in Q.
    assert (L : forall x y, feature_above h0 x y -> feature_above h x y) by (intros x y; apply (above_same N h0 h); [apply (ap_same _ _ _ A)|apply (rep_ok _ _ _ R1)]).
    assert ((exists p q u v, feature_above h i p /\ feature_above h j q /\ name_at h p = Some u /\ name_at h q = Some v /\ lower u = lower v) <-> lower u = lower v) as ->.
    { split.
      - intros (p0 & q0 & u0 & v0 & A1 & A2 & A3 & A4 & A5). assert (p0 = p) as -> by (eapply feature_above_unique; [exact A1|apply L; exact P]).
        assert (q0 = q) as -> by (eapply feature_above_unique; [exact A2|apply L; exact Q]). apply stable_name in Np. apply stable_name in Nq. congruence.
      - intros E. exists p, q, u, v. split; [apply L; exact P|]. split; [apply L; exact Q|]. split; [apply stable_name; exact Np|]. split; [apply stable_name; exact Nq|exact E]. }
    assert ((exists p q u v, feature_above h0 i p /\ feature_above h0 j q /\ name_at h0 p = Some u /\ name_at h0 q = Some v /\ lower u = lower v) <-> lower u = lower v) as ->; [|tauto].
    split.
    - intros (p0 & q0 & u0 & v0 & A1 & A2 & A3 & A4 & A5). assert (p0 = p) as -> by (eapply feature_above_unique; [exact A1|exact P]).
      assert (q0 = q) as -> by (eapply feature_above_unique; [exact A2|exact Q]). congruence.
    - intros E. exists p, q, u, v. auto. }
  assert (IG : forall x c p cp, h_cells h0 x = Some c -> n_parent c = Some p -> h_cells h0 p = Some cp -> (in_group h x <-> in_group h0 x)).
  { intros x c p cp C P Cp. rewrite (in_group_spec h0 x c p cp C P Cp). apply live in C. apply live in Cp.
    apply (in_group_spec h x c p cp); tauto. }
  assert (SA : strictly_alike h i j f g <-> strictly_alike h0 i j f g).
  { unfold strictly_alike. destruct C1 as [(_ & K & _)|(Ni & K1 & _)]; [rewrite K; tauto|]. destruct C2 as [(_ & K & _)|(Nj & K2 & _)]; [rewrite K; destruct (f_kind f); tauto|].
    destruct (node_above h0 m1 t1 s i R1 G1 Ni) as (ca & p & cp & Ca & P & Cp). destruct (node_above h0 m2 t2 s j R2 G2 Nj) as (cb & q & cq & Cb & Q & Cq).
    pose proof (IG i ca p cp Ca P Cp). pose proof (IG j cb q cq Cb Q Cq). destruct (f_kind f), (f_kind g); tauto. }
  tauto.
Qed.

Lemma stable_compare i j f g s : get_feature m1 s = Some i -> get_feature m2 s = Some j -> feature_at h0 i = Some f -> feature_at h0 j = Some g ->
  exists b, compare_properties h i j strict = Some b /\
    (b = true <-> parents_alike h0 i j f g /\ (strict = true -> strictly_alike h0 i j f g)).
Proof.
  intros G1 G2 F1 F2. destruct (compare_spec h m1 m2 t1 t2 (stable_rep _ _ R1) (stable_rep _ _ R2) strict s i j f g G1 G2) as (b & E & I);
    [apply stable_feature; assumption|apply stable_feature; assumption|]. exists b. split; [exact E|]. rewrite I. apply (stable_alike i j f g s); assumption.
Qed.

Lemma node_bad j s g t : get_feature m2 s = Some j -> feature_at h0 j = Some g -> ~ fits strict h0 m1 s j g ->
  merge_node ord strict m1 j h t = Some (false, h, t).
Proof.
  intros G F B. unfold merge_node. rewrite (stable_feature j g F). cbn [bind].
  assert (f_name g = s) as En.
  { pose proof (proj2 (entry_find h0 m2 t2 R2 s j) G) as X. destruct (entry_facts h0 m2 t2 R2 s j X) as (F' & Ns & _). congruence. }
  rewrite En. unfold fits in B. destruct (get_feature m1 s) as [i|] eqn:G1.
  - pose proof (proj2 (entry_find h0 m1 t1 R1 s i) G1) as X. destruct (entry_facts h0 m1 t1 R1 s i X) as (F' & Ns & _).
    destruct (stable_compare i j _ g s G1 G F' F) as ([|] & -> & I); [|reflexivity]. exfalso. apply B. exists (fd h0 i). split; [exact F'|]. apply I. reflexivity.
  - unfold feature_copy. destruct (f_kind g); try (exfalso; apply B; discriminate). reflexivity.
Qed.
End Stable.

Lemma apart_refl : apart N h0 h0.
Proof.
  constructor; [apply (rep_ok _ _ _ R1)|apply Nat.le_refl| | |reflexivity]; intros i c p G C; rewrite (rep_ok _ _ _ R1 i G) in C; discriminate.
Qed.
Lemma fits_dec s j g : get_feature m2 s = Some j -> feature_at h0 j = Some g -> fits strict h0 m1 s j g \/ ~ fits strict h0 m1 s j g.
Proof.
  intros G F. unfold fits. destruct (get_feature m1 s) as [i|] eqn:G1.
  - pose proof (proj2 (entry_find h0 m1 t1 R1 s i) G1) as X. destruct (entry_facts h0 m1 t1 R1 s i X) as (F' & Ns & _).
    destruct (stable_compare h0 apart_refl i j _ g s G1 G F' F) as ([|] & _ & I).
    + left. exists (fd h0 i). split; [exact F'|]. apply I. reflexivity.
    + right. intros (f & Ff & X'). assert (f = fd h0 i) as -> by congruence. destruct I as (_ & I). specialize (I X'). discriminate.
  - destruct (f_kind g); (left; discriminate) || (right; intros X; apply X; reflexivity).
Qed.

Definition fit (j : nid) : Prop := forall s g, get_feature m2 s = Some j -> feature_at h0 j = Some g -> fits strict h0 m1 s j g.
Definition reached (P : list nid) (j : nid) : Prop := j = rid t2 \/ exists p, parent_feature h0 j = Some (Some p) /\ In p P.

Variable Inv : list nid -> heap -> fmodel -> Prop.
Hypothesis Inv_apart : forall P h m, Inv P h m -> apart N h0 h.
Hypothesis step : forall P h m s j g, Inv P h m -> get_feature m2 s = Some j -> feature_at h0 j = Some g -> fits strict h0 m1 s j g ->
  ~ In j P -> reached P j ->
  exists h' m', merge_node ord strict m1 j h (Ctx (Some m) true) = Some (true, h', Ctx (Some m') true) /\ Inv (P ++ [j]) h' m'.

Definition outcome (P Q : list nid) (r : option (bool * heap * ctx)) : Prop :=
  (exists h' m' L, r = Some (true, h', Ctx (Some m') true) /\ Inv (P ++ L) h' m' /\ Permutation L Q /\ forall j, In j Q -> fit j) \/
  (exists h' t', r = Some (false, h', t') /\ apart N h0 h' /\ exists j, In j Q /\ ~ fit j).

Lemma walk : forall k s, height s <= k -> subtree s t2 -> is_feature (rdata s) = true -> forall P h m, Inv P h m ->
  (forall x, In x (feature_ids s) -> ~ In x P) -> reached P (rid s) ->
  outcome P (feature_ids s) (merge_subtree ord k strict m1 (rid s) h (Ctx (Some m) true)).
Proof.
  induction k as [|k IH]; intros s Hs S1 Fs P h m I D Rc.
  { destruct s; cbn [height] in Hs; lia. }
  rewrite merge_subtree_S. pose proof (Inv_apart _ _ _ I) as Ap. destruct s as [n d ts]. cbn [rid rdata] in *.
  destruct d as [g|rk]; [|discriminate]. cbn [feature_ids is_feature app] in *.
  pose proof (rep_feature_at h0 m2 t2 _ g R2 S1 eq_refl) as Fg. cbn [rid] in Fg.
  assert (get_feature m2 (f_name g) = Some n) as Gn.
  { apply (rep_find R2). apply named_subtree. eexists _, g. split; [exact S1|]. auto. }
  destruct (fits_dec (f_name g) n g Gn Fg) as [Ft|Nf].
  2:{ rewrite (node_bad h Ap n (f_name g) g _ Gn Fg Nf). cbn [bind negb]. right. exists h. eexists. split; [reflexivity|]. split; [exact Ap|].
      exists n. split; [left; reflexivity|]. intros X. apply Nf. apply X; assumption. }
  destruct (step P h m (f_name g) n g I Gn Fg Ft (D n (or_introl eq_refl)) Rc) as (h' & m' & -> & I'). cbn [bind negb].
  assert (FitN : fit n).
  { intros s g' G' F'. assert (g' = g) as -> by congruence. 
    pose proof (proj2 (entry_find h0 m2 t2 R2 s n) G') as X. destruct (entry_facts h0 m2 t2 R2 s n X) as (F'' & Ns & _). assert (s = f_name g) as -> by congruence. exact Ft. }
  pose proof (Inv_apart _ _ _ I') as Ap'. pose proof (stable_rep h' Ap' _ _ R2) as R2'.
  destruct (edit_frame None t2 _ (rep_ids _ _ _ R2) S1) as (q & _ & _ & _ & _ & _ & _ & _ & _ & _ & _ & Hq & _).
  assert (holds h' q (Node n (NFeature g) ts)) as Hs' by (apply Hq; apply (rep_holds _ _ _ R2')).
  assert (holds h0 q (Node n (NFeature g) ts)) as Hs0 by (apply Hq; apply (rep_holds _ _ _ R2)).
  pose proof (subtree_nodup _ _ S1 (rep_ids _ _ _ R2)) as Ds.
  unfold child_features. rewrite (get_children_tree ord is_feature h' q n _ ts (rep_ok _ _ _ R2') Hs' Ds). cbn [bind].
  change (flat_map (tops is_feature) ts) with (near ts).
  destruct (Permutation_map_inv rid _ (ord_ok (map rid (near ts)))) as (vs & -> & Pv). apply Permutation_sym in Pv.
  assert (Vs : forall u, In u vs -> subtree u t2 /\ is_feature (rdata u) = true /\ height u <= k /\ parent_feature h0 (rid u) = Some (Some n)).
  { intros u U. assert (In u (near ts)) as U' by (eapply Permutation_in; eassumption). split; [|split; [|split]].
    - eapply subtree_trans; [apply near_subtree; exact U'|exact S1].
    - eapply near_feature; exact U'.
    - pose proof (height_near (fun l => l) (fun l => Permutation_refl l) m2 u ts n (NFeature g) U'). lia.
    - exact (parent_feature_near h0 q n _ ts u (rep_ok _ _ _ R2) Hs0 Ds eq_refl U'). }
  assert (Pf : Permutation (flat_map feature_ids vs) (flat_map feature_ids ts)).
  { rewrite <- (near_feature_ids ts). apply permutation_flat_map. exact Pv. }
  pose proof (feature_ids_nodup _ Ds) as Df. cbn [feature_ids is_feature app] in Df. apply NoDup_cons_iff in Df. destruct Df as (Nn & Df).
  assert (Df' : NoDup (flat_map feature_ids vs)) by (eapply Permutation_NoDup; [apply Permutation_sym; exact Pf|exact Df]).
  assert (D' : forall x, In x (flat_map feature_ids vs) -> ~ In x (P ++ [n])).
  { intros x X Y. assert (In x (flat_map feature_ids ts)) as X' by (eapply Permutation_in; eassumption). apply in_app_or in Y. destruct Y as [Y|[->|[]]].
    - apply (D x); [right; exact X'|exact Y].
    - contradiction. }
  assert (K : outcome (P ++ [n]) (flat_map feature_ids vs) (merge_kids ord k strict m1 (map rid vs) (true, h', Ctx (Some m') true))).
  { assert (In n (P ++ [n])) as In_n by (apply in_or_app; right; left; reflexivity). clear - IH Vs Df' D' I' In_n.
    set (P' := P ++ [n]) in *. clearbody P'. revert P' h' m' I' D' In_n. induction vs as [|u vs IHv]; intros P' h' m' I' D' In_n.
    - left. exists h', m', []. rewrite app_nil_r. split; [reflexivity|]. split; [exact I'|]. split; [constructor|]. intros j [].
    - cbn [flat_map] in *. apply nodup_app in Df'. destruct Df' as (_ & Df2 & Dx). destruct (Vs u (or_introl eq_refl)) as (U1 & U2 & U3 & U4).
      unfold merge_kids. cbn [map fold_left bind].
      destruct (IH u U3 U1 U2 P' h' m' I') as [(h2 & m2' & L & E & I2 & PL & FL)|(h2 & t' & E & A2 & j & J1 & J2)].
      + intros x X. apply D'. apply in_or_app. left. exact X.
      + right. exists n. auto.
      + rewrite E. assert (forall x, In x (flat_map feature_ids vs) -> ~ In x (P' ++ L)) as D2.
        { intros x X Y. apply in_app_or in Y. destruct Y as [Y|Y]; [apply (D' x); [apply in_or_app; right; exact X|exact Y]|].
          apply (Dx x); [|exact X]. eapply Permutation_in; eassumption. }
        destruct (IHv (fun u U => Vs u (or_intror U)) Df2 (P' ++ L) h2 m2' I2 D2) as [(h3 & m3 & L' & E' & I3 & PL' & FL')|(h3 & t' & E' & A3 & j & J1 & J2)].
        * apply in_or_app. left. exact In_n.
        * left. exists h3, m3, (L ++ L'). split; [exact E'|]. rewrite app_assoc. split; [exact I3|]. split; [apply Permutation_app; assumption|].
          intros j J. apply in_app_or in J. destruct J; auto.
        * right. exists h3, t'. split; [exact E'|]. split; [exact A3|]. exists j. split; [apply in_or_app; right; exact J1|exact J2].
      + right. exists h2, t'. rewrite E. split; [apply merge_kids_false|]. split; [exact A2|]. exists j. split; [apply in_or_app; left; exact J1|exact J2]. }
  destruct K as [(h2 & m2' & L & E & I2 & PL & FL)|(h2 & t' & E & A2 & j & J1 & J2)].
  - left. exists h2, m2', (n :: L). split; [exact E|]. rewrite <- app_assoc in I2. split; [exact I2|]. split; [apply perm_skip; transitivity (flat_map feature_ids vs); assumption|].
    intros j [<-|J]; [exact FitN|]. apply FL. eapply Permutation_in; [apply Permutation_sym; exact Pf|exact J].
  - right. exists h2, t'. split; [exact E|]. split; [exact A2|]. exists j. split; [right; eapply Permutation_in; eassumption|exact J2].
Qed.

Lemma walk_all h m : Inv [] h m ->
  (mergeable strict h0 m1 m2 -> exists h' m' L, merge_subtree ord (S N) strict m1 (rid t2) h (Ctx (Some m) true) = Some (true, h', Ctx (Some m') true) /\
    Inv L h' m' /\ Permutation L (feature_ids t2)) /\
  (~ mergeable strict h0 m1 m2 -> exists h' t', merge_subtree ord (S N) strict m1 (rid t2) h (Ctx (Some m) true) = Some (false, h', t') /\ apart N h0 h').
Proof.
  intros I. destruct (rep_top_data R2) as (f & Ef & Kf).
  destruct (walk (S N) t2) with (P := @nil nid) (h := h) (m := m) as [(h' & m' & L & E & I' & PL & FL)|(h' & t' & E & A & j & J1 & J2)].
  - exact (height_bound h0 None t2 (rep_ok _ _ _ R2) (rep_holds _ _ _ R2) (rep_ids _ _ _ R2)).
  - constructor.
  - rewrite Ef. reflexivity.
  - exact I.
  - intros x _ [].
  - left. reflexivity.
  - split; [intros _; exists h', m', L; auto|]. intros X. exfalso. apply X. intros s j g G F. apply FL; [|exact G|exact F].
    pose proof (proj1 (rep_find R2 s j) G) as Y. apply named_subtree in Y. destruct Y as (u & f' & U & <- & Df & _).
    clear - U Df. induction U as [|n d ts v V U IH].
    + destruct u as [n d ts]. cbn [rdata] in Df. subst d. left. reflexivity.
    + cbn [feature_ids]. apply in_or_app. right. apply in_flat_map. eauto.
  - split; [|intros _; exists h', t'; auto]. intros M. exfalso. apply J2. intros s g G F. exact (M s j g G F).
Qed.
End Walk.
