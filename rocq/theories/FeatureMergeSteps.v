(** The two things merging does to the working copy. *)
From Coq Require Import List ZArith Arith Bool Ascii String Permutation Lia.
From Verif Require Import Text TextProofs ConstraintModel ConstraintSpec SourceRangeModel FeatureTreeModel FeatureTreeSpec FeatureTreeProofs FeatureOrderProofs
  FeatureTreeFinal FeatureTransactionModel FeatureEditSpec FeatureEditProofs FeatureOpsProofs FeatureRemoveProofs FeatureGroupProofs FeatureDataProofs
  FeatureHistoryProofs FeatureTransactionSpec FeatureTransactionFinal FeatureBuildSpec FeatureBuildProofs FeatureBuildFinal FeatureCloneSpec FeatureCloneProofs
  FeatureIsolationProofs FeatureMergeSpec FeatureMergeProofs FeatureMergeWalk.
Import ListNotations.

Lemma with_locations_twice f a b : with_locations (with_locations f a) b = with_locations f b.
Proof. reflexivity. Qed.
Lemma with_locations_same f : with_locations f (f_locations f) = f.
Proof. destruct f; reflexivity. Qed.

Lemma add_locations ord c s (i : nid) m : get_feature m s = Some i -> c <> i -> forall ls h f p e,
  name_at h c = Some s -> h_cells h i = Some (Cell (NFeature f) p e) ->
  exists h', copy_run ord (map (OAddLocation (ByPtr c)) ls) h (Ctx (Some m) true) = Some (h', Ctx (Some m) true) /\
    h_next h' = h_next h /\ (forall j, j <> i -> h_cells h' j = h_cells h j) /\
    h_cells h' i = Some (Cell (NFeature (with_locations f (f_locations f ++ ls))) p e).
Proof.
  intros G Ne ls. induction ls as [|l ls IH]; intros h f p e Nc Ci.
  - exists h. rewrite app_nil_r, with_locations_same. cbn [map copy_run]. auto.
  - cbn [map copy_run]. unfold copy_exec at 1. cbn [x_copy x_continue]. unfold translate. cbn [resolve bind]. rewrite Nc. cbn [bind]. rewrite G. cbn [bind translated].
    cbn [exec]. unfold exec_add_location. cbn [resolve bind]. unfold modify_feature. rewrite Ci. cbn [bind n_data n_parent n_edges success fst snd].
    destruct (IH (h_set h i (Some (Cell (NFeature (with_locations f (add_location (f_locations f) l))) p e)))
      (with_locations f (add_location (f_locations f) l)) p e) as (h' & E & Hn & Ho & Hi).
    + unfold name_at, feature_at in *. rewrite h_set_other by exact Ne. exact Nc.
    + cbn [h_cells h_set]. rewrite Nat.eqb_refl. reflexivity.
    + exists h'. split; [exact E|]. split; [exact Hn|]. split.
      * intros j J. rewrite Ho by exact J. apply h_set_other. exact J.
      * rewrite Hi, with_locations_twice. cbn [with_locations f_locations]. unfold add_location. rewrite <- app_assoc. reflexivity.
Qed.

Lemma add_copied ord h m y (p : option nid) (q : nid) cq : heap_ok h -> get_feature m (f_name y) = None ->
  (p = Some q \/ p = None /\ m_root m = Some q) -> h_cells h q = Some cq ->
  exists h' m', exec ord (OAddFeature y p) (h, m) = Some ((h', m'), None) /\
    m' = with_features m (m_features m ++ [(f_name y, h_next h)]) /\ h_next h' = S (h_next h) /\
    h_cells h' (h_next h) = Some (Cell (NFeature y) (Some q) []) /\
    h_cells h' q = Some (Cell (n_data cq) (n_parent cq) (set_insert (h_next h) (n_edges cq))) /\
    (forall j, j <> h_next h -> j <> q -> h_cells h' j = h_cells h j).
Proof.
  intros K G P Cq. assert (q <> h_next h) as Ne.
  { intros ->. rewrite (K (h_next h) (le_n _)) in Cq. discriminate. }
  assert (q <> h_next h) as Ne' by exact Ne. apply Nat.eqb_neq in Ne'.
  cbn [exec]. unfold exec_add_feature, store_feature. rewrite G. cbn [h_alloc].
  set (h1 := Heap (fun j => if Nat.eqb j (h_next h) then Some (Cell (NFeature y) None []) else h_cells h j) (S (h_next h))).
  assert (L : link h1 q (h_next h) = Some (h_set (h_set h1 (h_next h) (Some (Cell (NFeature y) (Some q) []))) q (Some (Cell (n_data cq) (n_parent cq) (set_insert (h_next h) (n_edges cq)))))).
  { unfold link. rewrite (set_parent_some _ _ _ (Cell (NFeature y) None [])) by (cbn [h_cells h1]; rewrite Nat.eqb_refl; reflexivity). cbn [bind n_data n_edges].
    rewrite (add_edge_some _ _ _ cq); [reflexivity|]. rewrite h_set_other by exact Ne. cbn [h_cells h1]. rewrite Ne'. exact Cq. }
  eexists _, _. split.
  - destruct P as [->|(-> & P)]; [|cbn [m_root with_features]; rewrite P]; rewrite L; cbn [bind success]; reflexivity.
  - split; [reflexivity|]. split; [reflexivity|]. split; [|split].
    + rewrite h_set_other by (intros X; apply Ne; symmetry; exact X). cbn [h_cells h_set]. rewrite Nat.eqb_refl. reflexivity.
    + cbn [h_cells h_set]. rewrite Nat.eqb_refl. reflexivity.
    + intros j J1 J2. rewrite h_set_other by exact J2. rewrite h_set_other by exact J1. cbn [h_cells h1]. apply Nat.eqb_neq in J1. rewrite J1. reflexivity.
Qed.

Section Steps.
Variable ord : list nid -> list nid.
Hypothesis ord_ok : is_order ord.
Variables (h0 : heap) (m1 m2 : fmodel) (t1 t2 : tree) (strict : bool).
Hypothesis R1 : represents h0 m1 t1.
Hypothesis R2 : represents h0 m2 t2.
Let N := h_next h0.

(** At a feature both models have. *)
Lemma node_shared h m s j g c y i f p e :
  apart N h0 h -> own N m -> get_feature m2 s = Some j -> feature_at h0 j = Some g -> fits strict h0 m1 s j g ->
  get_feature m1 s = Some c -> feature_at h0 c = Some y -> get_feature m s = Some i -> h_cells h i = Some (Cell (NFeature f) p e) ->
  exists h', merge_node ord strict m1 j h (Ctx (Some m) true) = Some (true, h', Ctx (Some m) true) /\
    apart N h0 h' /\ h_next h' = h_next h /\ (forall x, x <> i -> h_cells h' x = h_cells h x) /\
    h_cells h' i = Some (Cell (NFeature (with_locations f (f_locations f ++ missing_locations y g))) p e).
Proof.
  intros A O G Fg Ft G1 Fy Gi Ci.
  assert (f_name g = s) as En.
  { pose proof (proj2 (entry_find h0 m2 t2 R2 s j) G) as X. destruct (entry_facts h0 m2 t2 R2 s j X) as (F' & Ns & _). congruence. }
  assert (f_name y = s) as Ey.
  { pose proof (proj2 (entry_find h0 m1 t1 R1 s c) G1) as X. destruct (entry_facts h0 m1 t1 R1 s c X) as (F' & Ns & _). congruence. }
  unfold merge_node. rewrite (stable_feature h0 m1 t1 R1 h A j g Fg). cbn [bind]. rewrite En, G1.
  destruct (stable_compare h0 m1 m2 t1 t2 strict R1 R2 h A c j y g s G1 G Fy Fg) as (b & Eb & Ib). rewrite Eb. cbn [bind].
  assert (b = true) as ->.
  { apply Ib. unfold fits in Ft. rewrite G1 in Ft. destruct Ft as (f' & Ff & X). assert (f' = y) as -> by congruence. exact X. }
  rewrite (stable_feature h0 m1 t1 R1 h A c y Fy). cbn [bind].
  assert (name_at h c = Some s) as Nc by (unfold name_at; rewrite (stable_feature h0 m1 t1 R1 h A c y Fy); cbn [bind]; congruence).
  assert (c <> i) as Ne.
  { pose proof (own_get N m s i O Gi) as L. unfold feature_at in Fy. destruct (h_cells h0 c) as [cc|] eqn:Cc; [|discriminate].
    destruct (live h0 m1 t1 R1 h A c cc Cc) as (X & _). unfold nid, N in *. lia. }
  destruct (add_locations ord c s i m Gi Ne (missing_locations y g) h f p e Nc Ci) as (h' & E & Hn & Ho & Hi).
  exists h'. rewrite E. cbn [bind]. split; [reflexivity|]. split; [|auto].
  assert (good_ctx N h0 h (Ctx (Some m) true)) as Gc by (split; [exact A|]; cbn; intros x X; injection X as <-; exact O).
  exact (proj1 (copy_run_good ord ord_ok N h0 _ h _ h' _ Gc E)).
Qed.

(** At a feature only the second model has. *)
Lemma node_added h m s j g y q cq :
  apart N h0 h -> own N m -> get_feature m2 s = Some j -> feature_at h0 j = Some g -> get_feature m1 s = None ->
  feature_copy g = Some y -> get_feature m s = None -> h_cells h q = Some cq ->
  (match parent_feature h0 j with
   | Some (Some p) => exists u, name_at h0 p = Some u /\ get_feature m u = Some q
   | Some None => m_root m = Some q
   | None => False
   end) ->
  exists h' m', merge_node ord strict m1 j h (Ctx (Some m) true) = Some (true, h', Ctx (Some m') true) /\
    apart N h0 h' /\ own N m' /\ f_name y = s /\
    m' = with_features m (m_features m ++ [(s, h_next h)]) /\ h_next h' = S (h_next h) /\
    h_cells h' (h_next h) = Some (Cell (NFeature y) (Some q) []) /\
    h_cells h' q = Some (Cell (n_data cq) (n_parent cq) (set_insert (h_next h) (n_edges cq))) /\
    (forall j, j <> h_next h -> j <> q -> h_cells h' j = h_cells h j) /\
    exists p, (p = Some q \/ p = None /\ m_root m = Some q) /\ exec ord (OAddFeature y p) (h, m) = Some ((h', m'), None).
Proof.
  intros A O G Fg G1 Fc Gm Cq Pq.
  assert (f_name g = s) as En.
  { pose proof (proj2 (entry_find h0 m2 t2 R2 s j) G) as X. destruct (entry_facts h0 m2 t2 R2 s j X) as (F' & Ns & _). congruence. }
  assert (f_name y = s) as Ey by (unfold feature_copy in Fc; destruct (f_kind g); try discriminate; injection Fc as <-; exact En).
  unfold merge_node. rewrite (stable_feature h0 m1 t1 R1 h A j g Fg). cbn [bind]. rewrite En, G1, Fc.
  pose proof (proj2 (entry_find h0 m2 t2 R2 s j) G) as X.
  rewrite (stable_parent h0 m1 t1 R1 h A m2 t2 s j R2 X).
  destruct (parent_feature h0 j) as [pp|] eqn:Pf; [|contradiction]. cbn [bind].
  set (p := match pp with Some _ => Some q | None => None end).
  assert (P' : p = Some q \/ p = None /\ m_root m = Some q) by (subst p; destruct pp; tauto).
  rewrite <- Ey in Gm.
  destruct (add_copied ord h m y p q cq (ap_ok _ _ _ A) Gm P' Cq) as (h' & m' & E & Em & Hn & C1 & C2 & C3).
  assert (copy_exec ord (OAddFeature y pp) h (Ctx (Some m) true) = Some (h', Ctx (Some m') true, None)) as Ec.
  { unfold copy_exec. cbn [x_copy x_continue]. subst p. destruct pp as [p0|].
    - destruct Pq as (u & Nu & Gu). rewrite (stable_name h0 m1 t1 R1 h A p0 u Nu). cbn [bind]. rewrite Gu, E. reflexivity.
    - rewrite E. reflexivity. }
  exists h', m'. rewrite Ec. cbn [bind]. split; [reflexivity|].
  assert (good_ctx N h0 h (Ctx (Some m) true)) as Gc by (split; [exact A|]; cbn; intros x Z; injection Z as <-; exact O).
  destruct (copy_exec_good ord ord_ok N h0 _ h _ h' _ None Gc Ec) as (A' & O').
  split; [exact A'|]. split; [apply O'; reflexivity|]. split; [exact Ey|]. rewrite Ey in Em. split; [exact Em|].
  split; [exact Hn|]. split; [exact C1|]. split; [exact C2|]. split; [exact C3|]. exists p. auto.
Qed.

Lemma get_added m s i x : get_feature m s = None ->
  get_feature (with_features m (m_features m ++ [(s, i)])) x = if text_eqb s x then Some i else get_feature m x.
Proof.
  unfold get_feature. cbn [m_features with_features]. induction (m_features m) as [|[k j] l IH]; cbn [find_name app].
  - reflexivity.
  - destruct (text_eqb k s) eqn:E; [discriminate|]. intros G. destruct (text_eqb k x) eqn:E'; [|apply IH; exact G].
    destruct (text_eqb s x) eqn:E''; [|reflexivity]. apply text_eqb_eq in E'. apply text_eqb_eq in E''. subst.
    assert (text_eqb x x = true) by (apply text_eqb_eq; reflexivity). congruence.
Qed.
Lemma text_eqb_refl s : text_eqb s s = true.
Proof. apply text_eqb_eq. reflexivity. Qed.
Lemma text_eqb_ne a b : a <> b -> text_eqb a b = false.
Proof. intros Ne. destruct (text_eqb a b) eqn:E; [|reflexivity]. apply text_eqb_eq in E. contradiction. Qed.
End Steps.
