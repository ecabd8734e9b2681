(** The result of merging. *)
From Coq Require Import List ZArith Arith Bool Ascii String Permutation Lia.
From Verif Require Import Text TextProofs ConstraintModel ConstraintSpec SourceRangeModel FeatureTreeModel FeatureTreeSpec FeatureTreeProofs FeatureOrderProofs
  FeatureTreeFinal FeatureTransactionModel FeatureEditSpec FeatureEditProofs FeatureOpsProofs FeatureRemoveProofs FeatureGroupProofs FeatureDataProofs
  FeatureHistoryProofs FeatureTransactionSpec FeatureTransactionFinal FeatureBuildSpec FeatureBuildProofs FeatureBuildFinal FeatureCloneSpec FeatureCloneProofs
  FeatureIsolationProofs FeatureMergeSpec FeatureMergeProofs FeatureMergeWalk FeatureMergeSteps.
Import ListNotations.

Lemma clone_represents ord (ord_ok : is_order ord) map_order (map_ok : forall l, Permutation (map_order l) l) h m t :
  represents h m t -> all_connected h m -> root_name_free m ->
  exists h' m' t', clone_model ord map_order h m = Some (h', m') /\ cloned h m h' m' /\ represents h' m' t'.
Proof.
  intros R conn free. destruct (model_cloned ord ord_ok map_order map_ok h m t R conn free) as (h' & m' & E & C & K).
  destruct (built_steps ord ord_ok h (the_calls map_order h m) (the_decl map_order h m t) (rep_ok _ _ _ R) (the_calls_describe map_order map_ok h m t R conn free))
    as (w1 & t1 & w2 & t2 & h2 & m2 & t3 & (E1 & R1 & E2 & R2 & E3 & R3 & _) & _).
  assert (clone_model ord map_order h m = Some (h2, m2)) as E'.
  { unfold clone_model. rewrite (clone_calls_are map_order map_ok h m t R conn). cbn [bind].
    rewrite build_calls_queues. unfold build. cbn [b_model b_features b_tree b_relations bind]. rewrite <- surjective_pairing.
    rewrite (commit_ok _ _ _ _ _ E1 R1). cbn [bind]. rewrite (commit_ok _ _ _ _ _ E2 R2). cbn [bind]. rewrite (commit_ok _ _ _ _ _ E3 R3). reflexivity. }
  rewrite E in E'. injection E' as <- <-. exists h', m', t3. auto.
Qed.

Lemma known_in m s : NoDup (map fst (m_features m)) -> (known m s <-> In s (map fst (m_features m))).
Proof.
  intros D. unfold known. destruct (get_feature m s) as [i|] eqn:G.
  - split; [|eauto]. intros _. apply (find_name_in _ _ _ D) in G. apply in_map_iff. exists (s, i). auto.
  - split; [intros (i & X); discriminate|]. intros X. apply find_name_none in G. contradiction.
Qed.

Lemma gather h l : (forall s i, In (s, i) l -> exists f, feature_at h i = Some f) ->
  exists fs : list feature, fold_right (fun (e : text * nid) o => let* f := feature_at h (snd e) in let* l := o in Some (f :: l)) (Some []) l = Some fs /\
    Forall2 (fun (e : text * nid) f => feature_at h (snd e) = Some f) l fs.
Proof.
  intros St. induction l as [|[s0 i] l IH]; [exists []; auto|]. destruct IH as (fs & E & F); [intros s1 j X; apply (St s1 j); right; exact X|].
  destruct (St s0 i (or_introl eq_refl)) as (f & Ff). exists (f :: fs). cbn [fold_right snd]. rewrite Ff. cbn [bind]. rewrite E. cbn [bind]. auto.
Qed.

Section Merge.
Variable ord : list nid -> list nid.
Hypothesis ord_ok : is_order ord.
Variables (h0 : heap) (m1 m2 : fmodel) (t1 t2 : tree) (strict : bool).
Hypothesis R1 : represents h0 m1 t1.
Hypothesis R2 : represents h0 m2 t2.
Let N := h_next h0.

Lemma second_name s j g : get_feature m2 s = Some j -> feature_at h0 j = Some g -> f_name g = s.
Proof.
  intros G Fg. pose proof (proj2 (entry_find h0 m2 t2 R2 s j) G) as X. destruct (entry_facts h0 m2 t2 R2 s j X) as (F' & Ns & _). congruence.
Qed.
Lemma first_name s j g : get_feature m1 s = Some j -> feature_at h0 j = Some g -> f_name g = s.
Proof.
  intros G Fg. pose proof (proj2 (entry_find h0 m1 t1 R1 s j) G) as X. destruct (entry_facts h0 m1 t1 R1 s j X) as (F' & Ns & _). congruence.
Qed.
Lemma first_feature_of s i : get_feature m1 s = Some i -> exists f, feature_at h0 i = Some f.
Proof.
  intros G. pose proof (proj2 (entry_find h0 m1 t1 R1 s i) G) as X. destruct (entry_facts h0 m1 t1 R1 s i X) as (F' & _). eauto.
Qed.

Record base (P : list nid) (h : heap) (m : fmodel) : Prop := Base {
  b_apart : apart N h0 h;
  b_own : own N m;
  b_stored : forall s i, get_feature m s = Some i -> exists f p e, h_cells h i = Some (Cell (NFeature f) p e) /\ f_name f = s;
  b_names : forall s, known m s <-> known m1 s \/ exists j, In j P /\ name_at h0 j = Some s;
  b_sub : forall j, In j P -> exists s, get_feature m2 s = Some j /\ name_at h0 j = Some s;
  b_root : exists s r f p e, m_root m = Some r /\ get_feature m s = Some r /\ h_cells h r = Some (Cell (NFeature f) p e) /\ f_kind f = FRoot /\ known m1 s
}.

Inductive effect (h : heap) (m : fmodel) (s : text) (j : nid) (g : feature) (h' : heap) (m' : fmodel) : Prop :=
| ef_shared c y i f p e : get_feature m1 s = Some c -> feature_at h0 c = Some y -> get_feature m s = Some i ->
    h_cells h i = Some (Cell (NFeature f) p e) -> f_name f = s -> m' = m -> h_next h' = h_next h ->
    (forall x, x <> i -> h_cells h' x = h_cells h x) ->
    h_cells h' i = Some (Cell (NFeature (with_locations f (f_locations f ++ missing_locations y g))) p e) -> effect h m s j g h' m'
| ef_added y q cq v fq p : get_feature m1 s = None -> feature_copy g = Some y -> get_feature m s = None -> h_cells h q = Some cq ->
    get_feature m v = Some q -> n_data cq = NFeature fq ->
    (forall r, parent_feature h0 j = Some (Some r) -> name_at h0 r = Some v) -> f_name y = s ->
    m' = with_features m (m_features m ++ [(s, h_next h)]) -> h_next h' = S (h_next h) ->
    h_cells h' (h_next h) = Some (Cell (NFeature y) (Some q) []) ->
    h_cells h' q = Some (Cell (n_data cq) (n_parent cq) (set_insert (h_next h) (n_edges cq))) ->
    (forall x, x <> h_next h -> x <> q -> h_cells h' x = h_cells h x) ->
    (p = Some q \/ p = None /\ m_root m = Some q) -> exec ord (OAddFeature y p) (h, m) = Some ((h', m'), None) -> effect h m s j g h' m'.

Lemma below_next h i c : apart N h0 h -> h_cells h i = Some c -> i < h_next h.
Proof.
  intros A C. destruct (le_lt_dec (h_next h) i) as [G|G]; [|exact G]. rewrite (ap_ok _ _ _ A i G) in C. discriminate.
Qed.

Lemma base_step P h m s j g : base P h m -> get_feature m2 s = Some j -> feature_at h0 j = Some g -> fits strict h0 m1 s j g ->
  ~ In j P -> reached h0 t2 P j ->
  exists h' m', merge_node ord strict m1 j h (Ctx (Some m) true) = Some (true, h', Ctx (Some m') true) /\ base (P ++ [j]) h' m' /\ effect h m s j g h' m'.
Proof.
  intros B G Fg Ft Nj Rc. pose proof (second_name s j g G Fg) as Ng. destruct B as [A O St Nm Sb Rt].
  assert (Nj0 : name_at h0 j = Some s) by (unfold name_at; rewrite Fg; cbn [bind]; congruence).
  assert (Sb' : forall x, In x (P ++ [j]) -> exists s, get_feature m2 s = Some x /\ name_at h0 x = Some s).
  { intros x X. apply in_app_or in X. destruct X as [X|[<-|[]]]; [apply Sb; exact X|]. eauto. }
  destruct (get_feature m1 s) as [c|] eqn:G1.
  - destruct (first_feature_of s c G1) as (y & Fy). destruct (proj2 (Nm s) (or_introl (ex_intro _ c G1))) as (i & Gi).
    destruct (St s i Gi) as (f & p & e & Ci & Nf).
    destruct (node_shared ord ord_ok h0 m1 m2 t1 t2 strict R1 R2 h m s j g c y i f p e A O G Fg Ft G1 Fy Gi Ci) as (h' & E & A' & Hn & Ho & Hi).
    exists h', m. split; [exact E|]. split; [|eapply ef_shared; eauto].
    assert (Cells : forall x f0 p0 e0, h_cells h x = Some (Cell (NFeature f0) p0 e0) -> exists f1, h_cells h' x = Some (Cell (NFeature f1) p0 e0) /\ f_name f1 = f_name f0 /\ f_kind f1 = f_kind f0).
    { intros x f0 p0 e0 C. destruct (Nat.eq_dec x i) as [->|Nx].
      - rewrite C in Ci. injection Ci as -> -> ->. eexists. split; [exact Hi|]. auto.
      - rewrite Ho by exact Nx. eauto. }
    constructor; [exact A'|exact O| | |exact Sb'|].
    + intros s0 x X. destruct (St s0 x X) as (f0 & p0 & e0 & C & E0). destruct (Cells x f0 p0 e0 C) as (f1 & C1 & E1 & _). exists f1, p0, e0. split; [exact C1|congruence].
    + intros s0. rewrite (Nm s0). split; [intros [X|(x & X1 & X2)]; [tauto|right; exists x; split; [apply in_or_app; auto|exact X2]]|].
      intros [X|(x & X1 & X2)]; [tauto|]. apply in_app_or in X1. destruct X1 as [X1|[<-|[]]]; [right; eauto|]. left. exists c. congruence.
    + destruct Rt as (s0 & r & f0 & p0 & e0 & E1 & E2 & C & Kd & E3). destruct (Cells r f0 p0 e0 C) as (f1 & C1 & _ & E4). exists s0, r, f1, p0, e0.
      split; [exact E1|]. split; [exact E2|]. split; [exact C1|]. split; [congruence|exact E3].
  - assert (get_feature m s = None) as Gm.
    { destruct (get_feature m s) as [i|] eqn:Gi; [|reflexivity]. exfalso. destruct (proj1 (Nm s) (ex_intro _ i Gi)) as [(x & X)|(x & X1 & X2)]; [congruence|].
      destruct (Sb x X1) as (s' & G' & N'). assert (s' = s) as -> by congruence. assert (x = j) as -> by congruence. contradiction. }
    assert (exists y, feature_copy g = Some y) as (y & Fc).
    { unfold fits in Ft. rewrite G1 in Ft. unfold feature_copy. destruct (f_kind g); eauto. contradiction. }
    pose proof (proj2 (entry_find h0 m2 t2 R2 s j) G) as Xj. destruct (entry_facts h0 m2 t2 R2 s j Xj) as (_ & _ & Cj).
    assert (exists q v fq pq eq0, h_cells h q = Some (Cell (NFeature fq) pq eq0) /\ get_feature m v = Some q /\
      (forall r, parent_feature h0 j = Some (Some r) -> name_at h0 r = Some v) /\
      match parent_feature h0 j with
      | Some (Some p) => exists u, name_at h0 p = Some u /\ get_feature m u = Some q
      | Some None => m_root m = Some q
      | None => False
      end) as (q & v & fq & pq & eq0 & Cq & Gq & Pv & Pq).
    { destruct Cj as [(Ej & Kj & Pj)|(Ej & Kj & u & p & Pj & Ip & Np)]; rewrite Pj.
      - destruct Rt as (s0 & r & f0 & p0 & e0 & E1 & E2 & C & Kd & E3). exists r, s0, f0, p0, e0. split; [exact C|]. split; [exact E2|]. split; [discriminate|exact E1].
      - destruct Rc as [Rc|(p' & Pj' & Ip')]; [contradiction|]. assert (p' = p) as -> by congruence.
        destruct (proj2 (Nm u) (or_intror (ex_intro _ p (conj Ip' Np)))) as (q & Gq). destruct (St u q Gq) as (f0 & p0 & e0 & C & _).
        exists q, u, f0, p0, e0. split; [exact C|]. split; [exact Gq|]. split; [intros r X; congruence|]. exists u. auto. }
    destruct (node_added ord ord_ok h0 m1 m2 t1 t2 strict R1 R2 h m s j g y q _ A O G Fg G1 Fc Gm Cq Pq)
      as (h' & m' & E & A' & O' & Ey & Em & Hn & C1 & C2 & C3 & p & Pp & Ex).
    exists h', m'. split; [exact E|]. split; [|eapply (ef_added h m s j g h' m' y q _ v fq p); eauto]. cbn [n_data n_parent n_edges] in *.
    assert (Cells : forall x f0 p0 e0, h_cells h x = Some (Cell (NFeature f0) p0 e0) -> exists e1, h_cells h' x = Some (Cell (NFeature f0) p0 e1)).
    { intros x f0 p0 e0 C. destruct (Nat.eq_dec x q) as [->|Nx].
      - rewrite C in Cq. injection Cq as -> -> ->. eauto.
      - rewrite C3; [eauto| |exact Nx]. pose proof (below_next h x _ A C). unfold nid in *. lia. }
    assert (Get : forall x, get_feature m' x = if text_eqb s x then Some (h_next h) else get_feature m x) by (intros x; rewrite Em; apply get_added; exact Gm).
    constructor; [exact A'|exact O'| | |exact Sb'|].
    + intros s0 x X. rewrite Get in X. destruct (text_eqb s s0) eqn:Es.
      * injection X as <-. apply text_eqb_eq in Es. exists y, (Some q), []. split; [exact C1|congruence].
      * destruct (St s0 x X) as (f0 & p0 & e0 & C & E0). destruct (Cells x f0 p0 e0 C) as (e1 & C'). eauto.
    + intros s0. unfold known at 1. rewrite Get. destruct (text_eqb s s0) eqn:Es.
      * apply text_eqb_eq in Es. subst s0. split; [|eauto]. intros _. right. exists j. split; [apply in_or_app; right; left; reflexivity|exact Nj0].
      * change (exists i, get_feature m s0 = Some i) with (known m s0). rewrite (Nm s0).
        split; [intros [X|(x & X1 & X2)]; [tauto|right; exists x; split; [apply in_or_app; auto|exact X2]]|].
        intros [X|(x & X1 & X2)]; [tauto|]. apply in_app_or in X1. destruct X1 as [X1|[<-|[]]]; [right; eauto|].
        exfalso. assert (s0 = s) as -> by congruence. rewrite text_eqb_refl in Es. discriminate.
    + destruct Rt as (s0 & r & f0 & p0 & e0 & E1 & E2 & C & Kd & E3). destruct (Cells r f0 p0 e0 C) as (e1 & C'). exists s0, r, f0, p0, e1.
      split; [rewrite Em; exact E1|]. split; [rewrite Get|split; [exact C'|split; [exact Kd|exact E3]]].
      rewrite text_eqb_ne; [exact E2|]. intros ->. destruct E3 as (x & X). congruence.
Qed.

(** If the name of the second root is not known in the first model, the copy gets two
    root features. *)
Record two_roots (P : list nid) (h : heap) (m : fmodel) : Prop := TwoRoots {
  tr_base : base P h m;
  tr_second : In (rid t2) P -> exists s r f p e, get_feature m s = Some r /\ h_cells h r = Some (Cell (NFeature f) p e) /\ f_kind f = FRoot /\ ~ known m1 s;
  tr_keys : NoDup (map fst (m_features m))
}.

Lemma two_step P h m s j g : ~ root_shared m1 m2 -> two_roots P h m -> get_feature m2 s = Some j -> feature_at h0 j = Some g -> fits strict h0 m1 s j g ->
  ~ In j P -> reached h0 t2 P j ->
  exists h' m', merge_node ord strict m1 j h (Ctx (Some m) true) = Some (true, h', Ctx (Some m') true) /\ two_roots (P ++ [j]) h' m'.
Proof.
  intros Ns [B Sc Ky] G Fg Ft Nj Rc. destruct (base_step P h m s j g B G Fg Ft Nj Rc) as (h' & m' & E & B' & Ef). exists h', m'. split; [exact E|].
  pose proof (b_apart _ _ _ B) as A. constructor; [exact B'| |].
  - intros X. destruct Ef as [c y i f p e G1 Fy Gi Ci Nf -> Hn Ho Hi|y q cq v fq p G1 Fc Gm Cq Gv Dq Pv Ny Em Hn C1 C2 C3 Pp Ex].
    + assert (In (rid t2) P) as X'.
      { apply in_app_or in X. destruct X as [X|[X|[]]]; [exact X|]. exfalso. apply Ns. exists s, (rid t2). split; [apply (rep_root _ _ _ R2)|]. subst j. split; [exact G|]. exists c. exact G1. }
      destruct (Sc X') as (s0 & r & f0 & p0 & e0 & E1 & C & Kd & Uk). exists s0, r.
      destruct (Nat.eq_dec r i) as [->|Nx].
      * rewrite C in Ci. injection Ci as -> -> ->. eexists _, p, e. split; [exact E1|]. split; [exact Hi|]. split; [exact Kd|exact Uk].
      * exists f0, p0, e0. rewrite Ho by exact Nx. auto.
    + assert (Get : forall x, get_feature m' x = if text_eqb s x then Some (h_next h) else get_feature m x) by (intros x; rewrite Em; apply get_added; exact Gm).
      apply in_app_or in X. destruct X as [X|[X|[]]].
      * destruct (Sc X) as (s0 & r & f0 & p0 & e0 & E1 & C & Kd & Uk). exists s0, r, f0, p0.
        assert (s <> s0) as Ne by (intros ->; congruence). rewrite Get, text_eqb_ne by exact Ne.
        destruct (Nat.eq_dec r q) as [->|Nx].
        -- rewrite C in Cq. injection Cq as <-. eexists. split; [exact E1|]. split; [exact C2|]. auto.
        -- exists e0. rewrite C3; [auto| |exact Nx]. pose proof (below_next h r _ A C). unfold nid in *. lia.
      * subst j. exists s, (h_next h), y, (Some q), []. rewrite Get, text_eqb_refl. split; [reflexivity|]. split; [exact C1|]. split.
        -- destruct (rep_top_data R2) as (f2 & Ef2 & Kf2). pose proof (rep_feature_at h0 m2 t2 t2 f2 R2 (sub_refl _) Ef2) as F2.
           assert (f2 = g) as -> by congruence. unfold is_root_kind in Kf2. unfold feature_copy in Fc. destruct (f_kind g); try discriminate. injection Fc as <-. reflexivity.
        -- intros (x & Kx). congruence.
  - destruct Ef as [c y i f p e G1 Fy Gi Ci Nf -> Hn Ho Hi|y q cq v fq p G1 Fc Gm Cq Gv Dq Pv Ny Em Hn C1 C2 C3 Pp Ex]; [exact Ky|].
    rewrite Em. cbn [m_features with_features]. rewrite map_app. cbn [map fst]. apply nodup_app. split; [exact Ky|]. split; [constructor; [intros []|constructor]|].
    intros x X [<-|[]]. apply find_name_none in Gm. contradiction.
Qed.

Lemma two_roots_inconsistent P h m : two_roots P h m -> In (rid t2) P -> consistent h m = Some false.
Proof.
  intros [B Sc Ky] I. destruct (Sc I) as (s' & r' & f' & p' & e' & G' & C' & K' & U'). destruct (b_root _ _ _ B) as (s & r & f & p & e & Rt & G & C & Kf & U).
  unfold consistent, one_root. rewrite Rt. unfold feature_at at 1. rewrite C. cbn [bind n_data].
  assert (forall s i, In (s, i) (m_features m) -> exists f, feature_at h i = Some f) as St.
  { intros s0 i X. destruct (b_stored _ _ _ B s0 i) as (f0 & p0 & e0 & C0 & _); [apply (find_name_in _ _ _ Ky); exact X|]. exists f0. unfold feature_at. rewrite C0. reflexivity. }
  destruct (gather h (m_features m) St) as (fs & -> & Fs).
  cbn [bind].
  assert (In (s, r) (m_features m)) as I1 by (apply (find_name_in _ _ _ Ky); exact G).
  assert (In (s', r') (m_features m)) as I2 by (apply (find_name_in _ _ _ Ky); exact G').
  assert (s <> s') as Ne by (intros ->; contradiction).
  assert (2 <= List.length (filter is_root_kind fs)) as L.
  { assert (Fr : feature_at h r = Some f) by (unfold feature_at; rewrite C; reflexivity).
    assert (Fr' : feature_at h r' = Some f') by (unfold feature_at; rewrite C'; reflexivity).
    assert (Kr : is_root_kind f = true) by (unfold is_root_kind; rewrite Kf; reflexivity).
    assert (Kr' : is_root_kind f' = true) by (unfold is_root_kind; rewrite K'; reflexivity).
    assert (One : forall (l : list (text * nid)) gs a b k, Forall2 (fun e f => feature_at h (snd e) = Some f) l gs -> In (a, b) l -> feature_at h b = Some k ->
      is_root_kind k = true -> 1 <= List.length (filter is_root_kind gs)).
    { intros l gs a b k FF. induction FF as [|[s1 i1] f1 l1 fs1 E F IH]; intros X Y Z; [destruct X|]. cbn [filter snd] in *. destruct X as [X|X].
      - injection X as -> ->. assert (f1 = k) as -> by congruence. rewrite Z. cbn [List.length]. lia.
      - specialize (IH X Y Z). destruct (is_root_kind f1); cbn [List.length]; lia. }
    clear - Fs I1 I2 Ne Fr Fr' Kr Kr' One. induction Fs as [|[s1 i1] f1 l1 fs1 E F IH]; [destruct I1|]. cbn [filter snd] in *.
    destruct I1 as [I1|I1], I2 as [I2|I2].
    - congruence.
    - injection I1 as -> ->. assert (f1 = f) as -> by congruence. rewrite Kr. cbn [List.length]. pose proof (One l1 fs1 s' r' f' F I2 Fr' Kr'). lia.
    - injection I2 as -> ->. assert (f1 = f') as -> by congruence. rewrite Kr'. cbn [List.length]. pose proof (One l1 fs1 s r f F I1 Fr Kr). lia.
    - specialize (IH I1 I2). destruct (is_root_kind f1); cbn [List.length]; lia. }
  unfold is_root_kind at 1. rewrite Kf. cbn [andb]. destruct (Nat.eqb_spec (List.length (filter is_root_kind fs)) 1) as [E|_]; [lia|reflexivity].
Qed.

(** The working copy as it develops from the clone [m0] of the first model. *)
Variables (h1 : heap) (m0 : fmodel) (t0 : tree).
Hypothesis Cl : cloned h0 m1 h1 m0.
Hypothesis R0 : represents h1 m0 t0.

Definition extra_at (s : text) (j : nid) : list source_range :=
  match feature_at h0 j, get_feature m1 s with
  | Some x, Some c => if text_eqb (f_name x) s then match feature_at h0 c with Some y => missing_locations y x | None => [] end else []
  | _, _ => []
  end.
Definition extra (s : text) (P : list nid) : list source_range := flat_map (extra_at s) P.

Definition as_was (s : list source_range) (d d' : ndata) : Prop :=
  match d with NRelationship _ => d' = d | NFeature f => d' = NFeature (with_locations f (f_locations f ++ s)) end.
Definition extra_for (d : ndata) (P : list nid) : list source_range := match d with NFeature f => extra (f_name f) P | NRelationship _ => [] end.

Record inv (P : list nid) (h : heap) (m : fmodel) : Prop := Inv {
  iv_base : base P h m;
  iv_rep : exists t, represents h m t;
  iv_rest : same_rest m0 m;
  iv_top : m_root m = m_root m0;
  iv_rel : m_relationships m = m_relationships m0;
  iv_first : forall s i, get_feature m0 s = Some i -> get_feature m s = Some i;
  iv_old : forall i c, In i (nodes m0) -> h_cells h1 i = Some c ->
    exists c', h_cells h i = Some c' /\ n_parent c' = n_parent c /\ as_was (extra_for (n_data c) P) (n_data c) (n_data c');
  iv_new : forall j x, In j P -> feature_at h0 j = Some x -> get_feature m1 (f_name x) = None ->
    exists i y q e, get_feature m (f_name x) = Some i /\ feature_copy x = Some y /\ h_cells h i = Some (Cell (NFeature y) (Some q) e) /\
      forall p u, parent_feature h0 j = Some (Some p) -> name_at h0 p = Some u -> get_feature m u = Some q
}.

Lemma clone_known s : known m0 s <-> known m1 s.
Proof.
  rewrite (known_in m0 s (rep_keys R0)), (known_in m1 s (rep_keys R1)).
  split; apply Permutation_in; [|apply Permutation_sym]; apply (cl_names _ _ _ _ Cl).
Qed.
Lemma clone_entry i c f : In i (nodes m0) -> h_cells h1 i = Some c -> n_data c = NFeature f -> get_feature m0 (f_name f) = Some i.
Proof.
  intros I C D. apply (rep_node R0) in I. destruct (ids_subtree _ _ I) as (u & U & <-).
  destruct (rep_cell R0 u U) as (q & Cu). rewrite C in Cu. injection Cu as ->. cbn [n_data] in D. apply (rep_find R0). apply named_subtree. exists u, f. auto.
Qed.
Lemma clone_node s i : get_feature m0 s = Some i -> In i (nodes m0).
Proof. intros G. apply (find_name_in _ _ _ (rep_keys R0)) in G. unfold nodes. apply in_or_app. left. apply in_map_iff. exists (s, i). auto. Qed.

Lemma as_was_nil d : as_was [] d d.
Proof. destruct d as [f|k]; cbn; [rewrite app_nil_r, with_locations_same; reflexivity|reflexivity]. Qed.

Lemma inv_start : apart N h0 h1 -> own N m0 -> inv [] h1 m0.
Proof.
  intros A O. constructor.
  - constructor; [exact A|exact O| | |intros j []|].
    + intros s i G. pose proof (proj1 (rep_find R0 s i) G) as X. apply named_subtree in X. destruct X as (u & f & U & <- & Df & Nf).
      destruct (rep_cell R0 u U) as (q & Cu). rewrite Df in Cu. eauto.
    + intros s. rewrite clone_known. split; [tauto|]. intros [X|(j & [] & _)]. exact X.
    + destruct (rep_top_data R0) as (f & Ef & Kf). destruct (rep_cell R0 t0 (sub_refl _)) as (q & Cu). rewrite Ef in Cu.
      assert (get_feature m0 (f_name f) = Some (rid t0)) as G by (apply (rep_find R0); apply named_subtree; exists t0, f; repeat split; [constructor|exact Ef]).
      exists (f_name f), (rid t0), f. eexists _, _. split; [apply (rep_root _ _ _ R0)|]. split; [exact G|]. split; [exact Cu|].
      split; [unfold is_root_kind in Kf; destruct (f_kind f); congruence|]. apply clone_known. exists (rid t0). exact G.
  - exists t0. exact R0.
  - repeat split.
  - reflexivity.
  - reflexivity.
  - auto.
  - intros i c I C. exists c. split; [exact C|]. split; [reflexivity|]. destruct (n_data c); apply as_was_nil.
  - intros j x [].
Qed.

Lemma extra_for_snoc d P j : extra_for d (P ++ [j]) = extra_for d P ++ match d with NFeature f => extra_at (f_name f) j | NRelationship _ => [] end.
Proof. destruct d as [f|k]; cbn [extra_for]; [|reflexivity]. unfold extra. rewrite flat_map_app. cbn [flat_map]. rewrite app_nil_r. reflexivity. Qed.

Lemma inv_step P h m s j g : root_shared m1 m2 -> inv P h m -> get_feature m2 s = Some j -> feature_at h0 j = Some g -> fits strict h0 m1 s j g ->
  ~ In j P -> reached h0 t2 P j ->
  exists h' m', merge_node ord strict m1 j h (Ctx (Some m) true) = Some (true, h', Ctx (Some m') true) /\ inv (P ++ [j]) h' m'.
Proof.
  intros Sh [B (t & R) Rest Top Rel First Old New] G Fg Ft Nj Rc.
  destruct (base_step P h m s j g B G Fg Ft Nj Rc) as (h' & m' & E & B' & Ef). exists h', m'. split; [exact E|].
  pose proof (b_apart _ _ _ B) as A. pose proof (second_name s j g G Fg) as Ng.
  destruct Ef as [c y i f p e G1 Fy Gi Ci Nf -> Hn Ho Hi|y q cq v fq p G1 Fc Gm Cq Gv Dq Pv Ny Em Hn C1 C2 C3 Pp Ex].
  - constructor; [exact B'| |exact Rest|exact Top|exact Rel|exact First| |].
    + pose proof (proj1 (rep_find R s i) Gi) as X. apply named_subtree in X. destruct X as (u & f0 & U & Ru & Df & _).
      assert (f0 = f) as ->.
      { pose proof (rep_feature_at h m t u f0 R U Df) as X. rewrite Ru in X. unfold feature_at in X. rewrite Ci in X. cbn [bind n_data] in X. congruence. }
      set (ff := with_locations f (f_locations f ++ missing_locations y g)) in *. exists (relabel (at_node i ff) t).
      apply (represents_relabel (at_node i ff) h h' m m t R); try reflexivity.
      * intros x. unfold at_node. destruct (Nat.eqb_spec x i) as [->|Nx].
        -- rewrite Hi, Ci. reflexivity.
        -- rewrite (Ho x Nx). destruct (h_cells h x) as [[d0 p0 e0]|]; reflexivity.
      * rewrite Hn. apply Nat.le_refl.
      * rewrite <- Ru. apply (at_node_alike h m t u f ff R U Df); reflexivity.
    + intros i0 c0 I0 C0. destruct (Old i0 c0 I0 C0) as (c' & C' & P' & D'). rewrite extra_for_snoc. destruct (Nat.eq_dec i0 i) as [->|Nx].
      * rewrite C' in Ci. injection Ci as ->. cbn [n_data n_parent] in *. eexists. split; [exact Hi|]. cbn [n_parent n_data]. split; [exact P'|].
        destruct (n_data c0) as [f0|k0] eqn:D0; [|discriminate]. cbn [as_was extra_for] in *. injection D' as D'.
        assert (f_name f0 = s) as E0 by (rewrite <- Nf, D'; reflexivity).
        assert (extra_at (f_name f0) j = missing_locations y g) as ->.
        { unfold extra_at. rewrite E0, Fg, G1, Fy, Ng, text_eqb_refl. reflexivity. }
        rewrite app_assoc. rewrite D'. cbn [with_locations f_locations]. reflexivity.
      * exists c'. rewrite (Ho i0 Nx). split; [exact C'|]. split; [exact P'|].
        destruct (n_data c0) as [f0|k0] eqn:D0; [|exact D'].
        assert (extra_at (f_name f0) j = []) as ->; [|rewrite app_nil_r; exact D'].
        unfold extra_at. rewrite Fg. destruct (get_feature m1 (f_name f0)); [|reflexivity]. rewrite text_eqb_ne; [reflexivity|].
        intros En. apply Nx. pose proof (First _ _ (clone_entry i0 c0 f0 I0 C0 D0)) as X. rewrite <- En, Ng in X. congruence.
    + intros j0 x J0 Fx Gx. apply in_app_or in J0. destruct J0 as [J0|[<-|[]]].
      * destruct (New j0 x J0 Fx Gx) as (i0 & y0 & q0 & e0 & E1 & E2 & E3 & E4). exists i0, y0, q0, e0. split; [exact E1|]. split; [exact E2|]. split; [|exact E4].
        rewrite Ho; [exact E3|]. intros ->. rewrite E3 in Ci. injection Ci as Z1 Z2 Z3.
        destruct (b_stored _ _ _ B (f_name x) i E1) as (f1 & p1 & e1 & X1 & X2). rewrite E3 in X1. injection X1 as <- _ _. congruence.
      * exfalso. assert (x = g) as -> by congruence. congruence.
  - assert (Get : forall x, get_feature m' x = if text_eqb s x then Some (h_next h) else get_feature m x) by (intros x; rewrite Em; apply get_added; exact Gm).
    assert (Keep : forall x i, get_feature m x = Some i -> get_feature m' x = Some i).
    { intros x i X. rewrite Get, text_eqb_ne; [exact X|]. intros ->. congruence. }
    assert (Cells : forall x c, h_cells h x = Some c -> exists e', h_cells h' x = Some (Cell (n_data c) (n_parent c) e')).
    { intros x c C. destruct (Nat.eq_dec x q) as [->|Nx].
      - rewrite C in Cq. injection Cq as ->. eauto.
      - exists (n_edges c). rewrite C3; [|pose proof (below_next h x _ A C); unfold nid in *; lia|exact Nx]. rewrite C. destruct c; reflexivity. }
    constructor.
    + exact B'.
    + assert (f_kind y <> FRoot) as Ky.
      { intros Kr. assert (f_kind g = FRoot) as Kg by (unfold feature_copy in Fc; destruct (f_kind g); try discriminate; injection Fc as <-; cbn in Kr; congruence).
        destruct Sh as (s2 & r2 & Er & G2 & K2). pose proof (proj2 (entry_find h0 m2 t2 R2 s j) G) as Xj. destruct (entry_facts h0 m2 t2 R2 s j Xj) as (F1 & _ & [(Ej & _)|(_ & K3 & _)]).
        - rewrite (rep_root _ _ _ R2) in Er. injection Er as <-. subst j. assert (s2 = s) as ->; [|destruct K2; congruence].
          pose proof (second_name s2 _ g G2 Fg). congruence.
        - apply K3. congruence. }
      pose proof (proj1 (rep_find R v q) Gv) as X. apply named_subtree in X. destruct X as (u & f0 & U & Ru & Df & _).
      destruct (exec_add_feature_ok ord h m t y p u R Ky) as (h2 & m3 & E2 & R2' & _).
      * rewrite Ny. exact Gm.
      * exact U.
      * rewrite Df. reflexivity.
      * destruct Pp as [->|(-> & X)]; [left; congruence|]. right. split; [reflexivity|]. rewrite (rep_root _ _ _ R) in X. injection X as X.
        apply (subtree_unique t); [apply (rep_ids _ _ _ R)|exact U|constructor|congruence].
      * rewrite E2 in Ex. injection Ex as -> ->. eauto.
    + rewrite Em. exact Rest.
    + rewrite Em. exact Top.
    + rewrite Em. exact Rel.
    + intros s0 i0 X. apply Keep. apply First. exact X.
    + intros i0 c0 I0 C0. destruct (Old i0 c0 I0 C0) as (c' & C' & P' & D'). destruct (Cells i0 c' C') as (e' & Ce). eexists. split; [exact Ce|]. cbn [n_parent n_data].
      split; [exact P'|]. rewrite extra_for_snoc. destruct (n_data c0) as [f0|k0] eqn:D0; [|exact D'].
      assert (extra_at (f_name f0) j = []) as ->; [|rewrite app_nil_r; exact D'].
      unfold extra_at. rewrite Fg. destruct (get_feature m1 (f_name f0)) eqn:Gf; [|reflexivity]. rewrite text_eqb_ne; [reflexivity|]. intros En. congruence.
    + intros j0 x J0 Fx Gx. apply in_app_or in J0. destruct J0 as [J0|[<-|[]]].
      * destruct (New j0 x J0 Fx Gx) as (i0 & y0 & q0 & e0 & E1 & E2 & E3 & E4). destruct (Cells i0 _ E3) as (e' & Ce). exists i0, y0, q0, e'.
        split; [apply Keep; exact E1|]. split; [exact E2|]. split; [exact Ce|]. intros p0 u0 X1 X2. apply Keep. exact (E4 p0 u0 X1 X2).
      * assert (x = g) as -> by congruence. exists (h_next h), y, q, []. rewrite Get, Ng, text_eqb_refl. split; [reflexivity|]. split; [exact Fc|]. split; [exact C1|].
        intros p0 u0 X1 X2. pose proof (Pv p0 X1) as X3. assert (u0 = v) as -> by congruence. apply Keep. exact Gv.
Qed.
End Merge.
