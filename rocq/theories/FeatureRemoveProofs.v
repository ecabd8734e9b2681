(** Removing features. *)
From Coq Require Import List ZArith Arith Bool Ascii Permutation Lia.
From Verif Require Import Text TextProofs ConstraintModel SourceRangeModel FeatureTreeModel FeatureTreeSpec FeatureTreeProofs
  FeatureTransactionModel FeatureEditSpec FeatureEditProofs FeatureOpsProofs.
Import ListNotations.

(** The model loses the features with names [ns] and the relationships [gs]. *)
Definition less (m m' : fmodel) (ns : list text) (gs : list nid) : Prop :=
  same_rest m m' /\ m_root m' = m_root m /\
  (exists p, m_features m' = filter p (m_features m) /\
     forall e, In e (m_features m) -> (p e = true <-> ~ In (fst e) ns)) /\
  m_relationships m' = filter (fun i => negb (mem i gs)) (m_relationships m).

Lemma filter_filter {A} (p q : A -> bool) l : filter q (filter p l) = filter (fun a => p a && q a) l.
Proof.
  induction l as [|a l IH]; [reflexivity|]. cbn [filter]. destruct (p a); cbn [andb filter]; [destruct (q a)|]; rewrite IH; reflexivity.
Qed.

Lemma less_refl m : less m m [] [].
Proof.
  split; [repeat split|]. split; [reflexivity|]. split.
  - exists (fun _ => true). split; [symmetry; apply filter_all; reflexivity|]. intros e _. split; [intros _ []|reflexivity].
  - symmetry. apply filter_all. reflexivity.
Qed.

Lemma less_trans m m1 m2 n1 g1 n2 g2 :
  less m m1 n1 g1 -> less m1 m2 n2 g2 -> less m m2 (n1 ++ n2) (g1 ++ g2).
Proof.
  intros ((A1 & A2 & A3 & A4 & A5 & A6) & Ar & (p & Ap & Aq) & Ag) ((B1 & B2 & B3 & B4 & B5 & B6) & Br & (q & Bp & Bq) & Bg).
  split; [repeat split; congruence|]. split; [congruence|]. split.
  - exists (fun e => p e && q e). split; [rewrite Bp, Ap; apply filter_filter|].
    intros e I. rewrite andb_true_iff, in_app_iff. split.
    + intros (P & Q) [X|X].
      * apply (Aq e I) in P. exact (P X).
      * apply Bq in Q; [exact (Q X)|]. rewrite Ap. apply filter_In. auto.
    + intros N. assert (p e = true) as P by (apply (Aq e I); tauto). split; [exact P|].
      apply Bq; [rewrite Ap; apply filter_In; auto|tauto].
  - rewrite Bg, Ag, filter_filter. apply filter_ext. intros i. unfold mem. rewrite existsb_app, negb_orb. reflexivity.
Qed.

Lemma less_ext m m' ns gs ns' gs' :
  (forall x, In x ns <-> In x ns') -> (forall x, In x gs <-> In x gs') -> less m m' ns gs -> less m m' ns' gs'.
Proof.
  intros En Eg (A & Ar & (p & Ap & Aq) & Ag). split; [exact A|]. split; [exact Ar|]. split.
  - exists p. split; [exact Ap|]. intros e I. rewrite (Aq e I), (En (fst e)). reflexivity.
  - rewrite Ag. apply filter_ext. intros i. f_equal. apply eq_true_iff_eq. rewrite !mem_spec. apply Eg.
Qed.

Lemma less_find m m' ns gs s i : less m m' ns gs -> NoDup (map fst (m_features m)) ->
  In (s, i) (m_features m) -> ~ In s ns -> get_feature m' s = Some i.
Proof.
  intros (A & Ar & (p & Ap & Aq) & Ag) D I N. unfold get_feature. apply find_name_in.
  - rewrite Ap. clear - D. induction (m_features m) as [|e l IH]; [constructor|]. cbn [map] in D. apply NoDup_cons_iff in D.
    destruct D as (Ne & D). cbn [filter]. destruct (p e); [|apply IH; exact D]. cbn [map]. constructor; [|apply IH; exact D].
    intros X. apply Ne. apply in_map_iff in X. destruct X as (x & E & X). apply filter_In in X. apply in_map_iff. exists x. tauto.
  - rewrite Ap. apply filter_In. split; [exact I|]. apply (Aq _ I). exact N.
Qed.
Lemma less_keys m m' ns gs : less m m' ns gs -> NoDup (map fst (m_features m)) -> NoDup (map fst (m_features m')).
Proof.
  intros (A & Ar & (p & Ap & Aq) & Ag) D. rewrite Ap. clear - D.
  induction (m_features m) as [|e l IH]; [constructor|]. cbn [map] in D. apply NoDup_cons_iff in D.
  destruct D as (Ne & D). cbn [filter]. destruct (p e); [|apply IH; exact D]. cbn [map]. constructor; [|apply IH; exact D].
  intros X. apply Ne. apply in_map_iff in X. destruct X as (x & E & X). apply filter_In in X. apply in_map_iff. exists x. tauto.
Qed.
Lemma less_in m m' ns gs e : less m m' ns gs -> In e (m_features m) -> ~ In (fst e) ns -> In e (m_features m').
Proof. intros (A & Ar & (p & Ap & Aq) & Ag) I N. rewrite Ap. apply filter_In. split; [exact I|]. apply (Aq _ I). exact N. Qed.
Lemma less_rel m m' ns gs i : less m m' ns gs -> (In i (m_relationships m') <-> In i (m_relationships m) /\ ~ In i gs).
Proof.
  intros (A & Ar & _ & Ag). rewrite Ag, filter_In, negb_true_iff, mem_false. reflexivity.
Qed.

(** Erasing the feature [i] stored under [s]. *)
Lemma erase_feature_ok h m i s : name_at h i = Some s -> get_feature m s = Some i -> m_root m <> Some i ->
  exists m', erase_feature h m i = Some (h_set h i None, m') /\ less m m' [s] [].
Proof.
  intros N G R. unfold erase_feature. rewrite N. cbn [bind]. rewrite G.
  set (m1 := match m_root m with Some r => if Nat.eqb i r then with_root m None else m | None => m end).
  assert (m1 = m) as E.
  { unfold m1. destruct (m_root m) as [r|] eqn:Er; [|reflexivity]. destruct (Nat.eqb_spec i r) as [->|_]; [|reflexivity].
    exfalso. apply R. reflexivity. }
  rewrite E. eexists. split; [reflexivity|]. split; [repeat split|]. split; [reflexivity|]. split.
  - eexists. split; [reflexivity|]. intros e _. cbn beta. rewrite negb_true_iff. split.
    + intros X [Y|[]]. apply text_eqb_neq in X. apply X. symmetry. exact Y.
    + intros X. apply text_eqb_neq. intros Y. apply X. left. symmetry. exact Y.
  - symmetry. apply filter_all. reflexivity.
Qed.

Lemma erase_relationship_ok h m i : In i (m_relationships m) ->
  exists m', erase_relationship h m i = Some (h_set h i None, m') /\ less m m' [] [i].
Proof.
  intros I. unfold erase_relationship. apply mem_spec in I. rewrite I. eexists. split; [reflexivity|].
  split; [repeat split|]. split; [reflexivity|]. split.
  - exists (fun _ => true). split; [symmetry; apply filter_all; reflexivity|]. intros e _. split; [intros _ []|reflexivity].
  - cbn [m_relationships with_relationships]. unfold set_remove. apply filter_ext. intros x. f_equal. cbn [mem existsb].
    rewrite orb_false_r. apply Nat.eqb_sym.
Qed.

Lemma flat_map_single {A B} (f : A -> B) l : flat_map (fun a => [f a]) l = map f l.
Proof. induction l as [|a l IH]; [reflexivity|]. cbn [flat_map map app]. rewrite IH. reflexivity. Qed.

Section Removal.
Variable ord : list nid -> list nid.
Hypothesis ord_ok : is_order ord.

(** The heap after the subtree with addresses [D] and top [f] below [q] is gone. *)
Definition gone (h h' : heap) (D : list nid) (q f : nid) : Prop :=
  h_next h' = h_next h /\ (forall j, In j D -> h_cells h' j = None) /\
  (forall j, ~ In j D -> h_cells h' j =
     option_map (fun c => Cell (n_data c) (n_parent c) (if Nat.eqb q j then set_remove f (n_edges c) else n_edges c)) (h_cells h j)).

(** What [detach] does to a node without children. *)
Lemma detach_ok h m f q cf cq s :
  h_cells h f = Some cf -> n_parent cf = Some q -> q <> f -> h_cells h q = Some cq -> name_at h f = Some s ->
  get_feature m s = Some f -> m_root m <> Some f ->
  exists h' m', detach h m f = Some (h', m') /\ gone h h' [f] q f /\ less m m' [s] [].
Proof.
  intros Cf P Nq Cq N G R. unfold detach. rewrite Cf. cbn [bind]. rewrite P. cbn [bind].
  rewrite (remove_edge_some _ _ _ _ Cq). cbn [bind]. set (h1 := h_set h q _).
  destruct (erase_feature_ok h1 m f s) as (m' & E & L); [|exact G|exact R|].
  - unfold name_at, feature_at in *. unfold h1. rewrite h_set_other by congruence. exact N.
  - exists (h_set h1 f None), m'. split; [exact E|]. split; [|exact L]. split; [reflexivity|]. split.
    + intros j [<-|[]]. apply h_set_same.
    + intros j J. rewrite h_set_other by (intros ->; apply J; left; reflexivity). unfold h1. rewrite h_set_cells.
      destruct (Nat.eqb_spec j q) as [->|Nj].
      * rewrite Nat.eqb_refl, Cq. reflexivity.
      * destruct (Nat.eqb_spec q j) as [Ej|_]; [congruence|]. destruct (h_cells h j) as [[d p e]|]; reflexivity.
Qed.

(** The child features of a node with the node they hang from. *)
Definition child_pairs (f : nid) (ts : list tree) : list (nid * tree) :=
  flat_map (fun t => if is_feature (rdata t) then [(f, t)] else map (fun k => (rid t, k)) (kids t)) ts.

Lemma child_pairs_near f ts : Forall grouped ts -> map snd (child_pairs f ts) = near ts.
Proof.
  induction ts as [|t ts IH]; [reflexivity|]. intros G. inversion G as [|? ? G1 G2]; subst.
  unfold child_pairs, near in *. cbn [flat_map]. rewrite map_app, (IH G2). f_equal.
  destruct t as [n d us]. cbn [rdata kids rid tops]. destruct d as [x|k]; cbn [is_feature]; [reflexivity|].
  rewrite map_map. cbn [snd]. inversion G1 as [|? ? ? L F E]; subst. clear - L. rewrite map_id.
  induction us as [|u us IH]; [reflexivity|]. inversion L as [|? ? L1 L2]; subst. cbn [flat_map]. rewrite <- (IH L2).
  destruct u as [n' d' us']. cbn [rdata] in L1. cbn [tops]. rewrite L1. reflexivity.
Qed.

Definition cut_edges (ps : list (nid * tree)) (j : nid) (l : list nid) : list nid :=
  filter (fun x => negb (existsb (fun p => Nat.eqb (fst p) j && Nat.eqb (rid (snd p)) x) ps)) l.

Definition step (k : nat) := fun (o : option world) (c : nid) => let* w := o in remove_tree ord k w c.

Lemma remove_tree_S k w f : remove_tree ord (S k) w f =
  let* cs := child_features ord (fst w) f in
  let* w1 := fold_left (step k) cs (Some w) in
  let* rs := child_relationships ord (fst w1) f in
  let* w2 := fold_left (fun o r => let* w := o in
               let* h := remove_edge (fst w) f r in
               erase_relationship h (snd w) r) rs (Some w1) in
  detach (fst w2) (snd w2) f.
Proof. reflexivity. Qed.

Definition removable (h : heap) (m : fmodel) (q : nid) (s : tree) : Prop :=
  holds h (Some q) s /\ NoDup (ids s) /\ ~ In q (ids s) /\ (exists c, h_cells h q = Some c) /\ grouped s /\
  is_feature (rdata s) = true /\ NoDup (map fst (named s)) /\
  (forall e, In e (named s) -> In e (m_features m)) /\ (forall i, In i (groups s) -> In i (m_relationships m)) /\
  (forall r, m_root m = Some r -> ~ In r (ids s)).

Lemma fold_remove k :
  (forall h m q s, heap_ok h -> NoDup (map fst (m_features m)) -> removable h m q s -> height s <= k ->
    exists h' m', remove_tree ord k (h, m) (rid s) = Some (h', m') /\ gone h h' (ids s) q (rid s) /\
      less m m' (map fst (named s)) (groups s)) ->
  forall ps h m, heap_ok h -> NoDup (map fst (m_features m)) -> NoDup (flat_map (fun p => ids (snd p)) ps) ->
  NoDup (flat_map (fun p => map fst (named (snd p))) ps) -> NoDup (flat_map (fun p => groups (snd p)) ps) ->
  (forall p s, In (p, s) ps -> removable h m p s /\ height s <= k /\ ~ In p (flat_map (fun p => ids (snd p)) ps)) ->
  exists h' m', fold_left (step k) (map (fun p => rid (snd p)) ps) (Some (h, m)) = Some (h', m') /\
    h_next h' = h_next h /\ (forall j, In j (flat_map (fun p => ids (snd p)) ps) -> h_cells h' j = None) /\
    (forall j, ~ In j (flat_map (fun p => ids (snd p)) ps) -> h_cells h' j =
       option_map (fun c => Cell (n_data c) (n_parent c) (cut_edges ps j (n_edges c))) (h_cells h j)) /\
    less m m' (flat_map (fun p => map fst (named (snd p))) ps) (flat_map (fun p => groups (snd p)) ps).
Proof.
  intros IH ps. induction ps as [|(q & s) ps IHps]; intros h m O Dm D Dn Dg A.
  - exists h, m. split; [reflexivity|]. split; [reflexivity|]. split; [intros j []|]. split; [|apply less_refl].
    intros j _. destruct (h_cells h j) as [[d p e]|]; [|reflexivity]. cbn [option_map n_data n_parent n_edges]. do 2 f_equal.
    symmetry. apply filter_all. reflexivity.
  - cbn [flat_map snd] in *. destruct (A q s (or_introl eq_refl)) as (Rs & Hs & Nq).
    destruct (IH h m q s O Dm Rs Hs) as (h1 & m1 & E1 & (Gn & G1 & G2) & L1).
    apply nodup_app in D. destruct D as (Ds & D & Dx). apply nodup_app in Dn. destruct Dn as (Dns & Dn & Dnx).
    apply nodup_app in Dg. destruct Dg as (Dgs & Dg & Dgx).
    assert (heap_ok h1) as O1.
    { intros j J. rewrite Gn in J. destruct (in_dec Nat.eq_dec j (ids s)) as [I|N]; [apply G1; exact I|].
      rewrite (G2 j N), (O j J). reflexivity. }
    destruct (IHps h1 m1 O1 (less_keys _ _ _ _ L1 Dm) D Dn Dg) as (h2 & m2 & E2 & Hn & H1 & H2 & L2).
    + intros p u I. destruct (A p u (or_intror I)) as ((U1 & U2 & U3 & (c & U4) & U5 & U6 & U7 & U8 & U9 & U10) & Hu & Np).
      rewrite in_app_iff in Np.
      assert (forall x, In x (ids u) -> ~ In x (ids s)) as Du.
      { intros x X Y. apply (Dx x Y). apply in_flat_map. exists (p, u). auto. }
      assert (forall x, ~ In x (ids s) -> x <> q -> h_cells h1 x = h_cells h x) as Un.
      { intros x X Y. rewrite (G2 x X). destruct (Nat.eqb_spec q x) as [Z|_]; [congruence|].
        destruct (h_cells h x) as [[d0 p0 e0]|]; reflexivity. }
      split; [|split; [exact Hu|tauto]]. repeat (split; [try assumption|]); try assumption.
      * apply (holds_ext h); [exact U1|]. intros i Ii. apply Un; [apply Du; exact Ii|].
        intros ->. apply Nq. apply in_or_app. right. apply in_flat_map. exists (p, u). auto.
      * rewrite (G2 p) by tauto. rewrite U4. eexists. reflexivity.
      * intros e Ie. apply (less_in _ _ _ _ _ L1); [apply U8; exact Ie|].
        intros X. apply (Dnx (fst e) X). apply in_flat_map. exists (p, u). split; [exact I|apply in_map; exact Ie].
      * intros i Ii. apply (less_rel _ _ _ _ i L1). split; [apply U9; exact Ii|].
        intros X. apply (Dgx i X). apply in_flat_map. exists (p, u). auto.
      * destruct L1 as (_ & Lr & _). rewrite Lr. exact U10.
    + exists h2, m2. cbn [map fold_left snd]. unfold step at 2. cbn [bind]. rewrite E1. split; [exact E2|].
      split; [rewrite Hn; exact Gn|].
      split; [|split; [|eapply less_trans; eauto]].
      * intros j I. destruct (in_dec Nat.eq_dec j (flat_map (fun p => ids (snd p)) ps)) as [I2|N2]; [apply H1; exact I2|].
        apply in_app_or in I. destruct I as [I|I]; [|contradiction]. rewrite (H2 j N2), (G1 j I). reflexivity.
      * intros j N. rewrite in_app_iff in N. rewrite (H2 j) by tauto. rewrite (G2 j) by tauto.
        destruct (h_cells h j) as [[d p e]|]; [|reflexivity]. cbn [option_map n_data n_parent n_edges]. do 2 f_equal.
        unfold cut_edges. destruct (Nat.eqb_spec q j) as [->|Nj].
        -- unfold set_remove. rewrite filter_filter. apply filter_ext. intros x. cbn [existsb fst snd].
           rewrite Nat.eqb_refl. cbn [andb]. rewrite negb_orb. f_equal.
        -- apply filter_ext. intros x. cbn [existsb fst snd]. apply Nat.eqb_neq in Nj. rewrite Nj. reflexivity.
Qed.

Lemma own_groups_le1 ts : length (own_groups ts) <= 1 ->
  own_groups ts = [] \/ exists r, own_groups ts = [r].
Proof. destruct (own_groups ts) as [|r [|r' l]]; cbn [length]; intros L; [left; reflexivity|right; eauto|lia]. Qed.

Lemma ord_single (l : list nid) x : l = [x] -> ord l = [x].
Proof. intros ->. pose proof (ord_ok [x]) as P. apply Permutation_sym in P. apply Permutation_length_1_inv in P. exact P. Qed.
Lemma ord_nil : ord [] = [].
Proof. pose proof (ord_ok []) as P. apply Permutation_sym in P. apply Permutation_nil in P. exact P. Qed.

Lemma in_own_groups r ts : In r (own_groups ts) <-> In r ts /\ is_feature (rdata r) = false.
Proof. unfold own_groups, is_relationship. rewrite filter_In, negb_true_iff. reflexivity. Qed.

(** All of [s] but its top is removed before [detach]. *)
Lemma remove_below k h m n x ts o :
  (forall h m q s, heap_ok h -> NoDup (map fst (m_features m)) -> removable h m q s -> height s <= k ->
    exists h' m', remove_tree ord k (h, m) (rid s) = Some (h', m') /\ gone h h' (ids s) q (rid s) /\
      less m m' (map fst (named s)) (groups s)) ->
  heap_ok h -> NoDup (map fst (m_features m)) -> let s := Node n (NFeature x) ts in
  holds h o s -> NoDup (ids s) -> grouped s -> NoDup (map fst (named s)) ->
  (forall e, In e (named s) -> In e (m_features m)) -> (forall i, In i (groups s) -> In i (m_relationships m)) ->
  (forall r, m_root m = Some r -> ~ In r (flat_map ids ts)) -> height s <= S k ->
  exists h2 m2, remove_tree ord (S k) (h, m) n = detach h2 m2 n /\ h_next h2 = h_next h /\
    h_cells h2 n = Some (Cell (NFeature x) o []) /\
    (forall j, In j (flat_map ids ts) -> h_cells h2 j = None) /\
    (forall j, ~ In j (ids s) -> h_cells h2 j = h_cells h j) /\
    less m m2 (map fst (flat_map named ts)) (flat_map groups ts).
Proof.
  intros IH O Dm s H D G Dn An Ag Ar Hk. unfold s in *. clear s.
  rewrite remove_tree_S. cbn [fst]. unfold child_features. rewrite (get_children_tree ord is_feature h o n _ ts O H D). cbn [bind].
  change (flat_map (tops is_feature) ts) with (near ts).
  assert (Forall grouped ts) as Gts by (inversion G; assumption).
  assert (length (own_groups ts) <= 1) as Lts by (inversion G; assumption).
  pose proof (child_pairs_near n ts Gts) as Cp.
  pose proof (ord_ok (map rid (near ts))) as P. apply Permutation_map_inv in P. destruct P as (us & Eu & Pu).
  rewrite <- Cp in Pu. apply Permutation_sym in Pu. apply Permutation_map_inv in Pu. destruct Pu as (ps & -> & Pp).
  apply Permutation_sym in Pp.
  rewrite Eu, map_map.
  cbn [ids] in D. apply NoDup_cons_iff in D. destruct D as (Nn & D).
  (* flattening over the pairs loses at most the relationship nodes *)
  assert (forall A (f : tree -> list A), (forall a k us, exists l, f (Node a (NRelationship k) us) = l ++ flat_map f us) ->
    NoDup (flat_map f ts) -> NoDup (flat_map (fun p => f (snd p)) ps)) as Dp.
  { intros A f Ef Df. eapply Permutation_NoDup; [apply permutation_flat_map; apply Permutation_sym; exact Pp|].
    clear - Ef Df. induction ts as [|t ts IHt]; [constructor|]. cbn [flat_map] in Df. apply nodup_app in Df.
    destruct Df as (D1 & D2 & D3). unfold child_pairs. cbn [flat_map]. rewrite flat_map_app. apply nodup_app.
    assert (forall y, In y (flat_map (fun p : nid * tree => f (snd p)) (if is_feature (rdata t) then [(n, t)] else map (fun k => (rid t, k)) (kids t))) -> In y (f t)) as In1.
    { intros y Y. destruct t as [a d vs]. cbn [rdata kids rid] in Y. destruct d as [x|k]; cbn [is_feature] in Y.
      - cbn [flat_map snd] in Y. rewrite app_nil_r in Y. exact Y.
      - destruct (Ef a k vs) as (l & ->). apply in_or_app. right. rewrite flat_map_concat_map, map_map in Y. cbn [snd] in Y.
        rewrite <- flat_map_concat_map in Y. exact Y. }
    split; [|split].
    - destruct t as [a d vs]. cbn [rdata kids rid] in *. destruct d as [x|k]; cbn [is_feature] in *.
      + cbn [flat_map snd]. rewrite app_nil_r. exact D1.
      + destruct (Ef a k vs) as (l & El). rewrite El in D1. apply nodup_app in D1.
        rewrite flat_map_concat_map, map_map. cbn [snd]. rewrite <- flat_map_concat_map. tauto.
    - apply IHt. exact D2.
    - intros y Y1 Y2. apply (D3 y); [apply In1; exact Y1|].
      apply in_flat_map in Y2. destruct Y2 as ((q & v) & I & Y2). cbn [snd] in Y2. apply in_flat_map in I. destruct I as (t' & It' & I).
      apply in_flat_map. exists t'. split; [exact It'|]. destruct t' as [a d vs]. cbn [rdata kids rid] in I.
      destruct d as [x|k]; cbn [is_feature] in I.
      + destruct I as [I|[]]. injection I as <- <-. exact Y2.
      + apply in_map_iff in I. destruct I as (v' & E & I). injection E as <- <-. destruct (Ef a k vs) as (l & ->).
        apply in_or_app. right. apply in_flat_map. eauto. }
  assert (forall p s, In (p, s) ps -> subtree s (Node n (NFeature x) ts) /\ is_feature (rdata s) = true /\
    exists u, subtree u (Node n (NFeature x) ts) /\ rid u = p /\ In s (kids u) /\
      (u = Node n (NFeature x) ts \/ In u (own_groups ts))) as Sub.
  { intros p s I. eapply Permutation_in in I; [|exact Pp]. apply in_flat_map in I. destruct I as (t & It & I).
    destruct (is_feature (rdata t)) eqn:Ft.
    - destruct I as [I|[]]. injection I as <- <-. split; [apply subtree_kid; exact It|]. split; [exact Ft|].
      exists (Node n (NFeature x) ts). split; [constructor|]. split; [reflexivity|]. split; [exact It|left; reflexivity].
    - apply in_map_iff in I. destruct I as (v & E & I). injection E as <- <-.
      assert (subtree v t) as Sv by (destruct t; apply subtree_kid; exact I).
      split; [eapply sub_kid; eauto|]. rewrite Forall_forall in Gts. pose proof (Gts t It) as Gt. split.
      + destruct t as [a d vs]. cbn [rdata kids] in *. inversion Gt as [a0 f vs0 L F E|a0 kk vs0 L F E]; subst; [discriminate|].
        rewrite Forall_forall in L. apply (L v I).
      + exists t. split; [apply subtree_kid; exact It|]. split; [reflexivity|]. split; [exact I|right; apply in_own_groups; auto]. }
  assert (forall y, In y (flat_map (fun p => ids (snd p)) ps) -> In y (flat_map ids ts)) as Ids.
  { intros y Y. apply in_flat_map in Y. destruct Y as ((p & s) & I & Y). cbn [snd] in Y.
    destruct (Sub p s I) as (S1 & F & u & U & _ & Iu & _). inversion S1 as [|n0 d0 ts0 t It S2 E0].
    - subst. exfalso. assert (length (ids (Node n (NFeature x) ts)) < length (ids u)).
      { destruct u as [nu du tu]. cbn [kids] in Iu. destruct (in_split _ _ Iu) as (a & b & ->). cbn [ids]. rewrite flat_map_app.
        cbn [flat_map length]. rewrite !app_length. cbn [ids length]. lia. }
      assert (NoDup (ids (Node n (NFeature x) ts))) as Dall by (cbn [ids]; constructor; assumption).
      assert (length (ids u) <= length (ids (Node n (NFeature x) ts))).
      { apply NoDup_incl_length; [eapply subtree_nodup; eauto|]. intros z Z. eapply subtree_ids; eauto. }
      lia.
    - subst. apply in_flat_map. exists t. split; [exact It|eapply subtree_ids; eauto]. }
  assert (forall r, In r (own_groups ts) -> ~ In (rid r) (flat_map (fun p => ids (snd p)) ps)) as Nr.
  { intros r Ir Y. apply in_flat_map in Y. destruct Y as ((p & s) & I & Y). cbn [snd] in Y.
    eapply Permutation_in in I; [|exact Pp]. apply in_flat_map in I. destruct I as (t & It & I).
    apply in_own_groups in Ir. destruct Ir as (Ir & Fr).
    assert (In (rid r) (ids t)) as Yt.
    { destruct (is_feature (rdata t)).
      - destruct I as [I|[]]. injection I as <- <-. exact Y.
      - apply in_map_iff in I. destruct I as (v & E & I). injection E as <- <-. destruct t as [a d vs]. eapply ids_kid; eauto. }
    assert (NoDup (ids (Node n (NFeature x) ts))) as Dall by (cbn [ids]; constructor; assumption).
    destruct (in_split _ _ It) as (a & b & El).
    assert (r = t) as Ert.
    { rewrite El in Ir. apply in_app_or in Ir. rewrite El, flat_map_app in D. cbn [flat_map] in D. apply nodup_app in D. destruct D as (_ & D & X1).
      apply nodup_app in D. destruct D as (_ & _ & X2). destruct Ir as [Ir|[Ir|Ir]]; [exfalso|congruence|exfalso].
      - apply (X1 (rid r)); [apply rid_in_kids; exact Ir|apply in_or_app; left; exact Yt].
      - apply (X2 (rid r)); [exact Yt|apply rid_in_kids; exact Ir]. }
    subst t. rewrite Fr in I. apply in_map_iff in I. destruct I as (v & E & I). injection E as <- <-.
    pose proof (nodup_flat_map_in _ _ _ D It) as Dr. destruct r as [ar dr vr]. cbn [ids rid kids] in *.
    apply NoDup_cons_iff in Dr. destruct Dr as (Na & _). apply Na. apply in_flat_map. eauto. }
  assert (NoDup (ids (Node n (NFeature x) ts))) as Dall by (cbn [ids]; constructor; assumption).
  assert (NoDup (flat_map groups ts)) as Dgr.
  { pose proof (ids_named_groups (Node n (NFeature x) ts)) as Pg. eapply Permutation_NoDup in Pg; [|exact Dall].
    apply nodup_app in Pg. destruct Pg as (_ & Pg & _). exact Pg. }
  assert (NoDup (map fst (flat_map named ts))) as Dna.
  { cbn [named] in Dn. rewrite map_app in Dn. apply nodup_app in Dn. tauto. }
  assert (forall l, map fst (flat_map named l) = flat_map (fun t => map fst (named t)) l) as Mf.
  { intros l. rewrite !flat_map_concat_map, concat_map, map_map. reflexivity. }
  destruct (fold_remove k IH ps h m O Dm) as (h1 & m1 & E1 & Hn & H1 & H2 & L1).
  { apply (Dp nid ids); [|exact D]. intros a kk vs. exists [a]. reflexivity. }
  { apply (Dp text (fun t => map fst (named t))); [|rewrite <- Mf; exact Dna].
    intros a kk vs. exists []. cbn [named app]. rewrite Mf. reflexivity. }
  { apply (Dp nid groups); [|exact Dgr]. intros a kk vs. exists [a]. reflexivity. }
  { intros p s I. destruct (Sub p s I) as (S1 & F & u & U & Eu1 & Iu & Uor). subst p.
    assert (~ In (rid u) (flat_map (fun p => ids (snd p)) ps)) as Nu.
    { destruct Uor as [->|Ur]; [|apply Nr; exact Ur]. cbn [rid]. intros Y. apply Nn. apply Ids. exact Y. }
    split; [|split].
    - split; [eapply holds_sub_kid; eauto|]. split; [eapply subtree_nodup; eauto|].
      split; [intros Y; apply Nu; apply in_flat_map; exists (rid u, s); auto|].
      split; [destruct (holds_sub h o _ u H U) as (qu & Hu); eexists; apply (holds_top _ _ _ Hu)|].
      split; [eapply grouped_sub; eauto|]. split; [exact F|].
      assert (forall e, In e (named s) -> In e (named (Node n (NFeature x) ts))) as Ns.
      { intros (sn & si) Ie. apply named_subtree in Ie. destruct Ie as (v & f & V & R). apply named_subtree. exists v, f.
        split; [eapply subtree_trans; eauto|exact R]. }
      split.
      { clear - Dn S1. remember (Node n (NFeature x) ts) as w eqn:Ew. clear Ew. induction S1 as [|n0 d0 ts0 t It S2 IHs]; [exact Dn|].
        apply IHs. cbn [named] in Dn. rewrite map_app in Dn. apply nodup_app in Dn. destruct Dn as (_ & Dn & _).
        rewrite flat_map_concat_map, concat_map, map_map, <- flat_map_concat_map in Dn.
        apply (nodup_flat_map_in _ _ _ Dn It). }
      split; [intros e Ie; apply An; apply Ns; exact Ie|]. split.
      + intros i Ii. apply Ag. apply groups_subtree in Ii. destruct Ii as (v & kk & V & R). apply groups_subtree. exists v, kk.
        split; [eapply subtree_trans; eauto|exact R].
      + intros r Er Y. apply (Ar r Er). apply Ids. apply in_flat_map. exists (rid u, s). auto.
    - assert (height s < height (Node n (NFeature x) ts)); [|lia].
      destruct Uor as [->|Ur]; [apply height_kid; exact Iu|]. apply in_own_groups in Ur. destruct Ur as (Ur & _).
      apply Nat.lt_trans with (height u); [destruct u; apply height_kid; exact Iu|apply height_kid; exact Ur].
    - exact Nu. }
  unfold world in *. rewrite E1. cbn [bind fst snd].
  (* the remaining edges *)
  pose proof (holds_root _ _ _ _ _ H) as Cn.
  assert (~ In n (flat_map (fun p => ids (snd p)) ps)) as Nnp by (intros Y; apply Nn; apply Ids; exact Y).
  assert (cut_edges ps n (map rid ts) = map rid (own_groups ts)) as Cut.
  { unfold cut_edges, own_groups.
    assert (forall t, In t ts -> existsb (fun p => Nat.eqb (fst p) n && Nat.eqb (rid (snd p)) (rid t)) ps = is_feature (rdata t)) as K.
    { intros t It. apply eq_true_iff_eq. rewrite existsb_exists. split.
      - intros ((p & s) & I & E). apply andb_true_iff in E. cbn [fst snd] in E. destruct E as (E1' & E2').
        apply Nat.eqb_eq in E1', E2'. subst p. destruct (Sub n s I) as (S1 & F & u & U & Ru & Iu & _).
        assert (s = t) as <-; [|exact F]. apply (subtree_unique (Node n (NFeature x) ts)); auto. apply subtree_kid. exact It.
      - intros F. exists (n, t). split; [|cbn [fst snd]; rewrite !Nat.eqb_refl; reflexivity].
        eapply Permutation_in; [apply Permutation_sym; exact Pp|]. apply in_flat_map. exists t. split; [exact It|].
        rewrite F. left. reflexivity. }
    clear - K. induction ts as [|t ts IHt]; [reflexivity|]. cbn [map filter]. rewrite (K t (or_introl eq_refl)).
    unfold is_relationship at 1. destruct (is_feature (rdata t)); cbn [negb map]; [|f_equal]; apply IHt; intros t' I'; apply K; right; exact I'. }
  assert (h_cells h1 n = Some (Cell (NFeature x) o (map rid (own_groups ts)))) as Cn1.
  { rewrite (H2 n Nnp), Cn. cbn [option_map n_data n_parent n_edges]. rewrite Cut. reflexivity. }
  assert (forall r, In r (own_groups ts) -> h_cells h1 (rid r) = Some (Cell (rdata r) (Some n) [])) as Cr1.
  { intros r Ir. rewrite (H2 _ (Nr r Ir)). pose proof Ir as Ir0. apply in_own_groups in Ir. destruct Ir as (Ir & Fr).
    rewrite (holds_top _ _ _ (holds_kid _ _ _ _ _ _ H Ir)). cbn [option_map n_data n_parent n_edges]. do 2 f_equal.
    destruct (cut_edges ps (rid r) (map rid (kids r))) as [|y l] eqn:E; [reflexivity|]. exfalso.
    assert (In y (cut_edges ps (rid r) (map rid (kids r)))) as Y by (rewrite E; left; reflexivity).
    unfold cut_edges in Y. apply filter_In in Y. destruct Y as (Y1 & Y2). apply in_map_iff in Y1. destruct Y1 as (v & <- & Iv).
    apply negb_true_iff in Y2. rewrite <- not_true_iff_false in Y2. apply Y2. apply existsb_exists. exists (rid r, v).
    split; [|cbn [fst snd]; rewrite !Nat.eqb_refl; reflexivity].
    eapply Permutation_in; [apply Permutation_sym; exact Pp|]. apply in_flat_map. exists r. split; [exact Ir|].
    rewrite Fr. apply in_map_iff. exists v. auto. }
  assert (heap_ok h1) as O1.
  { intros j J. rewrite Hn in J. destruct (in_dec Nat.eq_dec j (flat_map (fun p => ids (snd p)) ps)) as [Ij|Nj]; [apply H1; exact Ij|].
    rewrite (H2 j Nj), (O j J). reflexivity. }
  (* which addresses are covered *)
  assert (forall A (f : tree -> list A), (forall a kk us y, In y (f (Node a (NRelationship kk) us)) -> In y (flat_map f us) \/ In y (f (Node a (NRelationship kk) []))) ->
    forall y, In y (flat_map f ts) -> In y (flat_map (fun p => f (snd p)) ps) \/ exists r, In r (own_groups ts) /\ In y (f (Node (rid r) (rdata r) []))) as Cov.
  { intros A f Hf y Y. apply in_flat_map in Y. destruct Y as (t & It & Y). destruct (is_feature (rdata t)) eqn:Ft.
    - left. apply in_flat_map. exists (n, t). split; [|exact Y]. eapply Permutation_in; [apply Permutation_sym; exact Pp|].
      apply in_flat_map. exists t. split; [exact It|]. rewrite Ft. left. reflexivity.
    - destruct t as [a d vs]. cbn [rdata] in Ft. destruct d as [f0|kk]; [discriminate|]. apply Hf in Y. destruct Y as [Y|Y].
      + left. apply in_flat_map in Y. destruct Y as (v & Iv & Y). apply in_flat_map. exists (a, v). split; [|exact Y].
        eapply Permutation_in; [apply Permutation_sym; exact Pp|]. apply in_flat_map. exists (Node a (NRelationship kk) vs).
        split; [exact It|]. cbn [rdata is_feature rid kids]. apply in_map_iff. exists v. auto.
      + right. exists (Node a (NRelationship kk) vs). split; [apply in_own_groups; auto|exact Y]. }
  assert (forall A (f : tree -> list A), (forall a kk us y, In y (flat_map f us) -> In y (f (Node a (NRelationship kk) us))) ->
    forall y, In y (flat_map (fun p => f (snd p)) ps) -> In y (flat_map f ts)) as Cov2.
  { intros A f Hf y Y. apply in_flat_map in Y. destruct Y as ((p & s) & I & Y). cbn [snd] in Y.
    eapply Permutation_in in I; [|exact Pp]. apply in_flat_map in I. destruct I as (t & It & I).
    apply in_flat_map. exists t. split; [exact It|]. destruct t as [a d vs]. cbn [rdata rid kids] in I. destruct d as [f0|kk]; cbn [is_feature] in I.
    - destruct I as [I|[]]. injection I as <- <-. exact Y.
    - apply in_map_iff in I. destruct I as (v & E & I). injection E as <- <-. apply Hf. apply in_flat_map. eauto. }
  assert (forall y, In y (flat_map ids ts) <-> In y (flat_map (fun p => ids (snd p)) ps) \/ In y (map rid (own_groups ts))) as CovI.
  { intros y. split.
    - intros Y. apply (Cov nid ids) in Y; [destruct Y as [Y|(r & Ir & Y)]; [left; exact Y|right]|].
      + cbn [ids flat_map] in Y. destruct Y as [<-|[]]. apply in_map. exact Ir.
      + intros a kk us z [Z|Z]; [right; left; exact Z|left; exact Z].
    - intros [Y|Y]; [apply Ids; exact Y|]. apply in_map_iff in Y. destruct Y as (r & <- & Ir). apply in_own_groups in Ir.
      apply rid_in_kids. tauto. }
  assert (forall y, In y (map fst (flat_map named ts)) <-> In y (flat_map (fun p => map fst (named (snd p))) ps)) as CovN.
  { intros y. rewrite Mf. split.
    - intros Y. apply (Cov text (fun t => map fst (named t))) in Y; [destruct Y as [Y|(r & Ir & Y)]; [exact Y|]|].
      + exfalso. apply in_own_groups in Ir. destruct Ir as (_ & Fr). destruct (rdata r); [discriminate|]. destruct Y.
      + intros a kk us z Z. left. cbn [named app] in Z. rewrite Mf in Z. exact Z.
    - apply (Cov2 text (fun t => map fst (named t))). intros a kk us z Z. cbn [named app]. rewrite Mf. exact Z. }
  assert (forall y, In y (flat_map groups ts) <-> In y (flat_map (fun p => groups (snd p)) ps) \/ In y (map rid (own_groups ts))) as CovG.
  { intros y. split.
    - intros Y. apply (Cov nid groups) in Y; [destruct Y as [Y|(r & Ir & Y)]; [left; exact Y|right]|].
      + pose proof Ir as Ir'. apply in_own_groups in Ir'. destruct Ir' as (_ & Fr). destruct (rdata r) as [f0|kk]; [discriminate|].
        cbn [groups flat_map app] in Y. destruct Y as [<-|[]]. apply in_map. exact Ir.
      + intros a kk us z Z. cbn [groups app] in Z. destruct Z as [Z|Z]; [right; left; exact Z|left; exact Z].
    - intros [Y|Y].
      + revert y Y. apply (Cov2 nid groups). intros a kk us z Z. cbn [groups app]. right. exact Z.
      + apply in_map_iff in Y. destruct Y as (r & <- & Ir). apply in_own_groups in Ir. destruct Ir as (Ir & Fr).
        apply in_flat_map. exists r. split; [exact Ir|]. destruct r as [a d vs]. cbn [rdata] in Fr. destruct d; [discriminate|]. left. reflexivity. }
  assert (forall j, ~ In j (ids (Node n (NFeature x) ts)) -> h_cells h1 j = h_cells h j) as Un.
  { intros j J. cbn [ids In] in J. rewrite CovI in J. rewrite (H2 j) by tauto.
    destruct (h_cells h j) as [[d p e]|]; [|reflexivity]. cbn [option_map n_data n_parent n_edges]. do 2 f_equal.
    apply filter_all. intros a _. apply negb_true_iff. apply not_true_iff_false. intros E. apply existsb_exists in E.
    destruct E as ((pp & s) & I & E). apply andb_true_iff in E. destruct E as (E & _). apply Nat.eqb_eq in E. cbn [fst] in E. subst pp.
    destruct (Sub j s I) as (_ & _ & u & _ & <- & _ & [->|Ur]); apply J; [left; reflexivity|right; right; apply in_map; exact Ur]. }
  set (t1 := Node n (NFeature x) (map (fun r => Node (rid r) (rdata r) []) (own_groups ts))).
  assert (map rid (map (fun r => Node (rid r) (rdata r) []) (own_groups ts)) = map rid (own_groups ts)) as Mr
    by (rewrite map_map; reflexivity).
  assert (holds h1 o t1) as Ht1.
  { apply holds_node; [rewrite Mr; exact Cn1|]. intros v Iv. apply in_map_iff in Iv. destruct Iv as (r & <- & Ir).
    apply holds_node; [apply Cr1; exact Ir|intros w []]. }
  assert (NoDup (ids t1)) as Dt1.
  { unfold t1. cbn [ids]. rewrite flat_map_concat_map, map_map. cbn [ids flat_map]. rewrite <- flat_map_concat_map.
    rewrite flat_map_single.
    constructor.
    - intros Y. apply Nn. apply CovI. right. exact Y.
    - destruct (own_groups_le1 ts Lts) as [->|(r & ->)]; repeat constructor. intros []. }
  unfold child_relationships. rewrite (get_children_tree ord is_relationship h1 o n _ _ O1 Ht1 Dt1). cbn [bind].
  assert (map rid (flat_map (tops is_relationship) (map (fun r => Node (rid r) (rdata r) []) (own_groups ts))) = map rid (own_groups ts)) as Mt.
  { assert (forall r, In r (own_groups ts) -> is_relationship (rdata r) = true) as Rr by (intros r Ir; apply filter_In in Ir; apply Ir).
    clear - Rr. induction (own_groups ts) as [|r l IHr]; [reflexivity|]. cbn [map flat_map tops]. rewrite (Rr r (or_introl eq_refl)).
    cbn [app map rid]. f_equal. apply IHr. intros r' Ir'. apply Rr. right. exact Ir'. }
  rewrite Mt. destruct (own_groups_le1 ts Lts) as [Eo|(r & Eo)].
  - rewrite Eo in *. cbn [map] in *. rewrite ord_nil. cbn [fold_left bind fst snd]. exists h1, m1. split; [reflexivity|]. split; [exact Hn|].
    split; [exact Cn1|]. split; [|split; [exact Un|]].
    + intros j J. apply CovI in J. destruct J as [J|[]]. apply H1. exact J.
    + eapply less_ext; [| |exact L1]; intros y; [symmetry; apply CovN|]. rewrite CovG. cbn [In]. tauto.
  - rewrite Eo in *. cbn [map] in *. rewrite (ord_single [rid r] (rid r) eq_refl). cbn [fold_left bind fst snd].
    assert (n <> rid r) as Nnr.
    { intros E. apply Nn. apply CovI. right. left. symmetry. exact E. }
    rewrite (remove_edge_some _ _ _ _ Cn1). cbn [bind n_data n_parent n_edges].
    destruct (erase_relationship_ok (h_set h1 n (Some (Cell (NFeature x) o (set_remove (rid r) [rid r])))) m1 (rid r)) as (m2 & E2 & L2).
    { apply (less_rel _ _ _ _ _ L1). split.
      - apply Ag. cbn [groups app]. apply CovG. right. left. reflexivity.
      - intros Y. apply in_flat_map in Y. destruct Y as (p & Ip & Y). apply (Nr r); [left; reflexivity|].
        apply in_flat_map. exists p. split; [exact Ip|]. eapply Permutation_in; [apply Permutation_sym; apply ids_named_groups|].
        apply in_or_app. right. exact Y. }
    rewrite E2. cbn [bind fst snd]. eexists _, m2. split; [reflexivity|]. cbn [h_next h_set]. split; [exact Hn|].
    assert (set_remove (rid r) [rid r] = []) as Sr by (cbn [set_remove filter]; rewrite Nat.eqb_refl; reflexivity).
    split; [rewrite h_set_other by exact Nnr; rewrite h_set_same, Sr; reflexivity|]. split; [|split].
    + intros j J. rewrite h_set_cells. destruct (Nat.eqb_spec j (rid r)) as [_|Nj]; [reflexivity|].
      rewrite h_set_other by (intros ->; contradiction). apply CovI in J. cbn [In] in J. apply H1. destruct J as [J|[J|[]]]; [exact J|congruence].
    + intros j J. cbn [ids In] in J. rewrite h_set_other.
      * rewrite h_set_other by (intros ->; apply J; left; reflexivity). apply Un. exact J.
      * intros ->. apply J. right. apply CovI. right. left. reflexivity.
    + eapply less_ext; [| |eapply less_trans; [exact L1|exact L2]].
      * intros y. rewrite app_nil_r. symmetry. apply CovN.
      * intros y. rewrite CovG, in_app_iff. reflexivity.
Qed.

Lemma remove_tree_ok : forall k h m q s, heap_ok h -> NoDup (map fst (m_features m)) -> removable h m q s -> height s <= k ->
    exists h' m', remove_tree ord k (h, m) (rid s) = Some (h', m') /\ gone h h' (ids s) q (rid s) /\
      less m m' (map fst (named s)) (groups s).
Proof.
  induction k as [|k IH]; intros h m q s O Dm (H & D & Nq & (cq & Cq) & G & F & Dn & An & Ag & Ar) Hk.
  { destruct s as [n d ts]. cbn [height] in Hk. lia. }
  destruct s as [n d ts]. cbn [rdata] in F. destruct d as [x|]; [|discriminate].
  destruct (remove_below k h m n x ts (Some q) IH O Dm H D G Dn An Ag) as (h2 & m2 & E2 & Hn2 & Cn2 & Z2 & U2 & L2).
  { intros r Er Y. apply (Ar r Er). right. exact Y. }
  { exact Hk. }
  assert (q <> n) as Nqn by (intros ->; apply Nq; left; reflexivity).
  cbn [ids] in D. apply NoDup_cons_iff in D. destruct D as (Nn & D).
  destruct (detach_ok h2 m2 n q _ cq (f_name x) Cn2 eq_refl Nqn) as (h3 & m3 & E3 & (Gn & G1 & G2) & L3).
  - rewrite U2 by exact Nq. exact Cq.
  - unfold name_at, feature_at. rewrite Cn2. reflexivity.
  - apply (less_find _ _ _ _ _ _ L2 Dm).
    + apply An. cbn [named app]. left. reflexivity.
    + cbn [named app map fst] in Dn. apply NoDup_cons_iff in Dn. tauto.
  - destruct L2 as (_ & Lr & _). rewrite Lr. intros Er. apply (Ar n Er). left. reflexivity.
  - exists h3, m3. cbn [rid]. rewrite E2. split; [exact E3|]. split.
    + split; [congruence|]. split.
      * intros j [<-|J]; [apply G1; left; reflexivity|]. rewrite (G2 j) by (intros [<-|[]]; contradiction).
        rewrite (Z2 j J). reflexivity.
      * intros j J. rewrite (G2 j) by (intros [<-|[]]; apply J; left; reflexivity). rewrite (U2 j J). reflexivity.
    + eapply less_ext; [| |eapply less_trans; [exact L2|exact L3]].
      * intros y. rewrite in_app_iff. cbn [named app map fst In]. tauto.
      * intros y. rewrite in_app_iff. cbn [groups app In]. tauto.
Qed.


Lemma less_perm m m' t t' s : less m m' (map fst (named s)) (groups s) ->
  Permutation (m_features m) (named t) -> NoDup (map fst (named t)) -> Permutation (named t) (named t' ++ named s) ->
  Permutation (m_relationships m) (groups t) -> NoDup (groups t) -> Permutation (groups t) (groups t' ++ groups s) ->
  Permutation (m_features m') (named t') /\ Permutation (m_relationships m') (groups t').
Proof.
  intros L Pf Dn Pn Pg Dg Pq. pose proof (less_keys _ _ _ _ L) as K. pose proof L as (_ & _ & (p & Ep & Ap) & Er).
  assert (NoDup (map fst (m_features m))) as Dm by (eapply Permutation_NoDup; [apply Permutation_map; apply Permutation_sym; exact Pf|exact Dn]).
  specialize (K Dm). assert (NoDup (map fst (named t' ++ named s))) as Dn' by (eapply Permutation_NoDup; [apply Permutation_map; exact Pn|exact Dn]).
  rewrite map_app in Dn'. apply nodup_app in Dn'. destruct Dn' as (Dn1 & Dn2 & Dnx).
  assert (NoDup (groups t' ++ groups s)) as Dg' by (eapply Permutation_NoDup; eauto).
  apply nodup_app in Dg'. destruct Dg' as (Dg1 & Dg2 & Dgx). split.
  - apply NoDup_Permutation; [eapply NoDup_map_inv; exact K|eapply NoDup_map_inv; exact Dn1|].
    intros e. rewrite Ep, filter_In.
    assert (In e (m_features m) <-> In e (named t') \/ In e (named s)) as Q.
    { rewrite <- in_app_iff. split; apply Permutation_in; [|apply Permutation_sym]; eapply Permutation_trans; eauto. }
    split.
    + intros (I & P). apply (Ap e I) in P. apply Q in I. destruct I as [I|I]; [exact I|]. exfalso. apply P. apply in_map. exact I.
    + intros I. assert (In e (m_features m)) as I' by (apply Q; left; exact I). split; [exact I'|]. apply (Ap e I').
      intros X. apply (Dnx (fst e)); [apply in_map; exact I|exact X].
  - apply NoDup_Permutation; [|exact Dg1|].
    + rewrite Er. apply NoDup_filter. eapply Permutation_NoDup; [apply Permutation_sym; exact Pg|exact Dg].
    + intros i. rewrite (less_rel _ _ _ _ i L).
      assert (In i (m_relationships m) <-> In i (groups t') \/ In i (groups s)) as Q.
      { rewrite <- in_app_iff. split; apply Permutation_in; [|apply Permutation_sym]; eapply Permutation_trans; eauto. }
      rewrite Q. split; [tauto|]. intros I. split; [left; exact I|]. intros X. exact (Dgx i I X).
Qed.

Lemma nodup_groups t : NoDup (ids t) -> NoDup (groups t).
Proof.
  intros D. eapply Permutation_NoDup in D; [|apply ids_named_groups]. apply nodup_app in D. tauto.
Qed.

Lemma represents_gone h m t u s h' m' :
  represents h m t -> subtree u t -> In s (kids u) -> gone h h' (ids s) (rid u) (rid s) ->
  less m m' (map fst (named s)) (groups s) -> represents h' m' (prune (rid s) t).
Proof.
  intros R U I (Gn & G1 & G2) L. pose proof (rep_ids _ _ _ R) as D. pose proof (rep_holds _ _ _ R) as H.
  assert (subtree s t) as S1 by (eapply subtree_trans; [|exact U]; destruct u; apply subtree_kid; exact I).
  rewrite (prune_edit t u s D U I). destruct (drop_frame t u s D U I) as (Er & Pi & Pn & Pg & Pr & Gr & Hd).
  set (t1 := edit (rid u) (drop_kid (rid s)) t) in *.
  destruct (less_perm m m' t t1 s L (rep_features _ _ _ R) (rep_names _ _ _ R) Pn (rep_groups _ _ _ R)
    (nodup_groups t D) Pg) as (Pf' & Pg').
  assert (NoDup (ids t1 ++ ids s)) as D1 by (eapply Permutation_NoDup; eauto).
  assert (~ In (rid u) (ids s)) as Nu.
  { intros X. pose proof (subtree_nodup u t U D) as Du. destruct u as [n d ts]. cbn [rid kids ids] in *.
    apply NoDup_cons_iff in Du. destruct Du as (Nn & _). apply Nn. apply in_flat_map. eauto. }
  destruct (rep_cell R u U) as (q & Cu). pose proof L as (_ & Lr & _).
  constructor.
  - intros j J. rewrite Gn in J. destruct (in_dec Nat.eq_dec j (ids s)) as [Ij|Nj]; [apply G1; exact Ij|].
    rewrite (G2 j Nj), (rep_ok _ _ _ R j J). reflexivity.
  - apply (Hd h h' _ H Cu).
    + rewrite (G2 _ Nu), Cu. cbn [option_map]. rewrite Nat.eqb_refl. reflexivity.
    + intros i I1 I2 I3. rewrite (G2 i I2). destruct (Nat.eqb_spec (rid u) i) as [E|_]; [congruence|].
      destruct (h_cells h i) as [[d p e]|]; reflexivity.
  - apply nodup_app in D1. tauto.
  - rewrite Lr, Er. apply (rep_root _ _ _ R).
  - rewrite Er. pose proof (rep_roots _ _ _ R) as Rr. rewrite Rr in Pr.
    assert (rid s <> rid t) as Ns.
    { intros E. apply nodup_app in D1. destruct D1 as (_ & _ & Dx). apply (Dx (rid t)); [rewrite <- Er; apply rid_in_ids|rewrite <- E; apply rid_in_ids]. }
    assert (roots s = []) as Rs.
    { destruct (roots s) as [|x l] eqn:E; [reflexivity|]. exfalso.
      assert (In x (roots s)) as X by (rewrite E; left; reflexivity).
      assert (In x (roots t)) as X2.
      { rewrite Rr. eapply Permutation_in; [apply Permutation_sym; exact Pr|]. apply in_or_app. right. rewrite E in X. exact X. }
      rewrite Rr in X2. destruct X2 as [<-|[]]. apply nodup_app in D1. destruct D1 as (_ & _ & Dx).
      apply (Dx (rid t)); [rewrite <- Er; apply rid_in_ids|].
      apply roots_subtree in X. destruct X as (v & f & V & Ev & _). rewrite <- Ev. eapply subtree_ids; [exact V|apply rid_in_ids]. }
    rewrite Rs, app_nil_r in Pr. apply Permutation_length_1_inv. exact Pr.
  - exact Pf'.
  - eapply Permutation_NoDup; [apply Permutation_map; exact Pf'|]. apply (less_keys _ _ _ _ L). apply (rep_keys R).
  - exact Pg'.
  - apply Gr. apply (rep_shape _ _ _ R).
Qed.

Lemma rep_removable h m t u s : represents h m t -> subtree u t -> In s (kids u) -> is_feature (rdata s) = true ->
  removable h m (rid u) s.
Proof.
  intros R U I F. pose proof (rep_ids _ _ _ R) as D. pose proof (rep_holds _ _ _ R) as H.
  assert (subtree s t) as S1 by (eapply subtree_trans; [|exact U]; destruct u; apply subtree_kid; exact I).
  split; [eapply holds_sub_kid; eauto|]. split; [eapply subtree_nodup; eauto|].
  split.
  { intros X. pose proof (subtree_nodup u t U D) as Du. destruct u as [n d ts]. cbn [rid kids ids] in *.
    apply NoDup_cons_iff in Du. destruct Du as (Nn & _). apply Nn. apply in_flat_map. eauto. }
  split; [destruct (rep_cell R u U) as (q & C); eauto|]. split; [eapply grouped_sub; [exact S1|apply (rep_shape _ _ _ R)]|].
  split; [exact F|].
  destruct (drop_frame t u s D U I) as (Er & Pi & Pn & Pg & _).
  split.
  { pose proof (rep_names _ _ _ R) as Dn. eapply Permutation_NoDup in Dn; [|apply Permutation_map; exact Pn].
    rewrite map_app in Dn. apply nodup_app in Dn. tauto. }
  split; [|split].
  - intros e Ie. eapply Permutation_in; [apply Permutation_sym; apply (rep_features _ _ _ R)|].
    eapply Permutation_in; [apply Permutation_sym; exact Pn|]. apply in_or_app. right. exact Ie.
  - intros e Ie. eapply Permutation_in; [apply Permutation_sym; apply (rep_groups _ _ _ R)|].
    eapply Permutation_in; [apply Permutation_sym; exact Pg|]. apply in_or_app. right. exact Ie.
  - intros r Et X. rewrite (rep_root _ _ _ R) in Et. injection Et as <-.
    assert (NoDup (ids (edit (rid u) (drop_kid (rid s)) t) ++ ids s)) as D1 by (eapply Permutation_NoDup; eauto).
    apply nodup_app in D1. destruct D1 as (_ & _ & Dx). apply (Dx (rid t)); [rewrite <- Er; apply rid_in_ids|exact X].
Qed.

Lemma height_bound h o t : heap_ok h -> holds h o t -> NoDup (ids t) -> height t <= S (h_next h).
Proof. intros O H D. pose proof (height_ids t). pose proof (ids_length h o t O H D). unfold nid in *. lia. Qed.

(** What is left after removing the subtree [s]. *)
Definition removed (h h' : heap) (m m' : fmodel) (t s : tree) : Prop :=
  represents h' m' (prune (rid s) t) /\ same_rest m m' /\ h_next h' = h_next h /\
  (forall i, In i (ids s) -> h_cells h' i = None) /\
  (forall i, ~ In i (ids t) -> h_cells h' i = h_cells h i).

Lemma gone_removed h m t u s h' m' :
  represents h m t -> subtree u t -> In s (kids u) -> gone h h' (ids s) (rid u) (rid s) ->
  less m m' (map fst (named s)) (groups s) -> removed h h' m m' t s.
Proof.
  intros R U I G L. split; [eapply represents_gone; eauto|]. destruct L as (Ls & _). split; [exact Ls|].
  destruct G as (Gn & G1 & G2). split; [exact Gn|]. split; [exact G1|]. intros i Ni.
  assert (subtree s t) as S1 by (eapply subtree_trans; [|exact U]; destruct u; apply subtree_kid; exact I).
  rewrite (G2 i) by (intros X; apply Ni; eapply subtree_ids; eauto).
  destruct (Nat.eqb_spec (rid u) i) as [<-|_]; [exfalso; apply Ni; eapply subtree_ids; [exact U|apply rid_in_ids]|].
  destruct (h_cells h i) as [[d p e]|]; reflexivity.
Qed.

Lemma exec_remove_recursive h m t r s :
  represents h m t -> resolve m r = Some (rid s) -> subtree s t -> is_feature (rdata s) = true -> rid s <> rid t ->
  exists h' m', exec ord (ORemoveFeature r true) (h, m) = Some ((h', m'), None) /\ removed h h' m m' t s.
Proof.
  intros R E S1 F N. destruct (subtree_proper s t (rep_ids _ _ _ R) S1 N) as (u & U & I).
  pose proof (rep_removable h m t u s R U I F) as Rm.
  destruct (remove_tree_ok (S (h_next h)) h m (rid u) s (rep_ok _ _ _ R) (rep_keys R) Rm) as (h' & m' & E1 & G & L).
  - destruct Rm as (Hs & Ds & _). exact (height_bound h _ s (rep_ok _ _ _ R) Hs Ds).
  - exists h', m'. split; [|eapply gone_removed; eauto]. cbn [exec]. unfold exec_remove_feature. rewrite E, E1. reflexivity.
Qed.

Lemma near_nil_kids ts : length (own_groups ts) <= 1 -> near ts = [] -> Forall grouped ts ->
  ts = [] \/ exists n k, ts = [Node n (NRelationship k) []].
Proof.
  intros L N G. assert (forall t, In t ts -> exists n k, t = Node n (NRelationship k) []) as A.
  { intros t It. assert (tops is_feature t = []) as Nt.
    { destruct (tops is_feature t) as [|x l] eqn:E; [reflexivity|]. exfalso.
      assert (In x (near ts)) as X by (apply in_flat_map; exists t; split; [exact It|rewrite E; left; reflexivity]).
      rewrite N in X. exact X. }
    rewrite Forall_forall in G. specialize (G t It). destruct t as [n d us]. destruct d as [x|k]; [discriminate Nt|].
    cbn [tops is_feature] in Nt. inversion G as [|? ? ? Fu Gu]; subst. destruct us as [|v us]; [eauto|]. exfalso.
    inversion Fu as [|? ? Fv _]; subst. cbn [flat_map] in Nt. destruct v as [a b c]. cbn [rdata] in Fv. cbn [tops] in Nt.
    rewrite Fv in Nt. discriminate Nt. }
  destruct ts as [|t [|t' ts]]; [left; reflexivity|right|exfalso].
  - destruct (A t (or_introl eq_refl)) as (n & k & ->). eauto.
  - destruct (A t (or_introl eq_refl)) as (n & k & ->). destruct (A t' (or_intror (or_introl eq_refl))) as (n' & k' & ->).
    cbn [own_groups filter rdata is_relationship is_feature negb length] in L. lia.
Qed.

Lemma exec_remove_leaf h m t r s :
  represents h m t -> resolve m r = Some (rid s) -> subtree s t -> is_feature (rdata s) = true -> rid s <> rid t ->
  near (kids s) = [] ->
  exists h' m', exec ord (ORemoveFeature r false) (h, m) = Some ((h', m'), None) /\ removed h h' m m' t s.
Proof.
  intros R E S1 F N Nr. destruct (subtree_proper s t (rep_ids _ _ _ R) S1 N) as (u & U & I).
  destruct (rep_removable h m t u s R U I F) as (Hs & Ds & Nq & (cq & Cq) & Gs & _ & Dn & An & Ag & Ar).
  pose proof (rep_ok _ _ _ R) as O.
  cbn [exec]. unfold exec_remove_feature. rewrite E. destruct s as [n d ts]. cbn [rid rdata kids] in *.
  destruct d as [x|]; [|discriminate]. unfold child_features, child_relationships.
  rewrite (get_children_tree ord is_feature h (Some (rid u)) n _ ts O Hs Ds).
  rewrite (get_children_tree ord is_relationship h (Some (rid u)) n _ ts O Hs Ds).
  change (flat_map (tops is_feature) ts) with (near ts). rewrite Nr. cbn [map bind]. rewrite ord_nil.
  inversion Gs as [? ? ? L1 L2 E0|]; subst.
  assert (rid u <> n) as Nun by (intros X; apply Nq; left; symmetry; exact X).
  pose proof (holds_root _ _ _ _ _ Hs) as Cn.
  assert (m_root m <> Some n) as Nm by (intros X; apply (Ar n X); left; reflexivity).
  destruct (near_nil_kids ts L1 Nr L2) as [->|(i & k & ->)].
  - cbn [flat_map map bind]. rewrite ord_nil. cbn [fst snd bind].
    destruct (detach_ok h m n (rid u) _ cq (f_name x) Cn eq_refl Nun Cq) as (h' & m' & E1 & G & L).
    + unfold name_at, feature_at. rewrite Cn. reflexivity.
    + apply find_name_in; [apply (rep_keys R)|]. apply An. left. reflexivity.
    + exact Nm.
    + rewrite E1. exists h', m'. split; [reflexivity|]. eapply gone_removed; eauto.
  - cbn [flat_map tops is_relationship is_feature negb app map rid bind]. rewrite (ord_single [i] i eq_refl).
    destruct (erase_relationship_ok h m i) as (m1 & E1 & L3); [apply Ag; left; reflexivity|]. rewrite E1. cbn [bind fst snd].
    cbn [ids flat_map app In] in Ds, Nq. assert (n <> i) as Nni by (apply NoDup_cons_iff in Ds; cbn [In] in Ds; intros X; apply Ds; left; symmetry; exact X).
    destruct (detach_ok (h_set h i None) m1 n (rid u) (Cell (NFeature x) (Some (rid u)) [i]) cq (f_name x)) as (h' & m' & E2 & G & L).
    + rewrite h_set_other by congruence. exact Cn.
    + reflexivity.
    + exact Nun.
    + rewrite h_set_other by (intros X; apply Nq; right; left; symmetry; exact X). exact Cq.
    + unfold name_at, feature_at. rewrite h_set_other by congruence. rewrite Cn. reflexivity.
    + apply (less_find _ _ _ _ _ _ L3 (rep_keys R)); [apply An; left; reflexivity|intros []].
    + destruct L3 as (_ & Lr & _). rewrite Lr. exact Nm.
    + rewrite E2. exists h', m'. split; [reflexivity|]. eapply gone_removed; eauto.
      * destruct G as (Gn & G1 & G2). split; [exact Gn|]. cbn [ids flat_map app]. split.
        -- intros j [<-|[<-|[]]]; [apply G1; left; reflexivity|]. rewrite G2 by (intros [X|[]]; congruence).
           rewrite h_set_same. reflexivity.
        -- intros j J. cbn [In] in J. rewrite G2 by (cbn [In]; tauto). rewrite h_set_other by (intros X; apply J; right; left; symmetry; exact X). reflexivity.
      * eapply less_ext; [| |eapply less_trans; [exact L3|exact L]]; intros y; cbn [named groups flat_map app map fst In]; tauto.
Qed.

Lemma exec_remove_inner h m t r s :
  represents h m t -> resolve m r = Some (rid s) -> subtree s t -> near (kids s) <> [] ->
  exec ord (ORemoveFeature r false) (h, m) = Some ((h, m), Some NON_LEAF_NODE).
Proof.
  intros R E S1 Nr. destruct (holds_sub h None t s (rep_holds _ _ _ R) S1) as (q & Hs).
  pose proof (subtree_nodup s t S1 (rep_ids _ _ _ R)) as Ds. cbn [exec]. unfold exec_remove_feature. rewrite E.
  destruct s as [n d ts]. cbn [rid kids] in *. unfold child_features.
  rewrite (get_children_tree ord is_feature h q n _ ts (rep_ok _ _ _ R) Hs Ds).
  change (flat_map (tops is_feature) ts) with (near ts). cbn [bind].
  destruct (ord (map rid (near ts))) as [|c cs] eqn:Eo; [|reflexivity]. exfalso. apply Nr.
  pose proof (ord_ok (map rid (near ts))) as P. rewrite Eo in P. apply Permutation_nil in P.
  destruct (near ts); [reflexivity|discriminate P].
Qed.

Lemma exec_remove_missing h m r b : resolve m r = None ->
  exec ord (ORemoveFeature r b) (h, m) = Some ((h, m), Some MISSING_FEATURE).
Proof. intros E. cbn [exec]. unfold exec_remove_feature. rewrite E. reflexivity. Qed.

(** The root has no parent to remove it from. *)
Lemma exec_remove_root h m t r b :
  represents h m t -> resolve m r = Some (rid t) -> (b = true \/ near (kids t) = []) ->
  exec ord (ORemoveFeature r b) (h, m) = None.
Proof.
  intros R E B. destruct (rep_top_data R) as (f & Ef & Kf). pose proof (rep_holds _ _ _ R) as H.
  pose proof (rep_ok _ _ _ R) as O. pose proof (rep_ids _ _ _ R) as D. pose proof (rep_shape _ _ _ R) as Gs.
  cbn [exec]. unfold exec_remove_feature. rewrite E.
  assert (forall h2 m2, h_cells h2 (rid t) = Some (Cell (rdata t) None []) -> detach h2 m2 (rid t) = None) as Dt
    by (intros h2 m2 C; unfold detach; rewrite C; reflexivity).
  destruct b.
  - destruct t as [n d ts]. cbn [rid rdata] in *. subst d.
    destruct (remove_below (h_next h) h m n f ts None (remove_tree_ok (h_next h)) O (rep_keys R) H D Gs (rep_names _ _ _ R))
      as (h2 & m2 & E2 & _ & C2 & _).
    + intros e Ie. eapply Permutation_in; [apply Permutation_sym; apply (rep_features _ _ _ R)|exact Ie].
    + intros e Ie. eapply Permutation_in; [apply Permutation_sym; apply (rep_groups _ _ _ R)|exact Ie].
    + intros r0 Er X. rewrite (rep_root _ _ _ R) in Er. injection Er as <-. cbn [rid] in X.
      cbn [ids] in D. apply NoDup_cons_iff in D. tauto.
    + apply (height_bound h None _ O H D).
    + rewrite E2, (Dt h2 m2 C2). reflexivity.
  - destruct B as [B|B]; [discriminate|]. destruct t as [n d ts]. cbn [rid rdata kids] in *. subst d.
    unfold child_features, child_relationships.
    rewrite (get_children_tree ord is_feature h None n _ ts O H D).
    rewrite (get_children_tree ord is_relationship h None n _ ts O H D).
    change (flat_map (tops is_feature) ts) with (near ts). rewrite B. cbn [map bind]. rewrite ord_nil.
    pose proof (holds_root _ _ _ _ _ H) as C.
    inversion Gs as [? ? ? L1 L2 E0|]; subst.
    destruct (near_nil_kids ts L1 B L2) as [->|(i & k & ->)].
    + cbn [flat_map map bind]. rewrite ord_nil. cbn [fst snd bind]. rewrite (Dt h m C). reflexivity.
    + cbn [flat_map tops is_relationship is_feature negb app map rid bind]. rewrite (ord_single [i] i eq_refl).
      destruct (erase_relationship_ok h m i) as (m1 & E1 & L3).
      { eapply Permutation_in; [apply Permutation_sym; apply (rep_groups _ _ _ R)|left; reflexivity]. }
      rewrite E1. cbn [bind fst snd]. unfold detach. rewrite h_set_other.
      * rewrite C. reflexivity.
      * intros X. cbn [ids flat_map app] in D. apply NoDup_cons_iff in D. cbn [In] in D. apply D. left. symmetry. exact X.
Qed.

End Removal.
