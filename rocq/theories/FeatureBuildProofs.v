(** Building models: declarations and edges. *)
From Coq Require Import List Arith Bool Ascii String Permutation Lia.
From Verif Require Import Text TextProofs ConstraintModel ConstraintSpec SourceRangeModel FeatureTreeModel FeatureTreeSpec FeatureTreeProofs FeatureTransactionModel
  FeatureEditSpec FeatureEditProofs FeatureOpsProofs FeatureRemoveProofs FeatureGroupProofs FeatureDataProofs FeatureRootProofs FeatureHistoryProofs
  FeatureTransactionSpec FeatureTransactionFinal FeatureBuildSpec.
Import ListNotations.

(** ** The queues of a builder *)
Definition feature_ops (cs : list bcall) : list op :=
  flat_map (fun c => match c with BFeature f => [OAddFeature f None] | BRoot s => [OSetRoot s] | _ => [] end) cs.
Definition tree_ops (cs : list bcall) : list op :=
  flat_map (fun c => match c with
    | BEdge p s => [OAddChild (ByName p) (ByName s)] | BName s => [OSetName s] | BCommit s => [OSetCommit s]
    | BPath s => [OSetPath s] | _ => [] end) cs.
Definition relation_ops (cs : list bcall) : list op :=
  flat_map (fun c => match c with
    | BRelationship k p => [OAddRelationship k (ByName p)] | BConstraint k x => [OAddConstraint k x] | _ => [] end) cs.

Lemma builder_queues cs : forall m f t r,
  fold_left (fun o c => let* b := o in builder_call b c) cs (Some (Builder m (Mtx true f) (Mtx true t) (Mtx true r))) =
  Some (Builder m (Mtx true (f ++ feature_ops cs)) (Mtx true (t ++ tree_ops cs)) (Mtx true (r ++ relation_ops cs))).
Proof.
  induction cs as [|c cs IH]; intros m f t r.
  - cbn. rewrite !app_nil_r. reflexivity.
  - cbn [fold_left bind]. destruct c; cbn [builder_call enqueue t_open t_queue orb bind]; rewrite IH;
    cbn [feature_ops tree_ops relation_ops flat_map app]; rewrite <- ?app_assoc; reflexivity.
Qed.

Section Build.
Variable ord : list nid -> list nid.
Hypothesis ord_ok : is_order ord.

Lemma run_app a b w : run ord (a ++ b) w =
  match run ord a w with Some (w1, None) => run ord b w1 | Some (w1, Some e) => Some (w1, Some e) | None => None end.
Proof.
  revert w. induction a as [|o a IH]; intros w; cbn [app run]; [reflexivity|].
  destruct (exec ord o w) as [[w1 [e|]]|]; cbn [bind]; [reflexivity|apply IH|reflexivity].
Qed.

(** ** Declarations *)
Definition leaf (e : nid * feature) : tree := Node (fst e) (NFeature (snd e)) [].
Definition flat (r : nid) (s : text) (L : list (nid * feature)) : tree := Node r (NFeature (root_feature s)) (map leaf L).

Lemma named_leaves L : flat_map named (map leaf L) = map (fun e => (f_name (snd e), fst e)) L.
Proof. induction L as [|e L IH]; [reflexivity|]. cbn. rewrite IH. reflexivity. Qed.
Lemma named_flat r s L : named (flat r s L) = (s, r) :: map (fun e => (f_name (snd e), fst e)) L.
Proof. unfold flat. cbn [named app]. rewrite named_leaves. reflexivity. Qed.
Lemma ids_flat r s L : ids (flat r s L) = r :: map fst L.
Proof. unfold flat. cbn [ids]. f_equal. induction L as [|e L IH]; [reflexivity|]. cbn. rewrite IH. reflexivity. Qed.

Lemma flat_taken h m r s L t : represents h m (flat r s L) -> (get_feature m t = None <-> ~ taken (s, map snd L) t).
Proof.
  intros R. rewrite (rep_find_none R), named_flat. cbn [map fst]. rewrite map_map. cbn [fst]. unfold taken. cbn [fst snd].
  rewrite map_map. cbn [In]. intuition.
Qed.

Lemma declare_run : forall cs d d' h m L r,
  declares d cs d' -> (forall c, In c cs -> ordinary c) -> map snd L = snd d -> represents h m (flat r (fst d) L) ->
  exists h' m' L' r', run ord (feature_ops cs) (h, m) = Some ((h', m'), None) /\
    represents h' m' (flat r' (fst d') L') /\ map snd L' = snd d' /\ same_rest m m' /\ m_relationships m' = m_relationships m.
Proof.
  intros cs d d' h m L r D. revert h m L r.
  induction D as [d|root fs f cs d N D IH|root fs cs d D IH|root fs s cs d N D IH|d c cs e C D IH];
    intros h m L r O EL R; cbn [fst snd] in *.
  - exists h, m, L, r. split; [reflexivity|]. split; [exact R|]. split; [exact EL|]. split; [repeat split|reflexivity].
  - assert (get_feature m (f_name f) = None) as G by (apply (flat_taken _ _ _ _ _ _ R); rewrite EL; exact N).
    destruct (exec_add_feature_ok ord h m (flat r root L) f None (flat r root L) R (O _ (or_introl eq_refl)) G (sub_refl _) eq_refl
      (or_intror (conj eq_refl eq_refl))) as (h1 & m1 & E1 & R1 & Em & _).
    rewrite edit_top in R1 by reflexivity.
    assert (add_kid (Node (h_next h) (NFeature f) []) (flat r root L) = flat r root (L ++ [(h_next h, f)])) as EF.
    { unfold add_kid, with_kids, flat. cbn [rid rdata kids]. rewrite map_app. reflexivity. }
    rewrite EF in R1.
    destruct (IH h1 m1 (L ++ [(h_next h, f)]) r) as (h' & m' & L' & r' & E & R' & EL' & SR & Er).
    + intros c I. apply O. right. exact I.
    + rewrite map_app, EL. reflexivity.
    + exact R1.
    + exists h', m', L', r'. cbn [feature_ops flat_map app]. cbn [run]. rewrite E1. cbn [bind]. split; [exact E|].
      split; [exact R'|]. split; [exact EL'|]. subst m1. split; [exact SR|exact Er].
  - destruct (IH h m L r (fun c I => O c (or_intror I)) EL R) as (h' & m' & L' & r' & E & R' & X).
    exists h', m', L', r'. cbn [feature_ops flat_map app]. cbn [run].
    rewrite (exec_set_root_same ord h m (flat r root L) root (root_feature root) R eq_refl eq_refl). cbn [bind].
    split; [exact E|]. split; [exact R'|exact X].
  - assert (get_feature m s = None) as G by (apply (flat_taken _ _ _ _ _ _ R); rewrite EL; exact N).
    destruct (exec_set_root_ok ord h m (flat r root L) s R G) as (h1 & m1 & E1 & R1 & SR1 & Er1 & _).
    destruct (IH h1 m1 L (h_next h) (fun c I => O c (or_intror I)) EL R1) as (h' & m' & L' & r' & E & R' & EL' & SR & Er).
    exists h', m', L', r'. cbn [feature_ops flat_map app]. cbn [run]. rewrite E1. cbn [bind]. split; [exact E|].
    split; [exact R'|]. split; [exact EL'|]. split; [|congruence].
    unfold same_rest in *. intuition congruence.
  - destruct (IH h m L r (fun c I => O c (or_intror I)) EL R) as (h' & m' & L' & r' & E & R' & X).
    exists h', m', L', r'. split; [|split; [exact R'|exact X]].
    destruct c; try contradiction; exact E.
Qed.

Lemma clash_run c b d h m L r :
  clashes d c -> map snd L = snd d -> represents h m (flat r (fst d) L) ->
  exists w, run ord (feature_ops (c :: b)) (h, m) = Some (w, Some ALREADY_PRESENT).
Proof.
  intros C EL R. destruct d as [root fs]. cbn [fst snd] in *.
  assert (P : forall s, taken (root, fs) s -> exists i, get_feature m s = Some i).
  { intros s T. destruct (get_feature m s) as [i|] eqn:G; [exists i; reflexivity|].
    exfalso. apply (flat_taken _ _ _ _ _ _ R) in G. rewrite EL in G. exact (G T). }
  destruct c as [f|s|p s|k p|k e|s|s|s]; try contradiction; cbn [feature_ops flat_map app run].
  - destruct (P _ C) as (i & G). exists (h, m). rewrite (exec_add_feature_present ord h m f None i G). reflexivity.
  - destruct C as [N C]. destruct (P _ C) as (i & G). exists (h, m).
    assert (i <> rid (flat r root L)) as Ni.
    { intros ->. apply (rep_find R) in G. apply N. cbn [fst].
      apply named_subtree in G. destruct G as (u & f & U & Eu & Df & Ef).
      assert (u = flat r root L) as -> by (apply (subtree_unique (flat r root L)); [apply (rep_ids _ _ _ R)|exact U|constructor|exact Eu]).
      injection Df as <-. cbn in Ef. congruence. }
    rewrite (exec_set_root_present ord h m (flat r root L) s i R G Ni). reflexivity.
Qed.

(** ** Edges *)
Definition upd {A} (f : nid -> A) (k : nid) (v : A) (i : nid) : A := if Nat.eqb i k then v else f i.

(** The features [I] with their parents and children. *)
Definition cells_are (h : heap) (I : list nid) (dat : nid -> feature) (par : nid -> option nid) (ed : nid -> list nid) : Prop :=
  forall i, In i I -> h_cells h i = Some (Cell (NFeature (dat i)) (par i) (ed i)).

(** Children and parents agree. *)
Record linked (h : heap) (I : list nid) (dat : nid -> feature) (par : nid -> option nid) (ed : nid -> list nid) : Prop := Linked {
  li_ok : heap_ok h;
  li_cells : cells_are h I dat par ed;
  li_nodup : forall i, In i I -> NoDup (ed i);
  li_edges : forall i j, In i I -> (In j (ed i) <-> In j I /\ par j = Some i);
  li_par : forall i p, In i I -> par i = Some p -> In p I
}.

Lemma upd_same {A} (f : nid -> A) k v : upd f k v k = v.
Proof. unfold upd. rewrite Nat.eqb_refl. reflexivity. Qed.
Lemma upd_other {A} (f : nid -> A) k v i : i <> k -> upd f k v i = f i.
Proof. unfold upd. destruct (Nat.eqb_spec i k); [contradiction|reflexivity]. Qed.

Lemma cells_remove_edge h I dat par ed q c : heap_ok h -> cells_are h I dat par ed -> In q I ->
  exists h', remove_edge h q c = Some h' /\ heap_ok h' /\ h_next h' = h_next h /\
    cells_are h' I dat par (upd ed q (set_remove c (ed q))).
Proof.
  intros K C Iq. pose proof (C q Iq) as Cq. eexists. split; [apply (remove_edge_some h q c _ Cq)|].
  split; [apply h_set_ok; [exact K|apply (heap_ok_live h q _ K Cq)]|]. split; [reflexivity|].
  intros i Ii. destruct (Nat.eq_dec i q) as [->|N].
  - rewrite h_set_same, upd_same. reflexivity.
  - rewrite h_set_other, upd_other by exact N. apply C. exact Ii.
Qed.
Lemma cells_add_edge h I dat par ed q c : heap_ok h -> cells_are h I dat par ed -> In q I ->
  exists h', add_edge h q c = Some h' /\ heap_ok h' /\ h_next h' = h_next h /\
    cells_are h' I dat par (upd ed q (set_insert c (ed q))).
Proof.
  intros K C Iq. pose proof (C q Iq) as Cq. eexists. split; [apply (add_edge_some h q c _ Cq)|].
  split; [apply h_set_ok; [exact K|apply (heap_ok_live h q _ K Cq)]|]. split; [reflexivity|].
  intros i Ii. destruct (Nat.eq_dec i q) as [->|N].
  - rewrite h_set_same, upd_same. reflexivity.
  - rewrite h_set_other, upd_other by exact N. apply C. exact Ii.
Qed.
Lemma cells_set_parent h I dat par ed c p : heap_ok h -> cells_are h I dat par ed -> In c I ->
  exists h', set_parent h c p = Some h' /\ heap_ok h' /\ h_next h' = h_next h /\
    cells_are h' I dat (upd par c p) ed.
Proof.
  intros K C Iq. pose proof (C c Iq) as Cq. eexists. split; [apply (set_parent_some h c p _ Cq)|].
  split; [apply h_set_ok; [exact K|apply (heap_ok_live h c _ K Cq)]|]. split; [reflexivity|].
  intros i Ii. destruct (Nat.eq_dec i c) as [->|N].
  - rewrite h_set_same, upd_same. reflexivity.
  - rewrite h_set_other, upd_other by exact N. apply C. exact Ii.
Qed.

Lemma add_child_linked h m I dat par ed rp rc p c :
  linked h I dat par ed -> resolve m rp = Some p -> resolve m rc = Some c -> In p I -> In c I -> p <> c ->
  exists h' ed', exec ord (OAddChild rp rc) (h, m) = Some ((h', m), None) /\ linked h' I dat (upd par c (Some p)) ed'.
Proof.
  intros [K C D E P] Rp Rc Ip Ic N. cbn [exec]. unfold exec_add_child. rewrite Rc, Rp.
  destruct (Nat.eqb_spec c p) as [X|_]; [congruence|]. rewrite (C c Ic). cbn [bind n_parent].
  set (ed1 := fun i => match par c with Some q => if Nat.eqb i q then set_remove c (ed i) else ed i | None => ed i end).
  assert (exists h1, match par c with Some q => remove_edge h q c | None => Some h end = Some h1 /\ heap_ok h1 /\
    cells_are h1 I dat par ed1) as (h1 & E1 & K1 & C1).
  { unfold ed1. destruct (par c) as [q|] eqn:Q.
    - destruct (cells_remove_edge h I dat par ed q c K C (P c q Ic Q)) as (h1 & E1 & K1 & _ & C1). exists h1. split; [exact E1|].
      split; [exact K1|]. intros i Ii. rewrite (C1 i Ii). unfold upd. destruct (Nat.eqb_spec i q) as [->|]; reflexivity.
    - exists h. split; [reflexivity|]. split; [exact K|exact C]. }
  rewrite E1. cbn [bind].
  destruct (cells_add_edge h1 I dat par ed1 p c K1 C1 Ip) as (h2 & E2 & K2 & _ & C2). rewrite E2. cbn [bind].
  destruct (cells_set_parent h2 I dat par _ c (Some p) K2 C2 Ic) as (h3 & E3 & K3 & _ & C3). rewrite E3. cbn [bind].
  exists h3. eexists. split; [reflexivity|].
  assert (M1 : forall i j, In i I -> (In j (ed1 i) <-> (In j I /\ par j = Some i) /\ j <> c)).
  { intros i j Ii. unfold ed1. destruct (par c) as [q|] eqn:Q.
    - destruct (Nat.eqb_spec i q) as [->|Niq].
      + rewrite in_set_remove, (E q j Ii). reflexivity.
      + rewrite (E i j Ii). split; [intros X; split; [exact X|]|intros [X _]; exact X].
        intros ->. destruct X as [_ X]. congruence.
    - rewrite (E i j Ii). split; [intros X; split; [exact X|]|intros [X _]; exact X].
      intros ->. destruct X as [_ X]. congruence. }
  constructor.
  - exact K3.
  - exact C3.
  - intros i Ii. assert (NoDup (ed1 i)) as X.
    { unfold ed1. destruct (par c) as [q|]; [|apply D; exact Ii]. destruct (Nat.eqb i q); [apply nodup_set_remove|]; apply D; exact Ii. }
    unfold upd. destruct (Nat.eqb_spec i p) as [->|_]; [apply nodup_set_insert|]; exact X.
  - intros i j Ii. unfold upd at 1. destruct (Nat.eqb_spec i p) as [->|Nip].
    + rewrite in_set_insert, (M1 p j Ip). destruct (Nat.eq_dec j c) as [->|Nj].
      * rewrite upd_same. tauto.
      * rewrite upd_other by exact Nj. tauto.
    + rewrite (M1 i j Ii). destruct (Nat.eq_dec j c) as [->|Nj].
      * rewrite upd_same. split; [tauto|]. intros [_ X]. congruence.
      * rewrite upd_other by exact Nj. tauto.
  - intros i q Ii. destruct (Nat.eq_dec i c) as [->|Ni].
    + rewrite upd_same. intros X. injection X as <-. exact Ip.
    + rewrite upd_other by exact Ni. apply P. exact Ii.
Qed.

(** The names of the features [I]. *)
Definition naming (m : fmodel) (I : list nid) (dat : nid -> feature) (d : decl) : Prop :=
  (forall s i, get_feature m s = Some i <-> In i I /\ f_name (dat i) = s) /\
  (forall s, taken d s <-> exists i, get_feature m s = Some i).

Lemma naming_ext m m' I dat d : m_features m' = m_features m -> naming m I dat d -> naming m' I dat d.
Proof. unfold naming, get_feature. intros ->. exact (fun x => x). Qed.

Definition sets_attribute (cs : list bcall) (m m' : fmodel) : Prop :=
  m_name m' = last_name cs (m_name m) /\ m_commit m' = last_commit cs (m_commit m) /\ m_path m' = last_path cs (m_path m) /\
  m_root m' = m_root m /\ m_features m' = m_features m /\ m_relationships m' = m_relationships m /\
  m_boolean m' = m_boolean m /\ m_nonboolean m' = m_nonboolean m /\ m_mixed m' = m_mixed m.

Lemma edges_run d I dat : forall cs h m par ed,
  linked h I dat par ed -> naming m I dat d -> (forall c, In c cs -> edge_ok d c) ->
  exists h' m' par' ed', run ord (tree_ops cs) (h, m) = Some ((h', m'), None) /\ linked h' I dat par' ed' /\
    sets_attribute cs m m' /\
    (forall i s, In i I -> par i = get_feature m s -> par' i = get_feature m (last_edge cs (f_name (dat i)) s)) /\
    (forall i, In i I -> (forall p s, In (BEdge p s) cs -> s <> f_name (dat i)) -> par' i = par i).
Proof.
  induction cs as [|c cs IH]; intros h m par ed L Nm O.
  - exists h, m, par, ed. split; [reflexivity|]. split; [exact L|]. split; [repeat split|]. split; [auto|auto].
  - assert (O' : forall c, In c cs -> edge_ok d c) by (intros x X; apply O; right; exact X).
    assert (SKIP : forall m1, naming m1 I dat d -> m_features m1 = m_features m ->
      exists h' m' par' ed', run ord (tree_ops cs) (h, m1) = Some ((h', m'), None) /\ linked h' I dat par' ed' /\
      sets_attribute cs m1 m' /\
      (forall i s, In i I -> par i = get_feature m s -> par' i = get_feature m (last_edge cs (f_name (dat i)) s)) /\
      (forall i, In i I -> (forall p s, In (BEdge p s) cs -> s <> f_name (dat i)) -> par' i = par i)).
    { intros m1 Nm1 Ef. destruct (IH h m1 par ed L Nm1 O') as (h' & m' & par' & ed' & E & L' & S & X & Y).
      exists h', m', par', ed'. split; [exact E|]. split; [exact L'|]. split; [exact S|]. split; [|exact Y].
      unfold get_feature in *. rewrite Ef in X. exact X. }
    destruct c as [f|s|p s|k p|k e|s|s|s]; cbn [tree_ops flat_map app].
    + destruct (SKIP m Nm eq_refl) as (h' & m' & par' & ed' & E & L' & S & X & Y). exists h', m', par', ed'. split; [exact E|]. split; [exact L'|]. split; [exact S|]. split; [exact X|].
      intros i Ii Z. apply Y; [exact Ii|]. intros p t IB. apply (Z p t). right. exact IB.
    + destruct (SKIP m Nm eq_refl) as (h' & m' & par' & ed' & E & L' & S & X & Y). exists h', m', par', ed'. split; [exact E|]. split; [exact L'|]. split; [exact S|]. split; [exact X|].
      intros i Ii Z. apply Y; [exact Ii|]. intros p t IB. apply (Z p t). right. exact IB.
    + destruct (O _ (or_introl eq_refl)) as (Tp & Ts & Nps). destruct Nm as [N1 N2].
      destruct (proj1 (N2 p) Tp) as (ip & Gp). destruct (proj1 (N2 s) Ts) as (ic & Gs).
      destruct (proj1 (N1 p ip) Gp) as [Ip Ep]. destruct (proj1 (N1 s ic) Gs) as [Ic Ec].
      assert (ip <> ic) as Nii by (intros ->; congruence).
      destruct (add_child_linked h m I dat par ed (ByName p) (ByName s) ip ic L Gp Gs Ip Ic Nii) as (h1 & ed1 & E1 & L1).
      destruct (IH h1 m (upd par ic (Some ip)) ed1 L1 (conj N1 N2) O') as (h' & m' & par' & ed' & E & L' & S & X & Y).
      exists h', m', par', ed'. cbn [run]. rewrite E1. cbn [bind]. split; [exact E|]. split; [exact L'|]. split; [exact S|]. split.
      * intros i t Ii Ei. cbn [last_edge]. apply X; [exact Ii|]. destruct (Nat.eq_dec i ic) as [->|Ni].
        -- rewrite upd_same. assert (text_eqb s (f_name (dat ic)) = true) as -> by (apply text_eqb_eq; congruence). congruence.
        -- rewrite upd_other by exact Ni. destruct (text_eqb s (f_name (dat i))) eqn:Et; [|exact Ei].
           apply text_eqb_eq in Et. exfalso. apply Ni. assert (get_feature m s = Some i) as G2 by (apply N1; split; [exact Ii|congruence]). congruence.
      * intros i Ii Z. rewrite (Y i Ii); [|intros q t IB; apply (Z q t); right; exact IB].
        apply upd_other. intros ->. apply (Z p s); [left; reflexivity|congruence].
    + destruct (SKIP m Nm eq_refl) as (h' & m' & par' & ed' & E & L' & S & X & Y). exists h', m', par', ed'. split; [exact E|]. split; [exact L'|]. split; [exact S|]. split; [exact X|].
      intros i Ii Z. apply Y; [exact Ii|]. intros q t IB. apply (Z q t). right. exact IB.
    + destruct (SKIP m Nm eq_refl) as (h' & m' & par' & ed' & E & L' & S & X & Y). exists h', m', par', ed'. split; [exact E|]. split; [exact L'|]. split; [exact S|]. split; [exact X|].
      intros i Ii Z. apply Y; [exact Ii|]. intros q t IB. apply (Z q t). right. exact IB.
    + destruct (SKIP (with_name m s) (naming_ext m _ I dat d eq_refl Nm) eq_refl) as (h' & m' & par' & ed' & E & L' & S & X & Y). exists h', m', par', ed'. split; [exact E|]. split; [exact L'|]. split; [exact S|]. split; [exact X|].
      intros i Ii Z. apply Y; [exact Ii|]. intros q t IB. apply (Z q t). right. exact IB.
    + destruct (SKIP (with_commit m s) (naming_ext m _ I dat d eq_refl Nm) eq_refl) as (h' & m' & par' & ed' & E & L' & S & X & Y). exists h', m', par', ed'. split; [exact E|]. split; [exact L'|]. split; [exact S|]. split; [exact X|].
      intros i Ii Z. apply Y; [exact Ii|]. intros q t IB. apply (Z q t). right. exact IB.
    + destruct (SKIP (with_path m s) (naming_ext m _ I dat d eq_refl Nm) eq_refl) as (h' & m' & par' & ed' & E & L' & S & X & Y). exists h', m', par', ed'. split; [exact E|]. split; [exact L'|]. split; [exact S|]. split; [exact X|].
      intros i Ii Z. apply Y; [exact Ii|]. intros q t IB. apply (Z q t). right. exact IB.
Qed.

(** An edge that mentions an undeclared name, or from a feature to itself. *)
Definition bad_edge (d : decl) (p s : text) : Prop := ~ taken d p \/ ~ taken d s \/ p = s.

Lemma bad_edge_run d I dat : forall a p s b h m par ed,
  linked h I dat par ed -> naming m I dat d -> (forall c, In c a -> edge_ok d c) -> bad_edge d p s ->
  exists w e, run ord (tree_ops (a ++ BEdge p s :: b)) (h, m) = Some (w, Some e).
Proof.
  intros a p s b h m par ed L Nm O B. unfold tree_ops. rewrite flat_map_app. fold (tree_ops a). rewrite run_app.
  destruct (edges_run d I dat a h m par ed L Nm O) as (h' & m' & par' & ed' & E & L' & S & _). rewrite E.
  cbn [flat_map app run exec]. unfold exec_add_child. cbn [resolve].
  assert (forall t, get_feature m' t = get_feature m t) as Ge.
  { intros t. unfold get_feature. destruct S as (_ & _ & _ & _ & -> & _). reflexivity. }
  rewrite !Ge. destruct (get_feature m s) as [c|] eqn:Gs.
  - destruct (get_feature m p) as [q|] eqn:Gp.
    + assert (p = s) as ->.
      { destruct B as [B|[B|B]]; [| |exact B]; exfalso; apply B; apply (proj2 Nm); eauto. }
      assert (c = q) as -> by congruence. rewrite Nat.eqb_refl. unfold failure. cbn [bind]. eexists; eexists; reflexivity.
    + unfold failure. cbn [bind]. eexists; eexists; reflexivity.
  - unfold failure. cbn [bind]. eexists; eexists; reflexivity.
Qed.

(** ** From links to a tree *)
Section Grow.
Variable (I : list nid) (dat : nid -> feature) (par : nid -> option nid) (ed : nid -> list nid) (r : nid).

Fixpoint climb (k : nat) (x : nid) : option nid :=
  match k with 0 => Some x | S k => let* y := climb k x in par y end.
Inductive dep : nid -> nat -> Prop :=
| dep_root : dep r 0
| dep_up i p k : par i = Some p -> dep p k -> dep i (S k).
Fixpoint grow (n : nat) (i : nid) : tree :=
  match n with 0 => Node i (NFeature (dat i)) [] | S k => Node i (NFeature (dat i)) (map (grow k) (ed i)) end.

Hypothesis root_top : par r = None.
Hypothesis root_in : In r I.
Hypothesis all_dep : forall i, In i I -> exists k, dep i k.
Variable h : heap.
Hypothesis links : linked h I dat par ed.

Lemma dep_unique i a : dep i a -> forall b, dep i b -> a = b.
Proof.
  induction 1 as [|i p k P D IH]; intros b B; inversion B; subst; try congruence.
  f_equal. apply IH. congruence.
Qed.
Lemma climb_dep k : forall x i d e, climb k x = Some i -> dep i d -> dep x e -> e = d + k.
Proof.
  induction k as [|k IH]; intros x i d e C Di De; cbn [climb] in C.
  - injection C as ->. rewrite Nat.add_0_r. apply (dep_unique i); assumption.
  - apply bind_some in C. destruct C as (y & C & P). rewrite (IH x y (S d) e C); [lia| |exact De].
    eapply dep_up; eassumption.
Qed.
Lemma dep_climb i k : dep i k -> climb k i = Some r.
Proof.
  induction 1 as [|i p k P D IH]; [reflexivity|].
  assert (forall n x y, par x = Some y -> climb (S n) x = climb n y) as X.
  { induction n as [|n IHn]; intros x y Pxy; [cbn; exact Pxy|]. change (climb (S (S n)) x) with (let* z := climb (S n) x in par z).
    rewrite (IHn x y Pxy). reflexivity. }
  rewrite (X k i p P). exact IH.
Qed.
Lemma climb_in k : forall x i, In x I -> climb k x = Some i -> In i I.
Proof.
  induction k as [|k IH]; intros x i X C; cbn [climb] in C; [injection C as <-; exact X|].
  apply bind_some in C. destruct C as (y & C & P). exact (li_par _ _ _ _ _ links y i (IH x y X C) P).
Qed.

Lemma rid_grow n i : rid (grow n i) = i.
Proof. destruct n; reflexivity. Qed.
Lemma map_rid_grow n l : map rid (map (grow n) l) = l.
Proof. rewrite map_map. rewrite <- (map_id l) at 2. apply map_ext. apply rid_grow. Qed.

Lemma grow_ids n : forall i x, In i I -> In x (ids (grow n i)) -> In x I /\ exists k, climb k x = Some i.
Proof.
  induction n as [|n IH]; intros i x Ii X; cbn [grow ids flat_map] in X.
  - destruct X as [<-|[]]. split; [exact Ii|]. exists 0. reflexivity.
  - destruct X as [<-|X]; [split; [exact Ii|]; exists 0; reflexivity|].
    apply in_flat_map in X. destruct X as (u & U & X). apply in_map_iff in U. destruct U as (j & <- & J).
    apply (li_edges _ _ _ _ _ links i j Ii) in J. destruct J as [Ij Pj]. destruct (IH j x Ij X) as (Ix & k & C). split; [exact Ix|].
    exists (S k). cbn [climb]. rewrite C. exact Pj.
Qed.
Lemma climb_grow k : forall n x i, In x I -> climb k x = Some i -> k <= n -> In x (ids (grow n i)).
Proof.
  induction k as [|k IH]; intros n x i Ix C L.
  - cbn in C. injection C as ->. destruct n; left; reflexivity.
  - cbn [climb] in C. apply bind_some in C. destruct C as (y & C & P). destruct n as [|n]; [lia|].
    cbn [grow ids]. right. apply in_flat_map. exists (grow n y). split.
    + apply in_map. apply (li_edges _ _ _ _ _ links i y (li_par _ _ _ _ _ links y i (climb_in k x y Ix C) P)).
      split; [exact (climb_in k x y Ix C)|exact P].
    + apply IH; [exact Ix|exact C|lia].
Qed.

Lemma nodup_flat_map {A B} (f : A -> list B) l : NoDup l -> (forall a, In a l -> NoDup (f a)) ->
  (forall a b x, In a l -> In b l -> In x (f a) -> In x (f b) -> a = b) -> NoDup (flat_map f l).
Proof.
  induction l as [|a l IH]; intros D F P; [constructor|]. apply NoDup_cons_iff in D. destruct D as [Na D]. cbn [flat_map].
  apply nodup_app. split; [apply F; left; reflexivity|]. split.
  - apply IH; [exact D|intros b X; apply F; right; exact X|].
    intros b c x Xb Xc. apply P; right; assumption.
  - intros x Xa X. apply in_flat_map in X. destruct X as (b & Ib & Xb). apply Na.
    rewrite (P a b x); [exact Ib|left; reflexivity|right; exact Ib|exact Xa|exact Xb].
Qed.

Lemma grow_nodup n : forall i, In i I -> NoDup (ids (grow n i)).
Proof.
  induction n as [|n IH]; intros i Ii; cbn [grow ids].
  - constructor; [intros []|constructor].
  - assert (KI : forall j, In j (ed i) -> In j I /\ par j = Some i) by (intros j; apply (li_edges _ _ _ _ _ links i j Ii)).
    destruct (all_dep i Ii) as (d & D). constructor.
    + intros X. apply in_flat_map in X. destruct X as (u & U & X). apply in_map_iff in U. destruct U as (j & <- & J).
      destruct (KI j J) as [Ij Pj]. destruct (grow_ids n j i Ij X) as (_ & k & C).
      assert (d = S d + k) by (apply (climb_dep k i j); [exact C|eapply dep_up; eassumption|exact D]). lia.
    + rewrite flat_map_concat_map, map_map, <- flat_map_concat_map. apply nodup_flat_map.
      * apply (li_nodup _ _ _ _ _ links). exact Ii.
      * intros j J. apply IH. apply KI. exact J.
      * intros a b x Ja Jb Xa Xb. destruct (KI a Ja) as [Ia Pa]. destruct (KI b Jb) as [Ib Pb].
        destruct (grow_ids n a x Ia Xa) as (Ix & ka & Ca). destruct (grow_ids n b x Ib Xb) as (_ & kb & Cb).
        destruct (all_dep x Ix) as (e & De).
        assert (e = S d + ka) as Ea by (apply (climb_dep ka x a); [exact Ca|eapply dep_up; eassumption|exact De]).
        assert (e = S d + kb) as Eb by (apply (climb_dep kb x b); [exact Cb|eapply dep_up; eassumption|exact De]).
        assert (ka = kb) by lia. congruence.
Qed.

Lemma depth_bound : exists K, forall i d, In i I -> dep i d -> d <= K.
Proof.
  assert (forall l, (forall i, In i l -> In i I) -> exists K, forall i d, In i l -> dep i d -> d <= K) as X.
  { induction l as [|i l IH]; intros Inc; [exists 0; intros i d []|].
    destruct IH as (K & HK); [intros j J; apply Inc; right; exact J|]. destruct (all_dep i (Inc i (or_introl eq_refl))) as (e & De).
    exists (Nat.max K e). intros j d [<-|J] D; [rewrite (dep_unique i d D e De); lia|]. specialize (HK j d J D). lia. }
  apply (X I). auto.
Qed.

Lemma grow_holds K : (forall i d, In i I -> dep i d -> d <= K) ->
  forall n i d, In i I -> dep i d -> K < d + n -> holds h (par i) (grow n i).
Proof.
  intros HK. induction n as [|n IH]; intros i d Ii D L.
  - specialize (HK i d Ii D). lia.
  - cbn [grow]. apply holds_node.
    + rewrite map_rid_grow. apply (li_cells _ _ _ _ _ links). exact Ii.
    + intros u U. apply in_map_iff in U. destruct U as (j & <- & J). apply (li_edges _ _ _ _ _ links i j Ii) in J.
      destruct J as [Ij Pj]. rewrite <- Pj. apply (IH j (S d)); [exact Ij|eapply dep_up; eassumption|lia].
Qed.

Lemma grow_named n : forall i, named (grow n i) = map (fun j => (f_name (dat j), j)) (ids (grow n i)).
Proof.
  induction n as [|n IH]; intros i; cbn [grow named ids map app flat_map]; [reflexivity|]. f_equal.
  generalize (ed i). induction l as [|j l IHl]; [reflexivity|]. cbn [map flat_map]. rewrite IH, IHl, map_app. reflexivity.
Qed.
Lemma grow_groups n : forall i, groups (grow n i) = [].
Proof.
  induction n as [|n IH]; intros i; cbn [grow groups app flat_map]; [reflexivity|].
  generalize (ed i). induction l as [|j l IHl]; [reflexivity|]. cbn [map flat_map]. rewrite IH, IHl. reflexivity.
Qed.
Lemma grow_roots n : forall i, roots (grow n i) = filter (fun j => is_root_kind (dat j)) (ids (grow n i)).
Proof.
  induction n as [|n IH]; intros i; cbn [grow roots ids app flat_map filter].
  - destruct (is_root_kind (dat i)); reflexivity.
  - destruct (is_root_kind (dat i)); cbn [app]; [f_equal|];
    generalize (ed i); induction l as [|j l IHl]; try reflexivity; cbn [map flat_map]; rewrite IH, IHl, filter_app; reflexivity.
Qed.
Lemma grow_grouped n : forall i, grouped (grow n i).
Proof.
  induction n as [|n IH]; intros i; cbn [grow]; [apply grouped_feature; [cbn; lia|constructor]|]. apply grouped_feature.
  - replace (own_groups (map (grow n) (ed i))) with (@nil tree); [cbn; lia|]. generalize (ed i).
    induction l as [|j l IHl]; [reflexivity|]. cbn [map own_groups filter]. replace (is_relationship (rdata (grow n j))) with false by (destruct n; reflexivity). exact IHl.
  - apply Forall_forall. intros u U. apply in_map_iff in U. destruct U as (j & <- & _). apply IH.
Qed.

Lemma linked_represents m :
  NoDup I -> m_root m = Some r -> Permutation (m_features m) (map (fun j => (f_name (dat j), j)) I) ->
  NoDup (map (fun j => f_name (dat j)) I) -> m_relationships m = [] ->
  (forall i, In i I -> (f_kind (dat i) = FRoot <-> i = r)) ->
  exists t, represents h m t /\ Permutation (ids t) I /\ rid t = r.
Proof.
  intros DI Er Ef Dn Eg Kr. destruct depth_bound as (K & HK). exists (grow (S K) r).
  assert (PI : Permutation (ids (grow (S K) r)) I).
  { apply NoDup_Permutation; [apply grow_nodup; exact root_in|exact DI|]. intros x. split; intros X.
    - apply (grow_ids (S K) r x root_in X).
    - destruct (all_dep x X) as (d & D). apply (climb_grow d); [exact X|apply dep_climb; exact D|].
      specialize (HK x d X D). lia. }
  split; [|split; [exact PI|reflexivity]]. constructor.
  - apply (li_ok _ _ _ _ _ links).
  - rewrite <- root_top. apply (grow_holds K HK (S K) r 0 root_in dep_root). lia.
  - apply grow_nodup. exact root_in.
  - exact Er.
  - rewrite grow_roots, rid_grow.
    assert (filter (fun j => is_root_kind (dat j)) (ids (grow (S K) r)) = filter (fun j => Nat.eqb r j) (ids (grow (S K) r))) as ->.
    { apply filter_ext_in. intros j J. apply (Permutation_in _ PI) in J. specialize (Kr j J). unfold is_root_kind.
      destruct (Nat.eqb_spec r j) as [<-|N]; [destruct Kr as [_ Kr]; rewrite (Kr eq_refl); reflexivity|].
      destruct (f_kind (dat j)); try reflexivity. exfalso. apply N. symmetry. apply Kr. reflexivity. }
    change (ids (grow (S K) r)) with (r :: flat_map ids (map (grow K) (ed r))). cbn [filter]. rewrite Nat.eqb_refl. f_equal.
    assert (NoDup (ids (grow (S K) r))) as D by (apply grow_nodup; exact root_in).
    change (ids (grow (S K) r)) with (r :: flat_map ids (map (grow K) (ed r))) in D. apply NoDup_cons_iff in D. destruct D as [Nr _].
    revert Nr. generalize (flat_map ids (map (grow K) (ed r))). induction l as [|j l IHl]; intros Nr; [reflexivity|]. cbn [filter].
    destruct (Nat.eqb_spec r j) as [->|_]; [exfalso; apply Nr; left; reflexivity|]. apply IHl. intros X. apply Nr. right. exact X.
  - rewrite grow_named, Ef. apply Permutation_map. apply Permutation_sym. exact PI.
  - rewrite grow_named, map_map. cbn [fst]. eapply Permutation_NoDup; [|exact Dn]. apply Permutation_map. apply Permutation_sym. exact PI.
  - rewrite Eg, grow_groups. constructor.
  - apply grow_grouped.
Qed.
End Grow.
End Build.
