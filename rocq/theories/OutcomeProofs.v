(** The steps of building when the edges need not form a tree. *)
From Coq Require Import List Arith Bool Ascii String Permutation Lia.
From Verif Require Import Text TextProofs ConstraintModel ConstraintSpec SourceRangeModel FeatureTreeModel FeatureTreeSpec FeatureTreeProofs FeatureTransactionModel
  FeatureEditSpec FeatureEditProofs FeatureOpsProofs FeatureRemoveProofs FeatureGroupProofs FeatureDataProofs FeatureRootProofs FeatureHistoryProofs
  FeatureTransactionSpec FeatureTransactionFinal FeatureBuildSpec FeatureBuildProofs FeatureBuildFinal OutcomeSpec.
Import ListNotations.

(** ** Names *)
Lemma taken_dec d s : taken d s \/ ~ taken d s.
Proof.
  unfold taken. destruct (text_eqb s (fst d)) eqn:E; [apply text_eqb_eq in E; auto|]. apply text_eqb_neq in E.
  assert (In s (map f_name (snd d)) \/ ~ In s (map f_name (snd d))) as [I|I]; [|auto|tauto].
  induction (map f_name (snd d)) as [|t l IH]; [right; intros []|]. destruct (text_eqb t s) eqn:X; [apply text_eqb_eq in X; left; left; exact X|].
  apply text_eqb_neq in X. destruct IH as [I|I]; [left; right; exact I|right; intros [Y|Y]; contradiction].
Qed.

Lemma declares_or_clash : forall cs d, (exists e, declares d cs e) \/ exists a c b e, cs = a ++ c :: b /\ declares d a e /\ clashes e c.
Proof.
  induction cs as [|c cs IH]; intros [root fs]; [left; eexists; constructor|].
  assert (K : forall d1, (forall e x, declares d1 x e -> declares (root, fs) (c :: x) e) ->
    (exists e, declares (root, fs) (c :: cs) e) \/ exists a c0 b e, c :: cs = a ++ c0 :: b /\ declares (root, fs) a e /\ clashes e c0).
  { intros d1 N. destruct (IH d1) as [(e & D)|(a & c0 & b & e & -> & D & C)]; [left; eauto|]. right. exists (c :: a), c0, b, e. split; [reflexivity|auto]. }
  destruct c as [f|s|p s|k p|k x|s|s|s]; try (apply (K (root, fs)); intros e x' D; apply dec_other; [exact Logic.I|exact D]).
  - destruct (taken_dec (root, fs) (f_name f)) as [Y|N].
    + right. exists [], (BFeature f), cs, (root, fs). split; [reflexivity|]. split; [constructor|exact Y].
    + apply (K (root, fs ++ [f])). intros e x D. apply dec_feature; assumption.
  - destruct (text_eqb s root) eqn:E.
    + apply text_eqb_eq in E. subst s. apply (K (root, fs)). intros e x D. apply dec_same. exact D.
    + apply text_eqb_neq in E. destruct (taken_dec (root, fs) s) as [Y|N].
      * right. exists [], (BRoot s), cs, (root, fs). split; [reflexivity|]. split; [constructor|]. split; [exact E|exact Y].
      * apply (K (s, fs)). intros e x D. apply dec_root; assumption.
Qed.

Lemma declares_unique cs d e : declares d cs e -> forall f, declares d cs f -> f = e.
Proof.
  induction 1 as [d|root fs g cs d N D IH|root fs cs d D IH|root fs s cs d N D IH|d c cs e C D IH]; intros x X; inversion X; subst; auto; try contradiction.
Qed.

Lemma longer (l : list text) : exists n, forall t, In t l -> List.length t < n.
Proof.
  induction l as [|t l (n & IH)]; [exists 0; intros t []|]. exists (Nat.max n (S (List.length t))). intros u [<-|U]; [lia|]. specialize (IH u U). lia.
Qed.
Lemma fresh_name m : exists s, get_feature m s = None.
Proof.
  destruct (longer (map fst (m_features m))) as (n & L). exists (repeat "a"%char n). unfold get_feature.
  destruct (find_name (repeat "a"%char n) (m_features m)) as [i|] eqn:E; [|reflexivity]. exfalso.
  assert (In (repeat "a"%char n) (map fst (m_features m))) as I.
  { revert E. clear L. induction (m_features m) as [|[t j] l IH]; cbn [find_name map fst In]; [discriminate|]. destruct (text_eqb t (repeat "a"%char n)) eqn:X.
    - apply text_eqb_eq in X. auto.
    - intros E. right. apply IH. exact E. }
  specialize (L _ I). rewrite repeat_length in L. lia.
Qed.

Lemma last_edge_any cs s t u : (exists p, In (BEdge p s) cs) -> last_edge cs s t = last_edge cs s u.
Proof.
  revert t u. induction cs as [|c cs IH]; intros t u (p & I); [destruct I|].
  destruct c as [f|x|q x|k x|k x|x|x|x]; cbn [last_edge]; try (apply IH; destruct I as [I|I]; [discriminate|exists p; exact I]).
  destruct (text_eqb x s) eqn:E; [reflexivity|]. apply IH. destruct I as [I|I]; [|exists p; exact I]. injection I as -> ->. apply text_eqb_neq in E. contradiction.
Qed.
Lemma last_edge_none cs s t : (forall p, ~ In (BEdge p s) cs) -> last_edge cs s t = t.
Proof.
  revert t. induction cs as [|c cs IH]; intros t N; [reflexivity|].
  assert (N' : forall p, ~ In (BEdge p s) cs) by (intros p I; apply (N p); right; exact I).
  destruct c as [f|x|q x|k x|k x|x|x|x]; cbn [last_edge]; try (apply IH; exact N'). rewrite IH by exact N'.
  destruct (text_eqb x s) eqn:E; [|reflexivity]. apply text_eqb_eq in E. subst x. exfalso. apply (N q). left. reflexivity.
Qed.
Lemma edge_dec (cs : list bcall) (s : text) : (exists p, In (BEdge p s) cs) \/ forall p, ~ In (BEdge p s) cs.
Proof.
  induction cs as [|c cs IH]; [right; intros p []|]. destruct IH as [(p & I)|N]; [left; exists p; right; exact I|].
  destruct c as [f|x|q x|k x|k x|x|x|x]; try (right; intros p [I|I]; [discriminate|exact (N p I)]).
  destruct (text_eqb x s) eqn:E; [apply text_eqb_eq in E; subst x; left; exists q; left; reflexivity|]. apply text_eqb_neq in E. right. intros p [I|I]; [injection I as _ I; contradiction|exact (N p I)].
Qed.
Lemma last_edge_in cs s t : last_edge cs s t = t \/ In (BEdge (last_edge cs s t) s) cs.
Proof.
  revert t. induction cs as [|c cs IH]; intros t; [left; reflexivity|].
  destruct c as [f|x|q x|k x|k x|x|x|x]; cbn [last_edge]; try (destruct (IH t) as [E|I]; [left; exact E|right; right; exact I]).
  destruct (text_eqb x s) eqn:E.
  - apply text_eqb_eq in E. subst x. destruct (IH q) as [X|I]; [right; left; rewrite X; reflexivity|right; right; exact I].
  - destruct (IH t) as [X|I]; [left; exact X|right; right; exact I].
Qed.
Lemma last_edge_neq d cs s t : (forall c, In c cs -> edge_ok d c) -> t <> s -> last_edge cs s t <> s.
Proof. intros O N E. destruct (last_edge_in cs s t) as [X|I]; [congruence|]. apply (O _ I). exact E. Qed.

Section Wired.
Variable ord : list nid -> list nid.
Hypothesis ord_ok : is_order ord.

Definition heads (G : list group) : list nid := map (fun x : group => fst (fst x)) G.

(** The features [I] below their parents or, if there is one, the group of the parent. *)
Record wired (h : heap) (m : fmodel) (I : list nid) (dat : nid -> feature) (par : nid -> option nid) (G : list group) : Prop := Wired {
  wi_ok : heap_ok h;
  wi_rels : m_relationships m = map snd G;
  wi_par : forall i p, In i I -> par i = Some p -> In p I /\ p <> i;
  wi_cells : forall i, In i I -> exists g e, h_cells h i = Some (Cell (NFeature g) (option_map (host G) (par i)) e) /\ same_data (dat i) g /\
    (~ In i (heads G) -> NoDup e /\ forall j, In j e <-> In j I /\ par j = Some i);
  wi_groups : forall p k q, In ((p, k), q) G -> In p I /\ exists e, h_cells h q = Some (Cell (NRelationship k) (Some p) e) /\ forall j, In j I -> par j = Some p -> In j e
}.

Lemma host_head (G : list group) i : ~ In i (heads G) -> host G i = i.
Proof.
  intros N. unfold host. destruct (@find group _ G) as [x|] eqn:F; [|reflexivity]. exfalso. apply find_some in F. destruct F as [F E]. apply Nat.eqb_eq in E.
  apply N. rewrite <- E. apply in_map_iff. exists x. auto.
Qed.
Lemma host_in (G : list group) i : In i (heads G) -> exists k, In ((i, k), host G i) G.
Proof.
  intros I. unfold host. destruct (@find group _ G) as [[[p k] q]|] eqn:F.
  - apply find_some in F. destruct F as [F E]. apply Nat.eqb_eq in E. cbn in E. subst p. exists k. exact F.
  - exfalso. apply in_map_iff in I. destruct I as (x & E & I). apply (find_none _ _ F) in I. cbn in I. rewrite E, Nat.eqb_refl in I. discriminate.
Qed.

Lemma children_flat h n c (e : list nid) (new : nid) k :
  h_cells h n = Some c -> n_edges c = e ++ [new] -> NoDup e -> (forall j, In j e -> exists f p x, h_cells h j = Some (Cell (NFeature f) p x)) ->
  h_cells h new = Some (Cell (NRelationship k) (Some n) []) -> 0 < h_next h -> child_features ord h n = Some (ord e).
Proof.
  intros C E D F N P. unfold child_features, get_children. rewrite children_impl_S, C. cbn [bind]. rewrite E.
  assert (A : forall l acc, NoDup (acc ++ l) -> incl l e -> fold_left (fun o e0 => let* a := o in let* ce := h_cells h e0 in
      if is_feature (n_data ce) then Some (set_insert e0 a) else children_impl (h_next h) is_feature h None e0 a) l (Some acc) = Some (acc ++ l)).
  { induction l as [|x l IH]; intros acc Dl Il; cbn [fold_left]; [rewrite app_nil_r; reflexivity|]. destruct (F x (Il x (or_introl eq_refl))) as (f & p & y & Cx).
    cbn [bind]. rewrite Cx. cbn [bind n_data is_feature]. rewrite set_insert_new.
    - rewrite IH; [rewrite <- app_assoc; reflexivity|rewrite <- app_assoc; exact Dl|intros z Z; apply Il; right; exact Z].
    - intros X. apply NoDup_remove_2 in Dl. apply Dl. apply in_or_app. left. exact X. }
  rewrite fold_left_app. rewrite A; [|exact D|intros x X; exact X]. cbn [app fold_left bind]. rewrite N. cbn [bind n_data is_feature].
  destruct (h_next h) as [|n']; [lia|]. rewrite children_impl_S, N. reflexivity.
Qed.

Lemma wired_group h m I dat par d G k s p :
  wired h m I dat par G -> naming m I dat d -> get_feature m s = Some p -> ~ In p (heads G) ->
  exists h', exec ord (OAddRelationship k (ByName s)) (h, m) = Some ((h', with_relationships m (m_relationships m ++ [h_next h])), None) /\
    wired h' (with_relationships m (m_relationships m ++ [h_next h])) I dat par (G ++ [((p, k), h_next h)]).
Proof.
  intros [Ok Er Pa Ce Gr] Nm Gs Np. assert (Ip : In p I) by (apply (proj1 Nm) in Gs; tauto).
  destruct (Ce p Ip) as (g & e & Cp & Sp & Ep). destruct (Ep Np) as [De Ee]. clear Ep.
  set (new := h_next h) in *. assert (Live : forall i c, h_cells h i = Some c -> i <> new).
  { intros i c C ->. rewrite (Ok new) in C; [discriminate|unfold new; lia]. }
  assert (Nn : h_cells h new = None) by (apply Ok; unfold new; lia).
  assert (Ci : forall i, In i I -> i <> new) by (intros i Ii; destruct (Ce i Ii) as (g0 & e0 & C & _); exact (Live i _ C)).
  cbn [exec]. unfold exec_add_relationship, store_relationship, h_alloc. fold new. cbn [resolve].
  change (get_feature (with_relationships m (m_relationships m ++ [new])) s) with (get_feature m s). rewrite Gs. cbn [bind].
  set (h1 := {| h_cells := fun j => if Nat.eqb j new then Some (Cell (NRelationship k) None []) else h_cells h j; h_next := S new |}).
  assert (C1 : h_cells h1 new = Some (Cell (NRelationship k) None [])) by (cbn; rewrite Nat.eqb_refl; reflexivity).
  assert (O1 : forall j, j <> new -> h_cells h1 j = h_cells h j) by (intros j J; cbn; destruct (Nat.eqb_spec j new); [contradiction|reflexivity]).
  unfold link. rewrite (set_parent_some h1 new (Some p) _ C1). cbn [bind n_data n_edges]. set (h2 := h_set h1 new _).
  assert (Pn : p <> new) by (apply Ci; exact Ip).
  assert (C2 : h_cells h2 p = Some (Cell (NFeature g) (option_map (host G) (par p)) e)) by (unfold h2; rewrite h_set_other by exact Pn; rewrite O1 by exact Pn; exact Cp).
  rewrite (add_edge_some h2 p new _ C2). cbn [bind n_data n_parent n_edges]. set (h3 := h_set h2 p _).
  assert (Ne : ~ In new e) by (intros X; apply Ee in X; destruct X as [X _]; exact (Ci _ X eq_refl)).
  assert (C3 : h_cells h3 p = Some (Cell (NFeature g) (option_map (host G) (par p)) (e ++ [new]))) by (unfold h3; rewrite h_set_same, set_insert_new by exact Ne; reflexivity).
  assert (N3 : h_cells h3 new = Some (Cell (NRelationship k) (Some p) [])) by (unfold h3; rewrite h_set_other by congruence; unfold h2; rewrite h_set_same; reflexivity).
  assert (O3 : forall j, j <> new -> j <> p -> h_cells h3 j = h_cells h j) by (intros j J1 J2; unfold h3; rewrite h_set_other by exact J2; unfold h2; rewrite h_set_other by exact J1; apply O1; exact J1).
  assert (Kids : forall j, In j e -> j <> p /\ j <> new /\ exists f x, h_cells h3 j = Some (Cell (NFeature f) (Some p) x)).
  { intros j J. apply Ee in J. destruct J as [J Pj]. assert (j <> p) as Njp by (intros ->; destruct (Pa p p Ip Pj); contradiction).
    split; [exact Njp|]. split; [apply Ci; exact J|]. destruct (Ce j J) as (f & x & Cj & _). exists f, x. rewrite O3; [|apply Ci; exact J|exact Njp]. rewrite Cj, Pj. cbn [option_map]. rewrite host_head by exact Np. reflexivity. }
  rewrite (children_flat h3 p _ e new k C3 eq_refl De); [|intros j J; destruct (Kids j J) as (_ & _ & f & x & Cj); eauto|exact N3|cbn; lia]. cbn [bind].
  pose proof (ord_ok e) as Pe.
  destruct (regroup_ok p new (NFeature g) (option_map (host G) (par p)) (NRelationship k) (Some p) Pn (ord e) h3 (e ++ [new]) [] C3 N3) as (h' & E & Hn & Hp & Hb & Hc & Ho).
  { cbn [app]. eapply Permutation_NoDup; [apply Permutation_sym; exact Pe|exact De]. }
  { intros x X. apply in_or_app. left. eapply Permutation_in; [exact Pe|exact X]. }
  { intros X. apply (Permutation_in _ Pe) in X. destruct (Kids p X); congruence. }
  { intros X. apply (Permutation_in _ Pe) in X. contradiction. }
  { intros c X. apply (Permutation_in _ Pe) in X. destruct (Kids c X) as (_ & _ & f & x & Cc). eauto. }
  rewrite E. cbn [bind]. exists h'. split; [reflexivity|].
  assert (Same : forall j, j <> p -> j <> new -> ~ In j e -> h_cells h' j = h_cells h j).
  { intros j J1 J2 J3. rewrite Ho; [apply O3; assumption|exact J1|exact J2|]. intros X. apply J3. eapply Permutation_in; [exact Pe|exact X]. }
  assert (Hh : forall i, host (G ++ [((p, k), new)]) i = if Nat.eqb i p then new else host G i) by (intros i; apply host_snoc; exact Np).
  constructor.
  - intros i Li. rewrite Hn in Li. cbn in Li. rewrite Same; [apply Ok; fold new; lia| | |].
    + intros ->. apply (Ci p Ip). pose proof (Ok p) as X. rewrite Cp in X. assert (new <= p) by lia. discriminate (X H).
    + lia.
    + intros X. destruct (Kids i X) as (_ & _ & f & x & C). apply Ee in X. destruct X as [X _]. destruct (Ce i X) as (g0 & e0 & C0 & _). rewrite (Ok i) in C0; [discriminate|fold new; lia].
  - cbn. rewrite Er, map_app. reflexivity.
  - exact Pa.
  - intros i Ii. destruct (Ce i Ii) as (gi & ei & C & Sd & Fe). unfold heads. rewrite map_app. cbn [map fst].
    assert (Hp2 : par i <> Some p -> option_map (host (G ++ [((p, k), new)])) (par i) = option_map (host G) (par i)).
    { intros N. destruct (par i) as [x|]; [|reflexivity]. cbn [option_map]. rewrite Hh. destruct (Nat.eqb_spec x p); [congruence|reflexivity]. }
    destruct (Nat.eq_dec i p) as [->|Nip].
    + eexists. eexists. split; [rewrite Hp, Hp2; [reflexivity|intros X; destruct (Pa p p Ip X); contradiction]|]. split; [exact Sp|]. intros N. exfalso. apply N. apply in_or_app. right. left. reflexivity.
    + destruct (in_dec Nat.eq_dec i e) as [Ie|Ne'].
      * destruct (Kids i Ie) as (_ & _ & f & x & C'). pose proof C' as C''. rewrite O3 in C''; [|apply Ci; exact Ii|exact Nip]. rewrite C in C''. injection C'' as -> _ ->.
        exists f, x. split; [|split; [exact Sd|]].
        -- apply Ee in Ie. destruct Ie as [_ Pi]. rewrite Pi. cbn [option_map]. rewrite Hh, Nat.eqb_refl. apply (Hc i _ _); [|exact C'].
           eapply Permutation_in; [apply Permutation_sym; exact Pe|]. apply Ee. auto.
        -- intros N. apply Fe. intros X. apply N. apply in_or_app. left. exact X.
      * exists gi, ei. split; [|split; [exact Sd|]].
        -- rewrite Same; [|exact Nip|apply Ci; exact Ii|exact Ne']. rewrite C, Hp2; [reflexivity|]. intros X. apply Ne'. apply Ee. auto.
        -- intros N. apply Fe. intros X. apply N. apply in_or_app. left. exact X.
  - intros q k' x X. apply in_app_or in X. destruct X as [X|[X|[]]].
    + destruct (Gr q k' x X) as (Iq & e0 & Cq & Lq). split; [exact Iq|]. exists e0. split; [|exact Lq]. rewrite Same; [exact Cq| | |].
      * intros ->. rewrite Cp in Cq. discriminate.
      * exact (Live _ _ Cq).
      * intros Y. apply Ee in Y. destruct Y as [Y _]. destruct (Ce x Y) as (g0 & e1 & C0 & _). rewrite Cq in C0. discriminate.
    + injection X as <- <- <-. split; [exact Ip|]. exists (ord e). split; [exact Hb|]. intros j Ij Pj. eapply Permutation_in; [apply Permutation_sym; exact Pe|]. apply Ee. auto.
Qed.

Lemma wired_constraint_run h m I dat par d G k c names :
  wired h m I dat par G -> naming m I dat d -> map (cref_name h) (leaves c) = map Some names ->
  exists h' c', exec ord (OAddConstraint k c) (h, m) =
      Some ((h', store_constraint m k (MConstraint (h_next h) c')), if forallb (found m) names then None else Some MISSING_FEATURE) /\
    c' = cmap (target m (cref_name h)) c /\ wired h' (store_constraint m k (MConstraint (h_next h) c')) I dat par G.
Proof.
  intros [Ok Er Pa Ce Gr] Nm E. cbn [exec]. unfold exec_add_constraint. set (h0 := {| h_cells := h_cells h; h_next := S (h_next h) |}).
  destruct (connect_ok m (class_of c) (h_next h) c 0 h0 names) as (h' & E1 & N1 & R1).
  - exact E.
  - intros s i Gs. apply (proj1 Nm) in Gs. destruct Gs as [Ii _]. destruct (Ce i Ii) as (g & e & C & _). exists g. unfold feature_at. change (h_cells h0 i) with (h_cells h i). rewrite C. reflexivity.
  - rewrite E1. cbn [bind]. exists h', (cmap (target m (cref_name h)) c). split; [destruct (forallb (found m) names); reflexivity|]. split; [reflexivity|].
    constructor.
    + intros i Li. rewrite (R1 i). change (h_cells h0 i) with (h_cells h i). rewrite (Ok i); [reflexivity|]. rewrite N1 in Li. cbn in Li. lia.
    + rewrite <- Er. destruct k; reflexivity.
    + exact Pa.
    + intros i Ii. destruct (Ce i Ii) as (g & e & C & Sd & Fe). rewrite (R1 i). change (h_cells h0 i) with (h_cells h i). rewrite C. cbn [option_map n_data n_parent n_edges enlist_at].
      eexists. exists e. split; [reflexivity|]. split; [|exact Fe]. eapply same_data_trans; [exact Sd|]. repeat split.
    + intros p k' q Iq. destruct (Gr p k' q Iq) as (Ip & e & Cq & Lq). split; [exact Ip|]. exists e. split; [|exact Lq]. rewrite (R1 q). change (h_cells h0 q) with (h_cells h q). rewrite Cq. reflexivity.
Qed.

Lemma wired_constraint h m I dat par d G k c :
  wired h m I dat par G -> naming m I dat d -> mentions_declared d c ->
  exists h' x, exec ord (OAddConstraint k c) (h, m) = Some ((h', store_constraint m k x), None) /\ links_to m c x /\
    wired h' (store_constraint m k x) I dat par G.
Proof.
  intros W Nm Mc. destruct (declared_names h d c Mc) as (names & En & On).
  destruct (wired_constraint_run h m I dat par d G k c names W Nm En) as (h' & c' & E & Ec & W').
  assert (forallb (found m) names = true) as F.
  { apply forallb_forall. intros s Is. unfold found. destruct (proj1 (proj2 Nm s) (On s Is)) as (i & ->). reflexivity. }
  rewrite F in E. exists h'. eexists. split; [exact E|]. split; [|exact W'].
  unfold links_to. cbn [c_expr]. rewrite Ec. apply cmap_ext_in. intros r Ir. destruct (Mc r Ir) as (s & -> & _). reflexivity.
Qed.

Lemma wired_relations d I dat par : forall cs h m G rs,
  wired h m I dat par G -> naming m I dat d -> (forall c, In c cs -> relation_ok d c) ->
  Forall2 (corr m) G rs -> NoDup (map fst (rs ++ requests cs)) ->
  exists h' m' G', run ord (relation_ops cs) (h, m) = Some ((h', m'), None) /\ wired h' m' I dat par G' /\
    Forall2 (corr m) G' (rs ++ requests cs) /\ grows m (constraints_of cs) m'.
Proof.
  induction cs as [|c cs IH]; intros h m G rs P Nm O Fg D.
  - exists h, m, G. cbn [requests flat_map] in *. rewrite app_nil_r. split; [reflexivity|]. split; [exact P|]. split; [exact Fg|apply grows_refl].
  - assert (O' : forall c, In c cs -> relation_ok d c) by (intros x X; apply O; right; exact X).
    destruct c as [f|s|p s|k p|k e|s|s|s]; try (apply (IH h m G rs P Nm O' Fg D)).
    + pose proof (O _ (or_introl eq_refl)) as Tp. cbn [relation_ok] in Tp. destruct (proj1 (proj2 Nm p) Tp) as (i & Gi).
      assert (~ In i (heads G)) as Ni.
      { intros X. cbn [requests flat_map] in D. fold (requests cs) in D. rewrite map_app in D. cbn [app map fst] in D.
        apply NoDup_remove_2 in D. apply D. apply in_or_app. left. clear -Fg X Gi Nm.
        induction Fg as [|g r G rs [E1 E2] F IH]; [destruct X|]. destruct X as [X|X]; [|right; apply IH; exact X]. left.
        apply (proj1 Nm) in Gi. apply (proj1 Nm) in E1. destruct Gi as [_ <-]. destruct E1 as [_ <-]. rewrite X. reflexivity. }
      destruct (wired_group h m I dat par d G k p i P Nm Gi Ni) as (h1 & E1 & P1).
      set (m1 := with_relationships m (m_relationships m ++ [h_next h])) in *.
      destruct (IH h1 m1 (G ++ [((i, k), h_next h)]) (rs ++ [(p, k)]) P1 (naming_ext m m1 I dat d eq_refl Nm) O') as (h' & m' & G' & E & P' & F' & Gr).
      * apply Forall2_app; [exact Fg|]. constructor; [|constructor]. split; [exact Gi|reflexivity].
      * rewrite <- app_assoc. exact D.
      * exists h', m', G'. cbn [relation_ops flat_map app run]. rewrite E1. cbn [bind]. split; [exact E|]. split; [exact P'|].
        split; [|exact Gr]. rewrite <- app_assoc in F'. exact F'.
    + pose proof (O _ (or_introl eq_refl)) as Me. cbn [relation_ok] in Me.
      destruct (wired_constraint h m I dat par d G k e P Nm Me) as (h1 & x & E1 & L1 & P1).
      assert (m_features (store_constraint m k x) = m_features m) as Ef by (destruct k; reflexivity).
      destruct (IH h1 (store_constraint m k x) G rs P1 (naming_ext m _ I dat d Ef Nm) O') as (h' & m' & G' & E & P' & F' & Gr).
      * eapply forall2_impl; [|exact Fg]. intros a b [A1 A2]. split; [|exact A2]. unfold get_feature in *. rewrite Ef. exact A1.
      * exact D.
      * exists h', m', G'. cbn [relation_ops flat_map app run]. rewrite E1. cbn [bind]. split; [exact E|]. split; [exact P'|].
        split; [|eapply grows_cons; [exact L1|exact Gr]]. eapply forall2_impl; [|exact F']. intros a b [A1 A2]. split; [|exact A2].
        unfold get_feature in *. rewrite Ef in A1. exact A1.
Qed.

(** ** The rules *)
Lemma filter_one {A} (p : A -> bool) (r : A) l : NoDup l -> In r l -> (forall x, In x l -> (p x = true <-> x = r)) -> List.length (filter p l) = 1.
Proof.
  induction l as [|x l IH]; intros D Ir P; [destruct Ir|]. apply NoDup_cons_iff in D. destruct D as [Nx D]. cbn [filter].
  destruct (p x) eqn:E.
  - apply P in E; [|left; reflexivity]. subst x. cbn [List.length]. f_equal.
    assert (filter p l = []) as ->; [|reflexivity]. destruct (filter p l) as [|y k] eqn:F; [reflexivity|]. exfalso.
    assert (In y (filter p l)) as Y by (rewrite F; left; reflexivity). apply filter_In in Y. destruct Y as [Y1 Y2]. apply P in Y2; [|right; exact Y1]. subst y. contradiction.
  - destruct Ir as [->|Ir]; [exfalso; assert (p r = true) by (apply P; [left; reflexivity|reflexivity]); congruence|]. apply IH; [exact D|exact Ir|]. intros y Y. apply P. right. exact Y.
Qed.
Lemma option_all_some {A} (p : A -> option bool) l : (forall a, In a l -> p a = Some true) -> option_all p l = Some true.
Proof.
  intros H. unfold option_all. induction l as [|a l IH]; [reflexivity|]. cbn [fold_right]. rewrite (H a (or_introl eq_refl)). cbn [bind].
  rewrite IH by (intros b B; apply H; right; exact B). reflexivity.
Qed.

Lemma wired_consistent h m I dat par G r :
  wired h m I dat par G -> Permutation (map snd (m_features m)) I -> NoDup I -> m_root m = Some r -> In r I ->
  (forall i, In i I -> (f_kind (dat i) = FRoot <-> i = r)) -> (forall i, In i I -> i <> r -> par i <> None) ->
  consistent h m = Some true.
Proof.
  intros [Ok Er Pa Ce Gr] Pm D Rm Ir Kr Np.
  assert (Im : forall e, In e (m_features m) -> In (snd e) I) by (intros e X; eapply Permutation_in; [exact Pm|]; apply in_map; exact X).
  assert (Fa : forall i, In i I -> exists g, feature_at h i = Some g /\ (is_root_kind g = true <-> i = r)).
  { intros i Ii. destruct (Ce i Ii) as (g & e & C & Sd & _). exists g. unfold feature_at. rewrite C. split; [reflexivity|]. rewrite <- (Kr i Ii). destruct Sd as (Ek & _). rewrite <- Ek.
    unfold is_root_kind. destruct (f_kind g); split; intros X; try discriminate; reflexivity. }
  assert (Up : forall i, In i I -> i <> r -> exists c q cq p, h_cells h i = Some c /\ n_parent c = Some q /\ h_cells h q = Some cq /\ In i (n_edges cq) /\
     first_feature (S (h_next h)) h (Some q) = Some (Some p)).
  { intros i Ii Ni. destruct (Ce i Ii) as (g & e & C & _). destruct (par i) as [p|] eqn:Pi; [|exfalso; exact (Np i Ii Ni Pi)]. cbn [option_map] in C.
    destruct (Pa i p Ii Pi) as [Ip _]. destruct (Ce p Ip) as (gp & ep & Cp & _ & Ep). eexists. exists (host G p).
    destruct (in_dec Nat.eq_dec p (heads G)) as [Hp|Hp].
    - destruct (host_in G p Hp) as (k & X). destruct (Gr _ _ _ X) as (_ & eq & Cq & Lq). eexists. exists p. split; [exact C|]. split; [reflexivity|]. split; [exact Cq|].
      split; [apply Lq; assumption|]. cbn [first_feature]. rewrite Cq. cbn [bind n_data is_feature n_parent].
      destruct (h_next h) as [|n] eqn:Hn; [rewrite (Ok p) in Cp; [discriminate|lia]|]. cbn [first_feature]. rewrite Cp. reflexivity.
    - rewrite host_head in * by exact Hp. eexists. exists p. split; [exact C|]. split; [reflexivity|]. split; [exact Cp|]. split; [apply (Ep Hp); auto|].
      cbn [first_feature]. rewrite Cp. reflexivity. }
  unfold consistent. assert (one_root h m = Some true) as ->.
  { unfold one_root. rewrite Rm. destruct (Fa r Ir) as (gr & Fr & Kg). rewrite Fr. cbn [bind].
    assert (A : forall l, (forall e, In e l -> In (snd e) I) -> exists fs, fold_right (fun (e : text * nid) o => let* f := feature_at h (snd e) in let* l := o in Some (f :: l)) (Some []) l = Some fs /\
      List.length (filter is_root_kind fs) = List.length (filter (Nat.eqb r) (map snd l))).
    { induction l as [|e l IH]; intros Il; [exists []; split; reflexivity|]. destruct IH as (fs & E & Q); [intros x X; apply Il; right; exact X|].
      destruct (Fa (snd e) (Il e (or_introl eq_refl))) as (g & Fg & Kx). exists (g :: fs). cbn [fold_right map filter]. rewrite Fg, E. cbn [bind]. split; [reflexivity|].
      destruct (Nat.eqb_spec r (snd e)) as [X|X].
      - assert (is_root_kind g = true) as -> by (apply Kx; congruence). cbn [List.length]. rewrite Q. reflexivity.
      - destruct (is_root_kind g) eqn:Y; [exfalso; apply X; symmetry; apply Kx; reflexivity|exact Q]. }
    destruct (A (m_features m) Im) as (fs & -> & Q). cbn [bind]. rewrite (proj2 Kg eq_refl). cbn [andb]. rewrite Q. f_equal. apply Nat.eqb_eq.
    apply (filter_one _ r).
    - eapply Permutation_NoDup; [apply Permutation_sym; exact Pm|exact D].
    - eapply Permutation_in; [apply Permutation_sym; exact Pm|exact Ir].
    - intros x _. rewrite Nat.eqb_eq. split; congruence. }
  cbn [bind negb].
  assert (every_feature_has_parent h m = Some true) as ->.
  { unfold every_feature_has_parent. apply option_all_some. intros e X. destruct (Fa (snd e) (Im e X)) as (g & Fg & Kx). rewrite Fg. cbn [bind].
    destruct (is_root_kind g) eqn:Y; [reflexivity|]. destruct (Up (snd e) (Im e X)) as (c & q & cq & p & C & Pq & Cq & Iq & F); [intros Z; apply Kx in Z; discriminate|].
    unfold parent_feature. rewrite C. cbn [bind]. rewrite Pq, F. reflexivity. }
  cbn [bind negb]. unfold parents_list_children. apply option_all_some. intros e X. destruct (Fa (snd e) (Im e X)) as (g & Fg & Kx). rewrite Fg. cbn [bind].
  destruct (is_root_kind g) eqn:Y; [reflexivity|]. destruct (Up (snd e) (Im e X)) as (c & q & cq & p & C & Pq & Cq & Iq & F); [intros Z; apply Kx in Z; discriminate|].
  rewrite C. cbn [bind]. rewrite Pq. cbn [bind]. rewrite Cq. cbn [bind]. f_equal. apply mem_spec. exact Iq.
Qed.
End Wired.
