(** Building models: groups, constraints, and the whole. *)
From Coq Require Import List Arith Bool Ascii String Permutation Lia.
From Verif Require Import Text TextProofs ConstraintModel ConstraintSpec SourceRangeModel FeatureTreeModel FeatureTreeSpec FeatureTreeProofs FeatureTransactionModel
  FeatureEditSpec FeatureEditProofs FeatureOpsProofs FeatureRemoveProofs FeatureGroupProofs FeatureDataProofs FeatureRootProofs FeatureHistoryProofs
  FeatureTransactionSpec FeatureTransactionFinal FeatureBuildSpec FeatureBuildProofs.
Import ListNotations.

Section Build.
Variable ord : list nid -> list nid.
Hypothesis ord_ok : is_order ord.

(** ** Grouping in terms of parents *)
Lemma group_parent t s k (new : nid) us : NoDup (ids t) -> subtree s t -> Permutation us (kids s) ->
  forall u v, subtree u t -> In v (kids u) ->
  exists u' v', subtree u' (edit (rid s) (with_kids [Node new (NRelationship k) us]) t) /\ In v' (kids u') /\
    rid u' = (if Nat.eqb (rid u) (rid s) then new else rid u) /\ rid v' = rid v /\ rdata v' = rdata v.
Proof.
  intros D S1 P u v U Iv. set (N := Node new (NRelationship k) us).
  assert (forall x, rid (edit (rid s) (with_kids [N]) x) = rid x) as Er.
  { intros [n d ts]. cbn [edit]. destruct (Nat.eqb n (rid s)); reflexivity. }
  assert (forall x, rdata (edit (rid s) (with_kids [N]) x) = rdata x) as Ed.
  { intros [n d ts]. cbn [edit]. destruct (Nat.eqb n (rid s)); reflexivity. }
  assert (subtree N (edit (rid s) (with_kids [N]) t)) as SN.
  { apply (subtree_trans N (with_kids [N] s)); [|apply (subtree_edit _ _ _ _ D S1 eq_refl)]. destruct s as [n d ts].
    unfold with_kids. cbn [rid rdata]. apply subtree_kid. left. reflexivity. }
  destruct (subtree_edited (rid s) (with_kids [N]) s t u D S1 eq_refl U) as [(q & Iq & Uq)|Ue].
  - exists u, v. assert (rid u <> rid s) as Nu.
    { intros E. pose proof (subtree_nodup s t S1 D) as Ds. destruct s as [n d ts]. cbn [ids kids rid] in *.
      apply NoDup_cons_iff in Ds. destruct Ds as [Nn _]. apply Nn. apply in_flat_map. exists q. split; [exact Iq|].
      rewrite <- E. eapply subtree_ids; [exact Uq|apply rid_in_ids]. }
    destruct (Nat.eqb_spec (rid u) (rid s)) as [X|_]; [contradiction|]. split; [|auto].
    eapply subtree_trans; [exact Uq|]. apply (subtree_trans q N); [|exact SN]. unfold N. apply subtree_kid.
    eapply Permutation_in; [apply Permutation_sym; exact P|exact Iq].
  - destruct (Nat.eqb_spec (rid u) (rid s)) as [E|Nu].
    + assert (u = s) as -> by (apply (subtree_unique t); auto). exists N, v. split; [exact SN|]. split; [|auto].
      unfold N. cbn [kids]. eapply Permutation_in; [apply Permutation_sym; exact P|exact Iv].
    + exists (edit (rid s) (with_kids [N]) u), (edit (rid s) (with_kids [N]) v). split; [exact Ue|]. split; [|split; [apply Er|split; [apply Er|apply Ed]]].
      destruct u as [n d ts]. cbn [edit rid kids] in *. destruct (Nat.eqb_spec n (rid s)) as [X|_]; [contradiction|]. apply in_map. exact Iv.
Qed.

Lemma group_cells h m t k s h' m' us : represents h m t -> subtree s t -> Permutation us (kids s) ->
  represents h' m' (edit (rid s) (with_kids [Node (h_next h) (NRelationship k) us]) t) ->
  (forall i c, In i (ids t) -> h_cells h i = Some c -> exists c', h_cells h' i = Some c' /\ n_data c' = n_data c /\
    n_parent c' = option_map (fun p => if Nat.eqb p (rid s) then h_next h else p) (n_parent c)) /\
  exists e, h_cells h' (h_next h) = Some (Cell (NRelationship k) (Some (rid s)) e).
Proof.
  intros R S1 P R'. pose proof (rep_ids _ _ _ R) as D. set (N := Node (h_next h) (NRelationship k) us) in *.
  split.
  - intros i c Ii Ci. apply ids_subtree in Ii. destruct Ii as (v & V & <-).
    destruct (Nat.eq_dec (rid v) (rid t)) as [E|Nv].
    + assert (v = t) as -> by (apply (subtree_unique t); auto; constructor). rewrite (rep_top R) in Ci. injection Ci as <-. cbn [n_data n_parent option_map].
      pose proof (rep_top R') as Ct.
      assert (rid (edit (rid s) (with_kids [N]) t) = rid t) as Er by (destruct t as [n d ts]; cbn [edit]; destruct (Nat.eqb n (rid s)); reflexivity).
      assert (rdata (edit (rid s) (with_kids [N]) t) = rdata t) as Ed by (destruct t as [n d ts]; cbn [edit]; destruct (Nat.eqb n (rid s)); reflexivity).
      rewrite Er, Ed in Ct. eexists. split; [exact Ct|]. split; reflexivity.
    + destruct (subtree_proper v t D V Nv) as (u & U & Iv). rewrite (rep_kid R u v U Iv) in Ci. injection Ci as <-. cbn [n_data n_parent option_map].
      destruct (group_parent t s k (h_next h) us D S1 P u v U Iv) as (u' & v' & U' & Iv' & Eu & Ev & Ed).
      pose proof (rep_kid R' u' v' U' Iv') as Cv. rewrite Ev, Ed, Eu in Cv. eexists. split; [exact Cv|]. split; reflexivity.
  - eexists. pose proof (subtree_edit (rid s) (with_kids [N]) s t D S1 eq_refl) as S2.
    apply (rep_kid R' (with_kids [N] s) N S2). left. reflexivity.
Qed.

(** ** Groups and constraints *)
(** A request for a group: the parent, the kind and the node of the group. *)
Definition group := ((nid * rkind) * nid)%type.
Definition host (G : list group) (p : nid) : nid :=
  match find (fun x : group => Nat.eqb (fst (fst x) : nid) p) G with Some x => snd x | None => p end.

Lemma find_app {A} (p : A -> bool) a b : find p (a ++ b) = match find p a with Some x => Some x | None => find p b end.
Proof. induction a as [|x a IH]; [reflexivity|]. cbn [app find]. destruct (p x); [reflexivity|exact IH]. Qed.
Lemma host_snoc (G : list group) (p : nid) k (q : nid) i : ~ In p (map (fun x : group => fst (fst x)) G) ->
  host (G ++ [((p, k), q)]) i = if Nat.eqb i p then q else host G i.
Proof.
  intros N. unfold host. rewrite find_app. destruct (@find group _ G) as [x|] eqn:F.
  - destruct (Nat.eqb_spec i p) as [->|]; [|reflexivity]. exfalso. apply find_some in F. destruct F as [F E]. apply N.
    apply Nat.eqb_eq in E. rewrite <- E. apply in_map_iff. exists x. auto.
  - cbn [find fst snd]. rewrite (Nat.eqb_sym p i). destruct (Nat.eqb i p); reflexivity.
Qed.

Record placed (h : heap) (m : fmodel) (I : list nid) (dat : nid -> feature) (par : nid -> option nid) (G : list group) : Prop := Placed {
  pl_tree : exists t, represents h m t;
  pl_rels : m_relationships m = map snd G;
  pl_cells : forall i, In i I -> exists g e, h_cells h i = Some (Cell (NFeature g) (option_map (host G) (par i)) e) /\ same_data (dat i) g;
  pl_groups : forall p k q, In ((p, k), q) G -> exists e, h_cells h q = Some (Cell (NRelationship k) (Some p) e)
}.

Lemma same_data_trans a b c : same_data a b -> same_data b c -> same_data a c.
Proof. unfold same_data. intuition congruence. Qed.

Lemma naming_node h m t I dat d i : represents h m t -> naming m I dat d -> In i I ->
  exists s f, subtree s t /\ rid s = i /\ rdata s = NFeature f.
Proof.
  intros R [N1 _] Ii. apply (rep_feature_node R). assert (get_feature m (f_name (dat i)) = Some i) as G by (apply N1; auto).
  apply (rep_find R) in G. apply in_map_iff. exists (f_name (dat i), i). split; [reflexivity|].
  eapply Permutation_in; [apply Permutation_sym; apply (rep_features _ _ _ R)|exact G].
Qed.

Lemma place_group h m I dat par d G k s p :
  placed h m I dat par G -> naming m I dat d -> get_feature m s = Some p -> ~ In p (map (fun x : group => fst (fst x)) G) ->
  exists h', exec ord (OAddRelationship k (ByName s)) (h, m) = Some ((h', with_relationships m (m_relationships m ++ [h_next h])), None) /\
    placed h' (with_relationships m (m_relationships m ++ [h_next h])) I dat par (G ++ [((p, k), h_next h)]).
Proof.
  intros [(t & R) Er C Cg] Nm Gs Np. assert (In p I) as Ip by (apply (proj1 Nm) in Gs; tauto).
  destruct (naming_node h m t I dat d p R Nm Ip) as (u & f & U & <- & Df).
  assert (own_groups (kids u) = []) as Og.
  { apply own_groups_none. apply Forall_forall. intros v V. destruct (rdata v) as [g|kv] eqn:Dv; [reflexivity|]. exfalso. apply Np.
    assert (subtree v t) as Sv by (eapply subtree_trans; [|exact U]; destruct u; apply subtree_kid; exact V).
    assert (In (rid v) (m_relationships m)) as Iv.
    { eapply Permutation_in; [apply Permutation_sym; apply (rep_groups _ _ _ R)|]. apply groups_subtree. exists v, kv. auto. }
    rewrite Er in Iv. apply in_map_iff in Iv. destruct Iv as ([[p k'] q] & E & Iq). cbn [snd] in E. subst q.
    destruct (Cg p k' (rid v) Iq) as (e & Cv). rewrite (rep_kid R u v U V) in Cv. injection Cv as E1 E2 E3.
    apply in_map_iff. exists ((p, k'), rid v). split; [cbn; congruence|exact Iq]. }
  destruct (exec_add_relationship_ok ord ord_ok h m t k (ByName s) u R Gs U) as (h' & us & E & P & R' & _).
  { rewrite Df. reflexivity. }
  { exact Og. }
  exists h'. split; [exact E|]. destruct (group_cells h m t k u h' _ us R U P R') as [M (e & Cn)].
  constructor.
  - eexists. exact R'.
  - cbn [m_relationships with_relationships]. rewrite Er, map_app. reflexivity.
  - intros i Ii. destruct (C i Ii) as (g & e0 & Ci & Sd). destruct (naming_node h m t I dat d i R Nm Ii) as (v & fv & V & Ev & _).
    assert (In i (ids t)) as It by (rewrite <- Ev; eapply subtree_ids; [exact V|apply rid_in_ids]).
    destruct (M i _ It Ci) as ([d' p' e'] & Ci' & E1 & E2). cbn [n_data n_parent] in *. subst d' p'. exists g, e'. split; [|exact Sd].
    rewrite Ci'. do 2 f_equal. destruct (par i) as [pi|] eqn:Ep; [|reflexivity]. cbn [option_map]. f_equal.
    rewrite host_snoc by exact Np. destruct (Nat.eqb_spec pi (rid u)) as [->|Ni].
    + unfold host. destruct (@find group _ G) as [x|] eqn:F.
      * exfalso. apply find_some in F. destruct F as [F X]. apply Nat.eqb_eq in X. apply Np. rewrite <- X. apply in_map_iff. exists x. auto.
      * rewrite Nat.eqb_refl. reflexivity.
    + destruct (Nat.eqb_spec (host G pi) (rid u)) as [X|_]; [|reflexivity]. exfalso. unfold host in X. destruct (@find group _ G) as [[[p k'] q]|] eqn:F.
      * cbn [snd] in X. subst q. apply find_some in F. destruct F as [F _]. destruct (Cg p k' (rid u) F) as (e1 & Cu).
        destruct (rep_cell R u U) as (q & Cu'). rewrite Cu in Cu'. injection Cu' as X _ _. congruence.
      * congruence.
  - intros p k' q Iq. apply in_app_or in Iq. destruct Iq as [Iq|[Eq|[]]].
    + destruct (Cg p k' q Iq) as (e1 & Cq).
      assert (In q (ids t)) as It.
      { apply (rep_node R). unfold nodes. apply in_or_app. right. rewrite Er. apply in_map_iff. exists ((p, k'), q). auto. }
      destruct (M q _ It Cq) as ([d' p' e'] & Ci' & E1 & E2). cbn [n_data n_parent] in *. subst d' p'. exists e'. rewrite Ci'. do 2 f_equal.
      cbn [option_map]. f_equal. destruct (Nat.eqb_spec p (rid u)) as [->|_]; [|reflexivity]. exfalso. apply Np. apply in_map_iff. exists ((rid u, k'), q). auto.
    + injection Eq as <- <- <-. exists e. exact Cn.
Qed.

Lemma cmap_ext_in {A B} (f g : A -> B) (c : cexpr A) : (forall x, In x (leaves c) -> f x = g x) -> cmap f c = cmap g c.
Proof.
  induction c as [o l IHl r IHr|o e IH|n|x]; cbn [leaves cmap]; intros E.
  - rewrite IHl, IHr; [reflexivity| |]; intros x X; apply E; apply in_or_app; auto.
  - rewrite IH; [reflexivity|exact E].
  - reflexivity.
  - rewrite E; [reflexivity|left; reflexivity].
Qed.

Lemma declared_names h d (c : cexpr cref) : mentions_declared d c ->
  exists names, map (cref_name h) (leaves c) = map Some names /\ forall s, In s names -> taken d s.
Proof.
  unfold mentions_declared. induction (leaves c) as [|r l IH]; intros M; [exists []; split; [reflexivity|intros s []]|].
  destruct IH as (names & E & O); [intros x X; apply M; right; exact X|]. destruct (M r (or_introl eq_refl)) as (s & -> & Ts).
  exists (s :: names). split; [cbn; rewrite E; reflexivity|]. intros x [<-|X]; [exact Ts|apply O; exact X].
Qed.

Lemma place_constraint h m I dat par d G k c :
  placed h m I dat par G -> naming m I dat d -> mentions_declared d c ->
  exists h' x, exec ord (OAddConstraint k c) (h, m) = Some ((h', store_constraint m k x), None) /\ links_to m c x /\
    placed h' (store_constraint m k x) I dat par G.
Proof.
  intros [(t & R) Er C Cg] Nm Mc. destruct (declared_names h d c Mc) as (names & En & On).
  destruct (exec_add_constraint_ok ord h m t k c names R En) as (h' & c' & E & Ec & _ & Rl & R').
  assert (forallb (found m) names = true) as F.
  { apply forallb_forall. intros s Is. unfold found. destruct (proj1 (proj2 Nm s) (On s Is)) as (i & ->). reflexivity. }
  rewrite F in E. exists h'. eexists. split; [exact E|]. split.
  - unfold links_to. cbn [c_expr]. rewrite Ec. apply cmap_ext_in. intros r Ir. destruct (Mc r Ir) as (s & -> & _). reflexivity.
  - constructor.
    + eexists. exact R'.
    + rewrite <- Er. destruct k; reflexivity.
    + intros i Ii. destruct (C i Ii) as (g & e & Ci & Sd). rewrite (Rl i), Ci. cbn [option_map n_data n_parent n_edges enlist_at].
      eexists. eexists. split; [reflexivity|]. eapply same_data_trans; [exact Sd|]. repeat split.
    + intros p k' q Iq. destruct (Cg p k' q Iq) as (e & Cq). rewrite (Rl q), Cq. cbn [option_map n_data n_parent n_edges enlist_at]. eauto.
Qed.

Definition bools (xs : list (ckind * cexpr cref)) := flat_map (fun x => match fst x with KBoolean => [snd x] | _ => [] end) xs.
Definition nonbools (xs : list (ckind * cexpr cref)) := flat_map (fun x => match fst x with KNonBoolean => [snd x] | _ => [] end) xs.
Definition mixeds (xs : list (ckind * cexpr cref)) := flat_map (fun x => match fst x with KMixed r k => [((r, k), snd x)] | _ => [] end) xs.
Definition mixed_as (m : fmodel) x (y : mixed) : Prop := links_to m (snd x) (x_con y) /\ x_req y = fst (fst x) /\ x_kind y = snd (fst x).

Definition grows (m : fmodel) (xs : list (ckind * cexpr cref)) (m' : fmodel) : Prop :=
  m_name m' = m_name m /\ m_commit m' = m_commit m /\ m_path m' = m_path m /\ m_features m' = m_features m /\ m_root m' = m_root m /\
  (exists b, m_boolean m' = m_boolean m ++ b /\ Forall2 (links_to m) (bools xs) b) /\
  (exists n, m_nonboolean m' = m_nonboolean m ++ n /\ Forall2 (links_to m) (nonbools xs) n) /\
  (exists x, m_mixed m' = m_mixed m ++ x /\ Forall2 (mixed_as m) (mixeds xs) x).

Lemma links_to_ext m m' : m_features m' = m_features m -> forall e c, links_to m' e c -> links_to m e c.
Proof.
  intros E e c. unfold links_to. intros ->. apply cmap_ext_in. intros r _. unfold pointing, get_feature. rewrite E. reflexivity.
Qed.
Lemma forall2_impl {A B} (P Q : A -> B -> Prop) a b : (forall x y, P x y -> Q x y) -> Forall2 P a b -> Forall2 Q a b.
Proof. intros E. induction 1; constructor; auto. Qed.

Lemma grows_refl m : grows m [] m.
Proof. repeat split; exists []; split; try (rewrite app_nil_r; reflexivity); constructor. Qed.
Lemma grows_rel m l xs m' : grows (with_relationships m l) xs m' -> grows m xs m'.
Proof. exact (fun x => x). Qed.
Lemma grows_cons m k c x xs m' : links_to m c x -> grows (store_constraint m k x) xs m' -> grows m ((k, c) :: xs) m'.
Proof.
  intros L (E1 & E2 & E3 & E4 & E5 & (b & Eb & Fb) & (n & En & Fn) & (y & Ey & Fy)).
  assert (m_features (store_constraint m k x) = m_features m) as Ef by (destruct k; reflexivity).
  pose proof (links_to_ext m _ Ef) as LE. pose proof (forall2_impl _ _ _ _ LE Fb) as Gb. pose proof (forall2_impl _ _ _ _ LE Fn) as Gn.
  assert (Forall2 (mixed_as m) (mixeds xs) y) as Gy.
  { eapply forall2_impl; [|exact Fy]. intros a c0 (A1 & A2 & A3). split; [apply LE; exact A1|auto]. }
  destruct k as [| |r e]; cbn [store_constraint with_boolean with_nonboolean with_mixed m_name m_commit m_path m_features m_root m_boolean m_nonboolean m_mixed] in *.
  - repeat split; auto; try congruence.
    + exists (x :: b). rewrite Eb, <- app_assoc. split; [reflexivity|]. cbn. constructor; assumption.
    + exists n. auto.
    + exists y. auto.
  - repeat split; auto; try congruence.
    + exists b. auto.
    + exists (x :: n). rewrite En, <- app_assoc. split; [reflexivity|]. cbn. constructor; assumption.
    + exists y. auto.
  - repeat split; auto; try congruence.
    + exists b. auto.
    + exists n. auto.
    + exists (Mixed x r e :: y). rewrite Ey, <- app_assoc. split; [reflexivity|]. cbn. constructor; [repeat split; assumption|assumption].
Qed.

Definition corr (m : fmodel) (g : group) (r : text * rkind) : Prop := get_feature m (fst r) = Some (fst (fst g)) /\ snd (fst g) = snd r.

Lemma relations_run d I dat par : forall cs h m G rs,
  placed h m I dat par G -> naming m I dat d -> (forall c, In c cs -> relation_ok d c) ->
  Forall2 (corr m) G rs -> NoDup (map fst (rs ++ requests cs)) ->
  exists h' m' G', run ord (relation_ops cs) (h, m) = Some ((h', m'), None) /\ placed h' m' I dat par G' /\
    Forall2 (corr m) G' (rs ++ requests cs) /\ grows m (constraints_of cs) m'.
Proof.
  induction cs as [|c cs IH]; intros h m G rs P Nm O Fg D.
  - exists h, m, G. cbn [requests flat_map] in *. rewrite app_nil_r. split; [reflexivity|]. split; [exact P|]. split; [exact Fg|apply grows_refl].
  - assert (O' : forall c, In c cs -> relation_ok d c) by (intros x X; apply O; right; exact X).
    destruct c as [f|s|p s|k p|k e|s|s|s]; try (apply (IH h m G rs P Nm O' Fg D)).
    + pose proof (O _ (or_introl eq_refl)) as Tp. cbn [relation_ok] in Tp. destruct (proj1 (proj2 Nm p) Tp) as (i & Gi).
      assert (~ In i (map (fun x : group => fst (fst x)) G)) as Ni.
      { intros X. cbn [requests flat_map] in D. fold (requests cs) in D. rewrite map_app in D. cbn [app map fst] in D.
        apply NoDup_remove_2 in D. apply D. apply in_or_app. left. clear -Fg X Gi Nm.
        induction Fg as [|g r G rs [E1 E2] F IH]; [destruct X|]. destruct X as [X|X]; [|right; apply IH; exact X]. left.
        apply (proj1 Nm) in Gi. apply (proj1 Nm) in E1. destruct Gi as [_ <-]. destruct E1 as [_ <-]. rewrite X. reflexivity. }
      destruct (place_group h m I dat par d G k p i P Nm Gi Ni) as (h1 & E1 & P1).
      set (m1 := with_relationships m (m_relationships m ++ [h_next h])) in *.
      destruct (IH h1 m1 (G ++ [((i, k), h_next h)]) (rs ++ [(p, k)]) P1 (naming_ext m m1 I dat d eq_refl Nm) O') as (h' & m' & G' & E & P' & F' & Gr).
      * apply Forall2_app; [exact Fg|]. constructor; [|constructor]. split; [exact Gi|reflexivity].
      * rewrite <- app_assoc. exact D.
      * exists h', m', G'. cbn [relation_ops flat_map app run]. rewrite E1. cbn [bind]. split; [exact E|]. split; [exact P'|].
        split; [|exact Gr]. rewrite <- app_assoc in F'. exact F'.
    + pose proof (O _ (or_introl eq_refl)) as Me. cbn [relation_ok] in Me.
      destruct (place_constraint h m I dat par d G k e P Nm Me) as (h1 & x & E1 & L1 & P1).
      assert (m_features (store_constraint m k x) = m_features m) as Ef by (destruct k; reflexivity).
      destruct (IH h1 (store_constraint m k x) G rs P1 (naming_ext m _ I dat d Ef Nm) O') as (h' & m' & G' & E & P' & F' & Gr).
      * eapply forall2_impl; [|exact Fg]. intros a b [A1 A2]. split; [|exact A2]. unfold get_feature in *. rewrite Ef. exact A1.
      * exact D.
      * exists h', m', G'. cbn [relation_ops flat_map app run]. rewrite E1. cbn [bind]. split; [exact E|]. split; [exact P'|].
        split; [|eapply grows_cons; [exact L1|exact Gr]]. eapply forall2_impl; [|exact F']. intros a b [A1 A2]. split; [|exact A2].
        unfold get_feature in *. rewrite Ef in A1. exact A1.
Qed.

(** ** From declarations to links *)
Definition flat_dat (r : nid) (s : text) (L : list (nid * feature)) (i : nid) : feature :=
  if Nat.eqb i r then root_feature s else match find (fun e => Nat.eqb (fst e) i) L with Some e => snd e | None => root_feature s end.
Definition flat_par (r i : nid) : option nid := if Nat.eqb i r then None else Some r.
Definition flat_ed (r : nid) (L : list (nid * feature)) (i : nid) : list nid := if Nat.eqb i r then map fst L else [].

Lemma flat_dat_in r s L i f : NoDup (r :: map fst L) -> In (i, f) L -> i <> r /\ flat_dat r s L i = f.
Proof.
  intros D X. apply NoDup_cons_iff in D. destruct D as [Nr D]. assert (i <> r) as N.
  { intros ->. apply Nr. apply in_map_iff. exists (r, f). auto. }
  split; [exact N|]. unfold flat_dat. destruct (Nat.eqb_spec i r) as [E|_]; [contradiction|]. clear Nr N.
  induction L as [|[j g] L IH]; [destruct X|]. cbn [find fst snd]. apply NoDup_cons_iff in D. cbn [fst map] in D. destruct D as [Nj D].
  destruct (Nat.eqb_spec j i) as [->|Nji].
  - destruct X as [X|X]; [injection X as X; exact X|]. exfalso. apply Nj. apply in_map_iff. exists (i, f). auto.
  - destruct X as [X|X]; [injection X as X _; contradiction|]. apply IH; assumption.
Qed.

Lemma flat_linked h m r s L : represents h m (flat r s L) ->
  linked h (r :: map fst L) (flat_dat r s L) (flat_par r) (flat_ed r L) /\ naming m (r :: map fst L) (flat_dat r s L) (s, map snd L) /\
  Permutation (m_features m) (map (fun j => (f_name (flat_dat r s L j), j)) (r :: map fst L)) /\
  (forall e, In e L -> flat_dat r s L (fst e) = snd e).
Proof.
  intros R. pose proof (rep_ids _ _ _ R) as D. rewrite ids_flat in D.
  assert (Dr : flat_dat r s L r = root_feature s) by (unfold flat_dat; rewrite Nat.eqb_refl; reflexivity).
  assert (Nr : forall j, In j (map fst L) -> j <> r) by (intros j J ->; apply NoDup_cons_iff in D; tauto).
  assert (A : forall e, In e L -> flat_dat r s L (fst e) = snd e) by (intros [i f] X; apply (flat_dat_in r s L i f D X)).
  assert (Pf : Permutation (m_features m) (map (fun j => (f_name (flat_dat r s L j), j)) (r :: map fst L))).
  { rewrite (rep_features _ _ _ R), named_flat. cbn [map]. rewrite Dr. cbn [root_feature f_name new_feature]. rewrite map_map.
    apply Permutation_refl'. f_equal. apply map_ext_in. intros e X. rewrite (A e X). reflexivity. }
  split; [|split; [|split; [exact Pf|exact A]]].
  - constructor.
    + apply (rep_ok _ _ _ R).
    + intros i [<-|Ii].
      * rewrite Dr. unfold flat_par, flat_ed. rewrite Nat.eqb_refl. rewrite (rep_top R : h_cells h r = _). cbn [flat rdata kids]. do 2 f_equal.
        rewrite map_map. apply map_ext. reflexivity.
      * apply in_map_iff in Ii. destruct Ii as (e & <- & Ie). rewrite (A e Ie). pose proof (Nr (fst e) (in_map fst L e Ie)) as Ne.
        unfold flat_par, flat_ed. destruct (Nat.eqb_spec (fst e) r) as [X|_]; [contradiction|].
        apply (rep_kid R (flat r s L) (leaf e)); [constructor|]. cbn [flat kids]. apply in_map. exact Ie.
    + intros i _. unfold flat_ed. destruct (Nat.eqb i r); [apply NoDup_cons_iff in D; tauto|constructor].
    + intros i j _. unfold flat_ed, flat_par. destruct (Nat.eqb_spec i r) as [->|Ni].
      * split.
        -- intros J. split; [right; exact J|]. pose proof (Nr j J). destruct (Nat.eqb_spec j r); [contradiction|reflexivity].
        -- intros [[<-|J] X]; [rewrite Nat.eqb_refl in X; discriminate|exact J].
      * split; [intros []|]. intros [_ X]. destruct (Nat.eqb j r); [discriminate|]. congruence.
    + intros i p _ X. unfold flat_par in X. destruct (Nat.eqb i r); [discriminate|]. injection X as <-. left. reflexivity.
  - assert (N1 : forall t i, get_feature m t = Some i <-> In i (r :: map fst L) /\ f_name (flat_dat r s L i) = t).
    { intros t i. unfold get_feature. rewrite find_name_in by (apply (rep_keys R)). split; intros X.
      - eapply Permutation_in in X; [|exact Pf]. apply in_map_iff in X. destruct X as (j & E & J). injection E as <- <-. auto.
      - destruct X as [X <-]. eapply Permutation_in; [apply Permutation_sym; exact Pf|]. apply in_map_iff. exists i. auto. }
    split; [exact N1|]. intros t. pose proof (flat_taken _ _ _ _ _ t R) as F. destruct (get_feature m t) as [i|] eqn:G.
    + split; [intros _; eauto|]. intros _. apply N1 in G. destruct G as [[<-|Ii] <-].
      * left. rewrite Dr. reflexivity.
      * right. cbn [snd]. apply in_map_iff in Ii. destruct Ii as (e & <- & Ie). rewrite (A e Ie). rewrite map_map. apply in_map_iff. exists e. auto.
    + split; [intros X; exfalso; apply (proj1 F eq_refl); exact X|]. intros (i & X). discriminate.
Qed.

(** ** The whole *)
Lemma commit_ok q w w' t : run ord q w = Some (w', None) -> represents (fst w') (snd w') t ->
  commit_modify ord (Mtx true q) w = Some (Mtx false q, w', None).
Proof.
  intros E R. unfold commit_modify. cbn [t_open t_queue]. rewrite E. cbn [bind]. rewrite (represents_consistent _ _ _ R). reflexivity.
Qed.
Lemma commit_error q w w' e : run ord q w = Some (w', Some e) -> commit_modify ord (Mtx true q) w = Some (Mtx false q, w', Some e).
Proof. intros E. unfold commit_modify. cbn [t_open t_queue]. rewrite E. reflexivity. Qed.

Lemma declared h cs d : heap_ok h -> declares (default_root, []) cs d -> (forall c, In c cs -> ordinary c) ->
  exists h' m' L r, run ord (feature_ops cs) (new_model h) = Some ((h', m'), None) /\ represents h' m' (flat r (fst d) L) /\ map snd L = snd d /\
    same_rest (snd (new_model h)) m' /\ m_relationships m' = [].
Proof.
  intros K D O. pose proof (represents_new h (T "FeatureModel") default_root [] [] K) as R.
  change (new_model_with h (T "FeatureModel") default_root [] []) with (new_model h) in R.
  destruct (new_model h) as [h0 m0] eqn:E0. cbn [fst snd] in R |- *.
  destruct (declare_run ord cs _ d h0 m0 [] (h_next h) D O eq_refl R) as (h' & m' & L & r & E & R' & EL & S & Er).
  exists h', m', L, r. split; [exact E|]. split; [exact R'|]. split; [exact EL|]. split; [exact S|]. rewrite Er.
  unfold new_model, new_model_with in E0. destruct (h_alloc h _) in E0. injection E0 as _ <-. reflexivity.
Qed.

Lemma build_calls_queues h cs : build_calls ord h cs =
  let* (h2, m, _) := build ord (fst (new_model h))
    (Builder (Some (snd (new_model h))) (Mtx true (feature_ops cs)) (Mtx true (tree_ops cs)) (Mtx true (relation_ops cs))) in Some (h2, m).
Proof.
  unfold build_calls, builder_start. destruct (new_model h) as [h1 m]. cbn [fst snd]. unfold mtx_start. rewrite builder_queues. reflexivity.
Qed.

Lemma last_edge_taken d : forall cs s t, (forall c, In c cs -> edge_ok d c) -> taken d t -> taken d (last_edge cs s t).
Proof.
  induction cs as [|c cs IH]; intros s t O Tt; [exact Tt|]. assert (O' : forall c, In c cs -> edge_ok d c) by (intros x X; apply O; right; exact X).
  destruct c as [f|u|p u|k p|k e|u|u|u]; cbn [last_edge]; try (apply IH; assumption). apply IH; [exact O'|].
  destruct (text_eqb u s); [|exact Tt]. apply (O _ (or_introl eq_refl)).
Qed.

Lemma leads_dep m r I dat par cs d : naming m I dat d -> In r I -> f_name (dat r) = fst d -> (forall c, In c cs -> edge_ok d c) ->
  (forall i, In i I -> i <> r -> par i = get_feature m (last_edge cs (f_name (dat i)) (fst d))) ->
  forall s, leads (fun s => last_edge cs s (fst d)) (fst d) s -> forall i, get_feature m s = Some i -> exists k, dep par r i k.
Proof.
  intros Nm Ir Nr O P s Le. induction Le as [|s Le IH]; intros i G.
  - assert (i = r) as -> by (assert (get_feature m (fst d) = Some r) as X by (apply (proj1 Nm); auto); congruence). exists 0. constructor.
  - destruct (Nat.eq_dec i r) as [->|N]; [exists 0; constructor|]. pose proof (proj1 (proj1 Nm s i) G) as [Ii <-].
    pose proof (P i Ii N) as Pi. assert (taken d (last_edge cs (f_name (dat i)) (fst d))) as Tk by (apply last_edge_taken; [exact O|left; reflexivity]).
    destruct (proj1 (proj2 Nm _) Tk) as (p & Gp). rewrite Gp in Pi. destruct (IH p Gp) as (k & D). exists (S k). eapply dep_up; eassumption.
Qed.

Lemma declares_from cs d e f : declares d cs e -> In f (snd e) -> In f (snd d) \/ In (BFeature f) cs.
Proof.
  induction 1 as [d|root fs g cs d N D IH|root fs cs d D IH|root fs s cs d N D IH|d c cs e C D IH]; intros X; cbn [snd] in *.
  - left. exact X.
  - destruct (IH X) as [Y|Y]; [|right; right; exact Y]. apply in_app_or in Y. destruct Y as [Y|[->|[]]]; [left; exact Y|right; left; reflexivity].
  - destruct (IH X) as [Y|Y]; [left; exact Y|right; right; exact Y].
  - destruct (IH X) as [Y|Y]; [left; exact Y|right; right; exact Y].
  - destruct (IH X) as [Y|Y]; [left; exact Y|right; right; exact Y].
Qed.

Lemma request_host m I dat d G rs s p : naming m I dat d -> Forall2 (corr m) G rs -> get_feature m s = Some p ->
  match request_for rs s with None => host G p = p | Some k => In ((p, k), host G p) G end.
Proof.
  intros Nm F Gs. induction F as [|g [t k] G rs [E1 E2] F IH]; [reflexivity|]. cbn [request_for fst snd] in *. unfold host in *. cbn [find].
  destruct (text_eqb t s) eqn:Et.
  - apply text_eqb_eq in Et. subst t. assert (fst (fst g) = p) as -> by congruence. rewrite Nat.eqb_refl. left. destruct g as [[a b] c]. cbn in *. congruence.
  - assert (fst (fst g) <> p) as N.
    { intros X. rewrite X in E1. apply (proj1 Nm) in E1. apply (proj1 Nm) in Gs. destruct E1 as [_ <-], Gs as [_ <-].
      assert (text_eqb (f_name (dat p)) (f_name (dat p)) = true) by (apply text_eqb_eq; reflexivity). congruence. }
    destruct (Nat.eqb_spec (fst (fst g)) p) as [X|_]; [contradiction|].
    destruct (request_for rs s); [right|]; exact IH.
Qed.

Lemma built_steps h cs d : heap_ok h -> describes cs d ->
  exists w1 t1 w2 t2 h' m' t3,
    (run ord (feature_ops cs) (new_model h) = Some (w1, None) /\ represents (fst w1) (snd w1) t1 /\
     run ord (tree_ops cs) w1 = Some (w2, None) /\ represents (fst w2) (snd w2) t2 /\
     run ord (relation_ops cs) w2 = Some ((h', m'), None) /\ represents h' m' t3 /\
     forall s, taken d s <-> exists i, get_feature m' s = Some i) /\ as_described cs d h' m' /\ heap_ok h'.
Proof.
  intros K [Dd Do De Dr Dt Drel Dg].
  destruct (declared h cs d K Dd Do) as (h1 & m1 & L & r & E1 & R1 & EL & S1 & Rel1).
  destruct (flat_linked h1 m1 r (fst d) L R1) as (Li1 & Nm & Pf & A). rewrite EL, <- surjective_pairing in Nm.
  set (I := r :: map fst L) in *. set (dat := flat_dat r (fst d) L) in *.
  assert (Dn : dat r = root_feature (fst d)) by (unfold dat, flat_dat; rewrite Nat.eqb_refl; reflexivity).
  assert (Ir : In r I) by (left; reflexivity).
  pose proof (rep_ids _ _ _ R1) as DI. rewrite ids_flat in DI. fold I in DI.
  assert (Gr : get_feature m1 (fst d) = Some r) by (apply (proj1 Nm); split; [exact Ir|rewrite Dn; reflexivity]).
  destruct (edges_run ord d I dat cs h1 m1 (flat_par r) (flat_ed r L) Li1 Nm De) as (h2 & m2 & par & ed & E2 & Li2 & S2 & P2 & Q2).
  assert (Pr : par r = None).
  { rewrite (Q2 r Ir); [unfold flat_par; rewrite Nat.eqb_refl; reflexivity|]. intros p s X. rewrite Dn. cbn. exact (Dr p s X). }
  assert (Pi : forall i, In i I -> i <> r -> par i = get_feature m1 (last_edge cs (f_name (dat i)) (fst d))).
  { intros i Ii Ni. apply P2; [exact Ii|]. unfold flat_par. destruct (Nat.eqb_spec i r); [contradiction|]. symmetry. exact Gr. }
  destruct S2 as (Sn & Sc & Sp & Sr & Sf & Srel & Sb & Snb & Sm).
  assert (Nm2 : naming m2 I dat d) by (apply (naming_ext m1); assumption).
  assert (Fd : forall i, In i I -> i <> r -> In (dat i) (snd d)).
  { intros i [<-|Ii] Ni; [contradiction|]. apply in_map_iff in Ii. destruct Ii as (e & <- & Ie). rewrite (A e Ie), <- EL. apply in_map. exact Ie. }
  assert (Kr : forall i, In i I -> (f_kind (dat i) = FRoot <-> i = r)).
  { intros i Ii. split; intros X; [|subst i; rewrite Dn; reflexivity]. destruct (Nat.eq_dec i r) as [->|Ni]; [reflexivity|]. exfalso.
    destruct (declares_from cs _ d (dat i) Dd (Fd i Ii Ni)) as [Y|Y]; [destruct Y|]. exact (Do _ Y X). }
  assert (Ad : forall i, In i I -> exists k, dep par r i k).
  { intros i Ii. destruct (Nat.eq_dec i r) as [->|Ni]; [exists 0; constructor|].
    apply (leads_dep m1 r I dat par cs d Nm Ir) with (s := f_name (dat i)); [rewrite Dn; reflexivity|exact De|exact Pi| |].
    - apply Dt. apply Fd; assumption.
    - apply (proj1 Nm). auto. }
  destruct (linked_represents I dat par ed r Pr Ir Ad h2 Li2 m2 DI) as (t2 & R2 & _ & _).
  { rewrite Sr. exact (rep_root _ _ _ R1). }
  { rewrite Sf. exact Pf. }
  { pose proof (rep_keys R1) as X. apply (Permutation_map fst) in Pf. rewrite map_map in Pf. cbn [fst] in Pf. eapply Permutation_NoDup; [exact Pf|exact X]. }
  { congruence. }
  { exact Kr. }
  assert (Pl2 : placed h2 m2 I dat par []).
  { constructor.
    - eexists. exact R2.
    - cbn. congruence.
    - intros i Ii. exists (dat i), (ed i). split; [|repeat split]. rewrite (li_cells _ _ _ _ _ Li2 i Ii). do 2 f_equal. destruct (par i); reflexivity.
    - intros p k q []. }
  destruct (relations_run d I dat par cs h2 m2 [] [] Pl2 Nm2 Drel (Forall2_nil _) Dg) as (h3 & m3 & G & E3 & Pl3 & Fg & Gw).
  destruct (pl_tree _ _ _ _ _ _ Pl3) as (t3 & R3).
  exists (h1, m1), (flat r (fst d) L), (h2, m2), t2, h3, m3, t3. split.
  { split; [exact E1|]. split; [exact R1|]. split; [exact E2|]. split; [exact R2|]. split; [exact E3|]. split; [exact R3|].
    intros s. rewrite (proj2 Nm2 s). destruct Gw as (_ & _ & _ & Wf & _). unfold get_feature. rewrite Wf. reflexivity. }
  destruct Gw as (Wn & Wc & Wp & Wf & Wr & (b & Wb & Fb) & (n & Wnb & Fn) & (x & Wm & Fx)).
  destruct S1 as (Tn & Tp & Tc & Tb & Tnb & Tm).
  assert (Ef : m_features m3 = m_features m1) by congruence.
  assert (Ge : forall s, get_feature m3 s = get_feature m1 s) by (intros s; unfold get_feature; rewrite Ef; reflexivity).
  assert (Ge2 : forall s, get_feature m2 s = get_feature m1 s) by (intros s; unfold get_feature; rewrite Sf; reflexivity).
  assert (Le : forall e c, links_to m2 e c -> links_to m3 e c) by (apply links_to_ext; congruence).
  split; [|exact (rep_ok _ _ _ R3)]. constructor.
  - exact (represents_tree_shaped _ _ _ R3).
  - exists t3. exact R3.
  - exact (represents_consistent _ _ _ R3).
  - rewrite Wn, Sn, Tn. reflexivity.
  - rewrite Wc, Sc, Tc. reflexivity.
  - rewrite Wp, Sp, Tp. reflexivity.
  - rewrite Ef. pose proof (Permutation_map fst Pf) as Pm. rewrite map_map in Pm. cbn [fst] in Pm. rewrite Pm. unfold I. cbn [map].
    rewrite Dn. cbn [root_feature f_name new_feature]. apply Permutation_refl'. f_equal. rewrite <- EL, !map_map. apply map_ext_in.
    intros e Ie. rewrite (A e Ie). reflexivity.
  - destruct (pl_cells _ _ _ _ _ _ Pl3 r Ir) as (g & e & Cr & Sd). exists r, g. split; [rewrite Wr, Sr; exact (rep_root _ _ _ R1)|].
    split; [rewrite Ge; exact Gr|]. split; [unfold feature_at; rewrite Cr; reflexivity|]. rewrite <- Dn. exact Sd.
  - intros f If. rewrite <- EL in If. apply in_map_iff in If. destruct If as (e & <- & Ie).
    assert (In (fst e) I) as Ii by (right; apply in_map; exact Ie). destruct (pl_cells _ _ _ _ _ _ Pl3 _ Ii) as (g & e0 & Ci & Sd).
    rewrite (A e Ie) in Sd. exists (fst e), g. split; [rewrite Ge; apply (proj1 Nm); split; [exact Ii|rewrite (A e Ie); reflexivity]|].
    split; [unfold feature_at; rewrite Ci; reflexivity|exact Sd].
  - intros f If s. rewrite <- EL in If. apply in_map_iff in If. destruct If as (e & <- & Ie).
    assert (In (fst e) I) as Ii by (right; apply in_map; exact Ie). pose proof DI as DI'. apply NoDup_cons_iff in DI'.
    assert (fst e <> r) as Ni by (intros X; apply (proj1 DI'); rewrite <- X; apply in_map; exact Ie).
    assert (Ed : dat (fst e) = snd e) by (apply A; exact Ie).
    assert (taken d s) as Ts by (apply last_edge_taken; [exact De|left; reflexivity]). destruct (proj1 (proj2 Nm s) Ts) as (p & Gp).
    pose proof (Pi (fst e) Ii Ni) as Pe. rewrite Ed in Pe. fold s in Pe. rewrite Gp in Pe.
    exists (fst e), p. split; [rewrite Ge; apply (proj1 Nm); split; [exact Ii|rewrite Ed; reflexivity]|]. split; [rewrite Ge; exact Gp|].
    destruct (pl_cells _ _ _ _ _ _ Pl3 _ Ii) as (g & e0 & Ci & _). rewrite Pe in Ci. cbn [option_map] in Ci. unfold hangs.
    eexists. split; [exact Ci|]. cbn [n_parent].
    assert (get_feature m2 s = Some p) as Gp2 by (rewrite Ge2; exact Gp).
    pose proof (request_host m2 I dat d G (requests cs) s p Nm2 Fg Gp2) as Rq. destruct (request_for (requests cs) s) as [k|].
    + destruct (pl_groups _ _ _ _ _ _ Pl3 p k _ Rq) as (e1 & Cq). exists (host G p). eexists. split; [reflexivity|]. split; [exact Cq|]. split; reflexivity.
    + rewrite Rq. reflexivity.
  - rewrite (pl_rels _ _ _ _ _ _ Pl3). pose proof (pl_groups _ _ _ _ _ _ Pl3) as Cg. revert Fg Cg. cbn [app]. generalize (requests cs). clear -Ge Ge2.
    induction G as [|[[p k] q] G IH]; intros rs F Cg; inversion F as [|? [t k'] ? ? [E1 E2] F']; subst; [constructor|].
    constructor; [|apply IH; [exact F'|intros a b c X; apply Cg; right; exact X]]. cbn [fst snd] in *. destruct (Cg p k q (or_introl eq_refl)) as (e & Cq).
    eexists. split; [exact Cq|]. split; [cbn; congruence|]. cbn. rewrite Ge, <- Ge2. symmetry. exact E1.
  - rewrite Wb, Sb, Tb. cbn [app]. eapply forall2_impl; [exact Le|exact Fb].
  - rewrite Wnb, Snb, Tnb. cbn [app]. eapply forall2_impl; [exact Le|exact Fn].
  - rewrite Wm, Sm, Tm. cbn [app]. eapply forall2_impl; [|exact Fx]. intros a c (A1 & A2). split; [apply Le; exact A1|exact A2].
Qed.

Lemma built h cs d : heap_ok h -> describes cs d ->
  exists h' m', build_calls ord h cs = Some (h', Some m') /\ as_described cs d h' m' /\ heap_ok h'.
Proof.
  intros K D. destruct (built_steps h cs d K D) as (w1 & t1 & w2 & t2 & h' & m' & t3 & (E1 & R1 & E2 & R2 & E3 & R3 & _) & A).
  exists h', m'. split; [|exact A].
  rewrite build_calls_queues. unfold build. cbn [b_model b_features b_tree b_relations bind]. rewrite <- surjective_pairing.
  rewrite (commit_ok _ _ _ _ E1 R1). cbn [bind]. rewrite (commit_ok _ _ _ _ E2 R2). cbn [bind]. rewrite (commit_ok _ _ _ _ E3 R3). reflexivity.
Qed.

(** ** Failures *)
Lemma build_clash h a c b d : heap_ok h -> declares (default_root, []) a d -> (forall x, In x a -> ordinary x) -> clashes d c ->
  exists h', build_calls ord h (a ++ c :: b) = Some (h', None).
Proof.
  intros K D O C. destruct (declared h a d K D O) as (h1 & m1 & L & r & E1 & R1 & EL & _).
  destruct (clash_run ord c b d h1 m1 L r C EL R1) as (w & E2).
  assert (run ord (feature_ops (a ++ c :: b)) (new_model h) = Some (w, Some ALREADY_PRESENT)) as E.
  { unfold feature_ops. rewrite flat_map_app. fold (feature_ops a). fold (feature_ops (c :: b)). rewrite run_app, E1. exact E2. }
  rewrite build_calls_queues. unfold build. cbn [b_model b_features b_tree b_relations bind]. rewrite <- surjective_pairing.
  rewrite (commit_error _ _ _ _ E). cbn [bind]. eexists. reflexivity.
Qed.

Lemma build_bad_edge h a p s b d : heap_ok h -> declares (default_root, []) (a ++ BEdge p s :: b) d ->
  (forall x, In x (a ++ BEdge p s :: b) -> ordinary x) -> (forall c, In c a -> edge_ok d c) -> ~ taken d p \/ ~ taken d s \/ p = s ->
  exists h', build_calls ord h (a ++ BEdge p s :: b) = Some (h', None).
Proof.
  intros K D O Oe B. set (cs := a ++ BEdge p s :: b) in *. destruct (declared h cs d K D O) as (h1 & m1 & L & r & E1 & R1 & EL & _).
  destruct (flat_linked h1 m1 r (fst d) L R1) as (Li1 & Nm & _). rewrite EL, <- surjective_pairing in Nm.
  destruct (bad_edge_run ord d _ _ a p s b h1 m1 _ _ Li1 Nm Oe B) as (w & e & E2). fold cs in E2.
  rewrite build_calls_queues. unfold build. cbn [b_model b_features b_tree b_relations bind]. rewrite <- surjective_pairing.
  rewrite (commit_ok _ _ _ _ E1 R1). cbn [bind]. rewrite (commit_error _ _ _ _ E2). cbn [bind]. eexists. reflexivity.
Qed.

Lemma snoc_ops a c : match c with BRelationship _ _ | BConstraint _ _ => True | _ => False end ->
  feature_ops (a ++ [c]) = feature_ops a /\ tree_ops (a ++ [c]) = tree_ops a /\ relation_ops (a ++ [c]) = relation_ops a ++ relation_ops [c].
Proof.
  unfold feature_ops, tree_ops, relation_ops. rewrite !flat_map_app. destruct c; try contradiction; cbn [flat_map]; rewrite !app_nil_r; repeat split.
Qed.

Lemma build_bad_group h a k p d : heap_ok h -> describes a d -> ~ taken d p -> build_calls ord h (a ++ [BRelationship k p]) = None.
Proof.
  intros K D N. destruct (built_steps h a d K D) as (w1 & t1 & w2 & t2 & h' & m' & t3 & (E1 & R1 & E2 & R2 & E3 & R3 & Nm) & A).
  destruct (snoc_ops a (BRelationship k p) Logic.I) as (Q1 & Q2 & Q3).
  rewrite build_calls_queues. rewrite Q1, Q2, Q3. unfold build. cbn [b_model b_features b_tree b_relations bind]. rewrite <- surjective_pairing.
  rewrite (commit_ok _ _ _ _ E1 R1). cbn [bind]. rewrite (commit_ok _ _ _ _ E2 R2). cbn [bind].
  unfold commit_modify. cbn [t_open t_queue]. rewrite run_app, E3. cbn [relation_ops flat_map app run exec].
  unfold exec_add_relationship, store_relationship. destruct (h_alloc h' _) as [i h1]. cbn [resolve].
  change (get_feature (with_relationships m' (m_relationships m' ++ [i])) p) with (get_feature m' p).
  destruct (get_feature m' p) as [j|] eqn:G; [|reflexivity]. exfalso. apply N. apply Nm. eauto.
Qed.

Lemma build_bad_constraint h a k c d s : heap_ok h -> describes a d ->
  (forall r, In r (leaves c) -> exists x, r = Own x) -> In (Own s) (leaves c) -> ~ taken d s ->
  exists h', build_calls ord h (a ++ [BConstraint k c]) = Some (h', None).
Proof.
  intros K D O Is N. destruct (built_steps h a d K D) as (w1 & t1 & w2 & t2 & h' & m' & t3 & (E1 & R1 & E2 & R2 & E3 & R3 & Nm) & A).
  destruct (snoc_ops a (BConstraint k c) Logic.I) as (Q1 & Q2 & Q3).
  assert (exists names, map (cref_name h') (leaves c) = map Some names /\ In s names) as (names & En & Ins).
  { clear -O Is. revert Is O. generalize (leaves c). intros l Is O.
    assert (exists names, map (cref_name h') l = map Some names /\ map Own names = l) as (names & E1 & E2).
    { clear Is. induction l as [|r l IH]; [exists []; split; reflexivity|]. destruct IH as (n & A & B); [intros x X; apply O; right; exact X|].
      destruct (O r (or_introl eq_refl)) as (x & ->). exists (x :: n). cbn. rewrite A, B. split; reflexivity. }
    exists names. split; [exact E1|]. rewrite <- E2 in Is. apply in_map_iff in Is. destruct Is as (x & E & X). congruence. }
  destruct (exec_add_constraint_ok ord h' m' t3 k c names R3 En) as (h4 & c' & E4 & _).
  assert (forallb (found m') names = false) as F.
  { destruct (forallb (found m') names) eqn:F; [|reflexivity]. exfalso. rewrite forallb_forall in F. specialize (F s Ins). unfold found in F.
    destruct (get_feature m' s) as [i|] eqn:G; [|discriminate]. apply N. apply Nm. eauto. }
  rewrite F in E4.
  rewrite build_calls_queues. rewrite Q1, Q2, Q3. unfold build. cbn [b_model b_features b_tree b_relations bind]. rewrite <- surjective_pairing.
  rewrite (commit_ok _ _ _ _ E1 R1). cbn [bind]. rewrite (commit_ok _ _ _ _ E2 R2). cbn [bind].
  erewrite commit_error; [cbn [bind]; eexists; reflexivity|]. rewrite run_app, E3. cbn [relation_ops flat_map app run]. rewrite E4. reflexivity.
Qed.
End Build.
