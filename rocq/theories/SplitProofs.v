(** Adding a constraint keeps what the solver needs. *)
From Coq Require Import List ZArith Bool Arith Lia.
From Verif Require Import Text TextProofs ConstraintModel ConstraintSpec ConfigurationModel ConfigurationSpec FeatureTreeModel FeatureTreeSpec FeatureTreeProofs FeatureTransactionModel FeatureTransactionSpec FeatureEditSpec FeatureEditProofs FeatureOpsProofs FeatureDataProofs FeatureBuildSpec
  FeatureHistoryProofs SolverModel SolverSpec SolverLoadProofs SolverEnumerationProofs SolverFinal GeneratorProofs XmlTripWrite XmlModel XmlSpec EditValidSpec EditValidProofs EditValidOps EditValidData SplitSpec.
Import ListNotations.
Local Open Scope list_scope.

(** ** Heaps with the same rules *)
Section Same.
Variables (g : nid -> ndata -> ndata) (h h' : heap).
Hypothesis Rl : relabelled g h h'.
Hypothesis Same : forall i d, same_rule d (g i d).

Lemma feature_forth i f : feature_at h i = Some f -> exists f', feature_at h' i = Some f' /\ f_kind f' = f_kind f /\ f_name f' = f_name f.
Proof.
  unfold feature_at. rewrite Rl. destruct (h_cells h i) as [c|]; cbn; [|discriminate]. pose proof (Same i (n_data c)) as S. destruct (n_data c) as [f0|r]; [|discriminate].
  intros E. injection E as ->. destruct (g i (NFeature f)) as [f'|r]; cbn in S; [|contradiction]. exists f'. tauto.
Qed.
Lemma feature_back i f' : feature_at h' i = Some f' -> exists f, feature_at h i = Some f /\ f_kind f' = f_kind f /\ f_name f' = f_name f.
Proof.
  unfold feature_at. rewrite Rl. destruct (h_cells h i) as [c|]; cbn; [|discriminate]. pose proof (Same i (n_data c)) as S. destruct (n_data c) as [f0|r].
  - destruct (g i (NFeature f0)) as [f1|r]; cbn in S; [|contradiction]. intros E. injection E as ->. exists f0. tauto.
  - destruct (g i (NRelationship r)) as [f1|r1]; cbn in S; [contradiction|discriminate].
Qed.
Lemma name_kept i : name_at h' i = name_at h i.
Proof.
  unfold name_at. destruct (feature_at h i) as [f|] eqn:E.
  - destruct (feature_forth i f E) as (f' & E' & _ & N). rewrite E'. cbn. congruence.
  - destruct (feature_at h' i) as [f'|] eqn:E'; [|reflexivity]. destruct (feature_back i f' E') as (f & X & _). congruence.
Qed.
Lemma leaf_kept mixed a r : leaf_value h' mixed a r = leaf_value h mixed a r.
Proof.
  destruct r as [s|i]; [reflexivity|]. cbn [leaf_value]. destruct (feature_at h i) as [f|] eqn:E.
  - destruct (feature_forth i f E) as (f' & E' & K & N). rewrite E', K, N. reflexivity.
  - destruct (feature_at h' i) as [f'|] eqn:E'; [|reflexivity]. destruct (feature_back i f' E') as (f & X & _). congruence.
Qed.
Lemma value_kept mixed a c : value_of h' mixed a c = value_of h mixed a c.
Proof. unfold value_of. apply meaning_ext. intros r _. apply leaf_kept. Qed.
Lemma typed_kept mixed c : well_typed h mixed c -> well_typed h' mixed c.
Proof. intros W a. rewrite value_kept. apply W. Qed.
Lemma relationship_back q k p e : h_cells h' q = Some (Cell (NRelationship k) p e) -> h_cells h q = Some (Cell (NRelationship k) p e).
Proof.
  rewrite Rl. destruct (h_cells h q) as [[d p0 e0]|]; cbn; [|discriminate]. pose proof (Same q d) as S. intros E. injection E as Ed -> ->. rewrite Ed in S. destruct d; cbn in S; [contradiction|]. congruence.
Qed.
Lemma hangs_back i p r : hangs h' i p r -> hangs h i p r.
Proof.
  intros (c & E & H). rewrite Rl in E. destruct (h_cells h i) as [c0|] eqn:E0; cbn in E; [|discriminate]. injection E as <-. exists c0. split; [exact E0|]. cbn [n_parent] in H.
  destruct r as [k|]; [|exact H]. destruct H as (q & cq & P & Eq & D & Pq). exists q. destruct cq as [d pq eq]. cbn in D, Pq. subst d pq. exists (Cell (NRelationship k) (Some p) eq).
  split; [exact P|]. split; [exact (relationship_back q k _ eq Eq)|]. split; reflexivity.
Qed.
End Same.

(** ** Adding a constraint *)
Lemma xor_free_cmap {F G} (f : F -> G) c : xor_free c -> xor_free (cmap f c).
Proof. induction c as [o l IHl r IHr|o e IH|n|x]; cbn; tauto. Qed.
Lemma stored_features h m m' i f : m_features m' = m_features m -> stored h m' i f -> stored h m i f.
Proof. unfold stored. intros ->. exact (fun x => x). Qed.

Lemma stored_constraint m k c :
  m_features (store_constraint m k c) = m_features m /\ m_relationships (store_constraint m k c) = m_relationships m /\
  (forall x, In x (m_boolean (store_constraint m k c) ++ m_nonboolean (store_constraint m k c)) -> In x (m_boolean m ++ m_nonboolean m) \/ x = c /\ (forall r e, k <> KMixed r e)) /\
  (forall x, In x (m_mixed (store_constraint m k c)) -> In x (m_mixed m) \/ exists r e, k = KMixed r e /\ x = Mixed c r e).
Proof.
  destruct k as [| |r e]; cbn; (split; [reflexivity|]); (split; [reflexivity|]); split; intros x I; auto.
  - rewrite <- app_assoc in I. apply in_app_or in I. destruct I as [I|[<-|I]]; [left; apply in_or_app; auto|right; split; [reflexivity|discriminate]|left; apply in_or_app; auto].
  - rewrite app_assoc in I. apply in_app_or in I. destruct I as [I|[<-|[]]]; [auto|right; split; [reflexivity|discriminate]].
  - apply in_app_or in I. destruct I as [I|[<-|[]]]; [auto|right; exists r, e; auto].
Qed.

Lemma added ord h m t k c : represents h m t -> all_resolved m -> supported h m -> no_xor m -> mentions_names m c -> well_said h m k c -> xor_free c ->
  exists h' m' t', exec ord (OAddConstraint k c) (h, m) = Some ((h', m'), None) /\ represents h' m' t' /\ supported h' m' /\ no_xor m' /\
    (forall a, SolverSpec.valid h' m' a <-> SolverSpec.valid h m a /\ says h m a k c) /\
    (forall n so, (exists i f, stored h' m' i f /\ n = f_name f /\ so = if numeric_kind (f_kind f) then SInt else SBool) <->
                  (exists i f, stored h m i f /\ n = f_name f /\ so = if numeric_kind (f_kind f) then SInt else SBool)).
Proof.
  intros R A Su Nx Mn Ws Xf. destruct (mentions_listed h m c Mn) as (names & En & In0).
  destruct (exec_add_constraint_ok ord h m t k c names R En) as (h1 & c' & E1 & Ec & _ & Rl & R1).
  set (g := enlist_at m (class_of c) (h_next h) names 0) in *. set (mc := MConstraint (h_next h) c') in *.
  assert (Sm : forall i d, same_rule d (g i d)) by (intros i d; unfold g; destruct d; cbn; auto).
  assert (Fd : forallb (FeatureDataProofs.found m) names = true).
  { apply forallb_forall. intros s I. apply In0 in I. destruct (Mn _ I) as (s' & i & E & G). injection E as <-. unfold FeatureDataProofs.found. rewrite G. reflexivity. }
  rewrite Fd in E1. destruct (stored_constraint m k mc) as (Sf & Sr & Sb & Sx).
  assert (Lv : forall mixed a, value_of h1 mixed a c' = meaning xorb (said h m mixed a) (a_div0 a) c).
  { intros mixed a. rewrite (value_kept g h h1 Rl Sm). unfold value_of. rewrite Ec, meaning_cmap. apply meaning_ext. intros r I. destruct (Mn r I) as (s & i & -> & G). unfold target. cbn [cref_name]. rewrite G. cbn [said]. rewrite G. reflexivity. }
  exists h1, (store_constraint m k mc), (relabel g t). split; [exact E1|]. split; [exact R1|]. split; [|split; [|split]].
  - constructor.
    + intros i f (I & F) K. destruct (feature_back g h h1 Rl Sm i f F) as (f0 & F0 & K0 & _). rewrite Sf in I. apply (su_kinds _ _ Su i f0 (conj I F0)). congruence.
    + intros i f p q r (I & F) K H Fq. destruct (feature_back g h h1 Rl Sm i f F) as (f0 & F0 & K0 & _). destruct (feature_back g h h1 Rl Sm p q Fq) as (q0 & Fq0 & Kq & _). rewrite Sf in I.
      rewrite Kq. apply (su_parents _ _ Su i f0 p q0 r (conj I F0)); [congruence|exact (hangs_back g h h1 Rl Sm i p r H)|exact Fq0].
    + intros n ns (q & p & e & I & C & N & Fa). rewrite Sr in I. apply (su_alternatives _ _ Su n ns). exists q, p, e. split; [exact I|]. split; [exact (relationship_back g h h1 Rl Sm _ _ _ _ C)|].
      rewrite (name_kept g h h1 Rl Sm) in N. split; [exact N|]. clear - Fa Rl Sm. induction Fa as [|x s e ns X _ IH]; constructor; [rewrite (name_kept g h h1 Rl Sm) in X; exact X|exact IH].
    + intros i f v s (I & F) K. destruct (feature_back g h h1 Rl Sm i f F) as (f0 & F0 & K0 & _). rewrite Sf in I. apply (su_ranges _ _ Su i f0 v s (conj I F0)). congruence.
    + intros x I. destruct (Sb x I) as [O|(-> & Nk)].
      * apply (typed_kept g h h1 Rl Sm). exact (su_constraints _ _ Su x O).
      * intros a. cbn [mc c_expr]. rewrite Lv. destruct (Ws a) as (b & Hb). exists b. destruct k as [| |r e]; [exact Hb|exact Hb|destruct (Nk r e eq_refl)].
    + intros x I. destruct (Sx x I) as [O|(r & e & -> & ->)].
      * apply (typed_kept g h h1 Rl Sm). exact (su_mixed _ _ Su x O).
      * intros a. cbn [mc c_expr x_con]. rewrite Lv. exact (Ws a).
  - assert (Xc : xor_free (c_expr mc)) by (cbn; rewrite Ec; apply xor_free_cmap; exact Xf).
    intros e I. apply in_map_iff in I. destruct I as (x & <- & I). rewrite app_assoc in I. apply in_app_or in I. destruct I as [I|I].
    + destruct (Sb x I) as [O|(-> & _)]; [|exact Xc]. apply Nx. apply in_map. rewrite app_assoc. apply in_or_app. auto.
    + apply in_map_iff in I. destruct I as (y & <- & I). destruct (Sx y I) as [O|(r & e & _ & ->)]; [|exact Xc]. apply Nx. apply in_map. rewrite app_assoc. apply in_or_app. right. apply in_map. exact O.
  - intros a. exact (add_constraint_valid ord h m t k c h1 _ a R A Mn E1).
  - intros n so. unfold stored. rewrite Sf. split.
    + intros (i & f & (I & F) & E2 & E3). destruct (feature_back g h h1 Rl Sm i f F) as (f0 & F0 & K0 & N0). exists i, f0. rewrite <- K0, <- N0. auto.
    + intros (i & f & (I & F) & E2 & E3). destruct (feature_forth g h h1 Rl Sm i f F) as (f0 & F0 & K0 & N0). exists i, f0. rewrite K0, N0. auto.
Qed.

(** ** Numbers *)
Lemma shows_set vs vs' c a : (forall v, In v vs <-> In v vs') -> shows vs c a -> shows vs' c a.
Proof. intros Q (A & B). split; [intros n t I; apply A, Q; exact I|]. intros n s E. destruct (B n s E) as (t & I). exists t. apply Q. exact I. Qed.

(** A loaded model has a number. *)
Lemma numbered ord h m t : is_order ord -> represents h m t -> supported h m -> no_xor m ->
  exists N, forall fuel, N <= fuel -> exists s, load ord fuel h m = Some s /\ features_registered h m (s_vars s) /\
    (forall a, satisfies a (s_asserted s) <-> SolverSpec.valid h m a) /\
    forall l, lists_all_solutions (s_vars s) (s_asserted s) l -> forall check, decides check (s_vars s) (s_asserted s) -> exists M, forall fuel', M <= fuel' -> get_num check fuel' s = number (List.length l).
Proof.
  intros Or R Su X. destruct (encoding_exact ord h m t Or R Su X) as (N1 & H1). destruct (load_registers ord h m t Or R Su) as (N2 & H2). exists (N1 + N2). intros fuel L.
  destruct (H1 fuel ltac:(lia)) as (s & E & V). destruct (H2 fuel ltac:(lia)) as (s' & E' & Rg). rewrite E in E'. injection E' as <-. exists s. split; [exact E|]. split; [exact Rg|]. split; [exact V|].
  intros l Ll check Dec. destruct (count_all check s (load_reached _ _ _ _ _ E) Dec) as (M & C). exists M. intros fuel' L'. destruct (C fuel' L') as (_ & C'). exact (C' l Ll).
Qed.
