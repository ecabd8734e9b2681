(** Documents in the SXFM format saved as XML and read back. *)
From Coq Require Import List ZArith NArith Arith Bool Ascii String Permutation Lia.
From Verif Require Import Text TextProofs LlvmInt ConstraintModel ConstraintSpec ConstraintParserModel ConstraintRoundTrip SourceRangeModel FeatureTreeModel FeatureTreeSpec FeatureTreeProofs FeatureTransactionModel
  FeatureEditSpec FeatureEditProofs FeatureTransactionSpec FeatureTransactionFinal FeatureRemoveProofs FeatureHistoryProofs FeatureCloneSpec FeatureCloneProofs FeatureBuildSpec FeatureBuildFinal SxfmModel SxfmSpec SxfmLineProofs SxfmTreeProofs SxfmTreeFinal SxfmFormulaSpec SxfmFormulaProofs SxfmBuildProofs SxfmFinal
  XmlModel XmlWriterModel XmlSpec XmlTripSpec XmlTripFinal ConfigurationModel SolverModel SolverSpec SolverLoadProofs SolverProofs SolverFinal ValidSpec ValidProofs ValidTripProofs ValidFinal CloneSameProofs DescribedSpec DescribedProofs DescribedFinal SxfmConfigSpec SxfmConfigProofs SxfmConfigFinal
  RegisterSpec RegisterProofs RegisterFinal SafeSpec SafeFinal SxfmXmlSpec SxfmXmlProofs SxfmXmlConfigProofs.
Import ListNotations.
Local Open Scope string_scope.
Local Open Scope list_scope.
Local Open Scope nat_scope.

Lemma tidy_nil : tidy [].
Proof. reflexivity. Qed.
Lemma calm_path cs : (forall c, In c cs -> match c with BPath _ => False | _ => True end) -> forall d, last_path cs d = d.
Proof. induction cs as [|c cs IH]; intros H d; [reflexivity|]. pose proof (H c (or_introl eq_refl)). destruct c; try contradiction; cbn [last_path]; apply IH; intros x X; apply H; right; exact X. Qed.
Lemma calm_commit cs : (forall c, In c cs -> match c with BCommit _ => False | _ => True end) -> forall d, last_commit cs d = d.
Proof. induction cs as [|c cs IH]; intros H d; [reflexivity|]. pose proof (H c (or_introl eq_refl)). destruct c; try contradiction; cbn [last_commit]; apply IH; intros x X; apply H; right; exact X. Qed.

(** What is known of the model of a document. *)
Record document_model (n : text) (es : list entry) (cs : list (cexpr string)) (h : heap) (m : fmodel) : Prop := DocumentModel {
  dm_sound : sound h m;
  dm_indented : as_indented es h m;
  dm_name : m_name m = n;
  dm_path : m_path m = [];
  dm_commit : m_commit m = [];
  dm_places : forall s i f, get_feature m s = Some i -> feature_at h i = Some f -> f_locations f = [];
  dm_boolean : Forall2 (fun c x => c_expr x = cmap (fun s => pointing m (Own (T s))) c) cs (m_boolean m);
  dm_nonboolean : m_nonboolean m = [];
  dm_mixed : m_mixed m = [];
  dm_neat : neat h m;
  dm_valid : forall a, SolverSpec.valid h m a <-> stated_configuration es cs (a_bool a) /\ forall c, In c cs -> ~ negates c;
  dm_supported : inhabited_groups es -> (forall c, In c cs -> ~ negates c) -> supported h m /\ no_xor m
}.

Lemma document_known ord sci order or_first h d n ind es cs :
  is_order ord -> (forall l, Permutation (order l) l) -> heap_ok h -> d_name d = Some n ->
  ind = match d_indentation d with Some i => i | None => [ascii_of_nat 9] end -> indentation_ok ind ->
  (forall e, In e es -> entry_ok e /\ id_apart e) -> tree_ok es -> tree_text ind es (d_tree d) ->
  match d_constraints d with Some t => constraints_text es cs t | None => cs = [] end -> names_known es cs ->
  (forall c, In c cs -> formula c /\ expressible c) /\
  exists k, forall fuel, k <= fuel -> exists h' m, read_sxfm ord sci order fuel or_first h d = SxDone (h', Some m) /\ document_model n es cs h' m.
Proof.
  intros Oo Or K Dn Ei Io Eo To Tt Dc Nk.
  assert (forall c, In c cs -> formula c /\ expressible c) as Fe.
  { destruct (d_constraints d) as [t|]; [|subst cs; intros c []]. destruct Dc as (ls & last & _ & S). intros c I. split; [exact (stated_formulas _ _ _ S c I)|exact (stated_expressible _ _ _ S c I)]. }
  split; [exact Fe|].
  destruct (document_read ord sci order or_first h d n ind es cs Oo Or K Dn Ei Io Eo To Tt Dc Nk) as (k1 & H1). destruct (document_valid ord sci order or_first h d n ind es cs Oo Or K Dn Ei Io Eo To Tt Dc Nk) as (k2 & H2).
  pose proof To as To0. destruct To as [(e & r & -> & Me & Mr) Nl Wi].
  destruct (tree_read order Or ind (e :: r) (d_tree d) Io Eo Wi Tt) as (tc & ids & Rt & Tc & Il). pose proof (tree_keys _ _ _ _ _ Rt) as Kn.
  set (ks := map (fun c => BConstraint KBoolean (owned c)) cs).
  assert (exists k, forall fuel, k <= fuel -> read_calls sci order fuel or_first d = SxDone (BName n :: tc ++ ks)) as (k & Hk).
  { unfold read_calls. rewrite Dn. unfold default_indentation. rewrite <- Ei, Rt. cbn [sx_bind fst snd]. destruct (d_constraints d) as [t|].
    - destruct (constraints_read sci (e :: r) ids or_first Kn Il Eo t cs Dc) as (k & Hk). exists k. intros fuel L. rewrite (Hk fuel L). reflexivity.
    - exists 0. intros fuel _. subst cs. unfold ks. cbn [map]. rewrite app_nil_r. reflexivity. }
  exists (k + k1 + k2). intros fuel L. destruct (H1 fuel ltac:(lia)) as (h' & m & E1 & K' & Nm & Ai & Fb & Nn & Nx). destruct (H2 fuel ltac:(lia)) as (h2 & m2 & E2 & V). rewrite E1 in E2. injection E2 as <- <-.
  exists h', m. split; [exact E1|].
  assert (forall c, In c ks -> match c with BConstraint _ x => forall y, In y (leaves x) -> exists s, y = Own s /\ In s (labels (e :: r)) | _ => False end) as Ck.
  { intros c I. apply in_map_iff in I. destruct I as (x & <- & I). intros y Y. unfold owned in Y. rewrite leaves_cmap in Y. apply in_map_iff in Y. destruct Y as (s & <- & Y). exists (T s). split; [reflexivity|]. exact (Nk x s I Y). }
  assert (exists r0 rs, labels (e :: r) = r0 :: rs) as (r0 & rs & Lb).
  { pose proof (labels_length (e :: r)) as Ll. destruct (labels (e :: r)) as [|r0 rs]; [discriminate Ll|]. exists r0, rs. reflexivity. }
  pose proof (tree_describes e r tc ks n Me Mr Nl Wi Tc Ck r0 rs Lb) as Ds.
  destruct (built ord Oo h _ _ K Ds) as (h3 & m3 & Eb & Ad & _). pose proof E1 as E3. unfold read_sxfm in E3. rewrite (Hk fuel ltac:(lia)) in E3. cbn [sx_bind] in E3. rewrite Eb in E3. injection E3 as -> ->.
  destruct (ad_represented _ _ _ _ Ad) as (t & R).
  assert (forall c, In c (BName n :: tc ++ ks) -> match c with BPath _ | BCommit _ => False | _ => True end) as Cm.
  { intros c [<-|I]; [exact Logic.I|]. apply in_app_or in I. destruct I as [I|I]; [pose proof (tc_rest _ _ Tc c I)|pose proof (Ck c I)]; destruct c; tauto. }
  constructor; auto.
  - split; [eauto|]. split; [exact (sxfm_registered ord sci order fuel or_first h d h' m K E1)|exact (described_resolved _ _ h' m (de_relations _ _ Ds) Ad)].
  - rewrite (ad_path _ _ _ _ Ad). apply calm_path. intros c I. specialize (Cm c I). destruct c; tauto.
  - rewrite (ad_commit _ _ _ _ Ad). apply calm_commit. intros c I. specialize (Cm c I). destruct c; tauto.
  - intros s i f G F. assert (stored h' m i f) as Sf by (apply (stored_is h' m t R); rewrite (get_name h' m t R s i f G F); auto).
    destruct (from _ _ h' m t R Ad i f Sf) as [(Er & _)|(g & Ig & Sd)].
    + destruct (ad_root _ _ _ _ Ad) as (x & fx & Ex & _ & Fx & Sd). assert (x = i) as -> by congruence. assert (fx = f) as -> by congruence. exact (proj1 (proj2 (proj2 (proj2 Sd)))).
    + rewrite (proj1 (proj2 (proj2 (proj2 Sd)))). cbn [the_decl snd] in Ig. destruct (leaf_in _ _ _ Ig) as (? & ? & ? & _ & _ & ->). reflexivity.
  - exact (neat_described _ _ h' m t R Ad Ds).
  - intros Ih Hn. apply (settled_supported _ _ h' m t R Ad Ds). unfold ks. eapply tree_settled; eauto. intros c I. exact (proj1 (Fe c I)).
Qed.

Section Model.
Variables (n : text) (es : list entry) (cs : list (cexpr string)) (h : heap) (m : fmodel).
Hypothesis To : tree_ok es.
Hypothesis Nk : names_known es cs.
Hypothesis Fe : forall c, In c cs -> formula c /\ expressible c.
Hypothesis DM : document_model n es cs h m.
Let Ai := dm_indented _ _ _ _ _ DM.

Lemma model_writable : tidy n -> labels_savable es -> writable h m.
Proof.
  intros Tn Ls. destruct (dm_sound _ _ _ _ _ DM) as ((t & R) & _). constructor.
  - intros s i f G F. destruct (position es h m t R Ai s i G) as (a & e & f' & La & _ & F' & K & N & _). assert (f' = f) as -> by congruence. unfold writable_feature. rewrite N, (dm_places _ _ _ _ _ DM s i f G F), K.
    split; [exact (label_some es 0 a s La)|]. split; [exact (proj1 (Ls a s La))|]. split; [destruct (e_mark e); exact Logic.I|constructor].
  - intros s i G. destruct (position es h m t R Ai s i G) as (a & _ & _ & La & _). rewrite (root_only es h m t R To Ai a s i La G). exact (proj2 (Ls a s La)).
  - intros s i f G F. destruct (position es h m t R Ai s i G) as (a & e & f' & La & E & F' & K & _). assert (f' = f) as -> by congruence. rewrite (root_only es h m t R To Ai a s i La G), <- (mark_root es To a e E), K. destruct (e_mark e); split; congruence.
  - rewrite (dm_name _ _ _ _ _ DM). exact Tn.
  - rewrite (dm_path _ _ _ _ _ DM). reflexivity.
  - rewrite (dm_commit _ _ _ _ _ DM). reflexivity.
  - intros c I. right. destruct (forall2_nth _ _ _ _ (dm_boolean _ _ _ _ _ DM) I) as (x & Ix & ->). exists x. split; [apply (spelled_pointing es h m t R Ai); intros s J; exact (Nk x s Ix J)|exact (proj2 (Fe x Ix))].
  - rewrite (dm_nonboolean _ _ _ _ _ DM). intros c [].
  - rewrite (dm_mixed _ _ _ _ _ DM). intros c [].
Qed.

Lemma said_formula c : In c (all_constraints m) -> exists x, In x cs /\ c_expr c = cmap (fun s => pointing m (Own (T s))) x.
Proof.
  intros I. unfold all_constraints in I. rewrite (dm_nonboolean _ _ _ _ _ DM), (dm_mixed _ _ _ _ _ DM) in I. cbn [map] in I. rewrite !app_nil_r in I.
  destruct (forall2_nth _ _ _ _ (dm_boolean _ _ _ _ _ DM) I) as (x & Ix & E). eauto.
Qed.
Lemma no_exclusion a b : ~ states_exclusion m a b.
Proof.
  intros (c & I & E). destruct (said_formula c I) as (x & Ix & Ex). rewrite E in Ex. destruct (proj1 (Fe x Ix)); discriminate Ex.
Qed.

Variables (h' : heap) (m' : fmodel).
Hypothesis Mb : model_back h m h' m'.

Lemma back_said e : stated h' (m_boolean m') e <-> said es cs e.
Proof.
  destruct (dm_sound _ _ _ _ _ DM) as ((t & R) & _). rewrite (mb_boolean _ _ _ _ Mb e). unfold boolean_back, said.
  assert (forall x, In x cs -> spelled h (cmap (fun s => pointing m (Own (T s))) x) x) as Sp by (intros x Ix; apply (spelled_pointing es h m t R Ai); intros s J; exact (Nk x s Ix J)).
  assert (forall x, stated h (m_boolean m) x <-> In x cs) as St.
  { intros x. split.
    - intros (c & I & S). destruct (forall2_nth _ _ _ _ (dm_boolean _ _ _ _ _ DM) I) as (y & Iy & E). rewrite E in S. rewrite (XmlTripDoc.spelled_unique h _ x y S (Sp y Iy)). exact Iy.
    - intros I. destruct (forall2_nth_l _ _ _ _ (dm_boolean _ _ _ _ _ DM) I) as (c & Ic & E). exists c. split; [exact Ic|]. rewrite E. exact (Sp x I). }
  assert (forall x, formula x -> ~ pair x) as Np by (intros x F (o & a & b & [-> | ->] & E); subst x; inversion F).
  assert (forall x, formula x -> excludes_as_implies x = x) as Ex by (intros x F; induction F; cbn [excludes_as_implies]; congruence).
  split.
  - intros [(P & c & I & S)|[(a & b & i & j & -> & Ga & Gb & N & Tg)|(c & -> & _ & S)]].
    + exfalso. unfold all_constraints in I. rewrite (dm_nonboolean _ _ _ _ _ DM), (dm_mixed _ _ _ _ _ DM) in I. cbn [map] in I. rewrite !app_nil_r in I. apply (Np e); [|exact P]. apply Fe. apply St. exists c. auto.
    + right. exists (T a), (T b). rewrite !U_T. split; [reflexivity|]. apply (together_mates es h m t R To Ai (T a) (T b) i j Ga Gb N). exact Tg.
    + left. apply St in S. rewrite (Ex c (proj1 (Fe c S))). exact S.
  - intros [I|(s & u & -> & Gm)].
    + right. right. exists e. split; [symmetry; exact (Ex e (proj1 (Fe e I)))|]. split; [exact (Np e (proj1 (Fe e I)))|apply St; exact I].
    + right. left. pose proof Gm as (j & k & a & b & _ & (_ & La) & (_ & Lb) & N). assert (forall i v, labelled es i v -> exists x, get_feature m v = Some x) as Th by (intros i v L; apply (there es h m t R Ai); exact (nth_error_In _ _ L)).
      destruct (Th a s La) as (x & Gx). destruct (Th b u Lb) as (y & Gy). exists (U s), (U u), x, y. rewrite !T_U. split; [reflexivity|]. split; [exact Gx|]. split; [exact Gy|].
      assert (x <> y) as Nxy. { intros ->. destruct (get_stored h m t R s y Gx) as (f & (_ & F) & Ns). pose proof (get_name h m t R u y f Gy F) as Nu. apply N. apply (label_one es To a b s La). replace s with u by congruence. exact Lb. }
      split; [exact Nxy|]. apply (together_mates es h m t R To Ai s u x y Gx Gy Nxy). exact Gm.
Qed.

Lemma apart_marked j u p : groups_savable es -> labelled es j u -> get_feature m u = Some p -> (apart h m p <-> exists k, marked es j (Group k)).
Proof.
  intros Gs Lj Gp. destruct (dm_sound _ _ _ _ _ DM) as ((t & R) & _). split.
  - intros ((a & b & Ca & Cb & N) & H). destruct (proj2 (H a Ca) b Cb ltac:(congruence)) as [Tg|X]; [|exfalso; exact (no_exclusion a b X)].
    apply (child_indexed es h m t R To Ai j u p a Lj Gp) in Ca. apply (child_indexed es h m t R To Ai j u p b Lj Gp) in Cb. destruct Ca as (ia & sa & Ca & Ga). destruct Cb as (ib & sb & Cb & Gb).
    apply (together_mates es h m t R To Ai sa sb a b Ga Gb N) in Tg. destruct Tg as (j' & k & a' & b' & Mk & Ca' & _). rewrite (label_one es To a' ia sa (proj2 Ca') (proj2 Ca)) in Ca'.
    rewrite (closest_unique _ _ _ _ (proj1 Ca') (proj1 Ca)) in Mk. eauto.
  - intros (k & Mk). destruct (Gs j k Mk) as ((a & b & s & u' & Ca & Cb & N) & No).
    assert (forall i v, labelled es i v -> exists x, get_feature m v = Some x) as Th by (intros i v L; apply (there es h m t R Ai); exact (nth_error_In _ _ L)).
    split.
    + destruct (Th a s (proj2 Ca)) as (x & Gx). destruct (Th b u' (proj2 Cb)) as (y & Gy). exists x, y. split; [apply (child_indexed es h m t R To Ai j _ p x Lj Gp); eauto|]. split; [apply (child_indexed es h m t R To Ai j _ p y Lj Gp); eauto|].
      intros ->. destruct (get_stored h m t R s y Gx) as (f & (_ & F) & Ns). pose proof (get_name h m t R u' y f Gy F) as Nu. apply N. apply (label_one es To a b s (proj2 Ca)). replace s with u' by congruence. exact (proj2 Cb).
    + intros x Cx. apply (child_indexed es h m t R To Ai j u p x Lj Gp) in Cx. destruct Cx as (ia & sa & Cx & Gx). split.
      * destruct (position es h m t R Ai sa x Gx) as (ia' & e' & f & La' & Ee' & F & _ & _ & O). rewrite (label_one es To ia' ia sa La' (proj2 Cx)) in Ee'. exists f. split; [exact F|]. rewrite O. destruct (e_mark e') eqn:M; try reflexivity. exfalso. apply (No ia sa Cx). exists e'. auto.
      * intros y Cy Nxy. left. apply (child_indexed es h m t R To Ai j u p y Lj Gp) in Cy. destruct Cy as (ib & sb & Cy & Gy). apply (together_mates es h m t R To Ai sa sb x y Gx Gy); [congruence|].
        exists j, k, ia, ib. split; [exact Mk|]. split; [exact Cx|]. split; [exact Cy|]. intros ->. destruct Cx as (_ & La). destruct Cy as (_ & Lb). unfold labelled in *. congruence.
Qed.

Lemma forall2_choice {A B} (P : A -> B -> Prop) l : (forall x, In x l -> exists y, P x y) -> exists k, Forall2 P l k.
Proof. induction l as [|x l IH]; intros H; [exists []; constructor|]. destruct (H x (or_introl eq_refl)) as (y & Y). destruct IH as (k & K); [intros z I; apply H; right; exact I|]. exists (y :: k). constructor; assumption. Qed.

Lemma back_indented : groups_savable es -> as_indented (alternated es) h' m'.
Proof.
  intros Gs. destruct (dm_sound _ _ _ _ _ DM) as ((t & R) & _). destruct (mb_represented _ _ _ _ Mb) as (t' & R').
  assert (forall s i, get_feature m s = Some i -> exists i' f g, get_feature m' s = Some i' /\ feature_at h i = Some f /\ feature_at h' i' = Some g /\ back f g) as Fb.
  { intros s i G. destruct (get_stored h m t R s i G) as (f & (_ & F) & _). destruct (mb_features _ _ _ _ Mb s i f G F) as (i' & g & G' & F' & B). exists i', f, g. auto. }
  assert (forall i s, labelled es i s -> exists x, get_feature m s = Some x) as Th by (intros i v L; apply (there es h m t R Ai); exact (nth_error_In _ _ L)).
  assert (forall s i', get_feature m' s = Some i' -> In s (labels es)) as Bk.
  { intros s i' G'. apply (find_name_in _ _ _ (ts_names _ _ (mb_tree _ _ _ _ Mb))) in G'. apply (Permutation_in _ (ai_names _ _ _ Ai)). apply (Permutation_in _ (mb_names _ _ _ _ Mb)). apply in_map_iff. exists (s, i'). auto. }
  pose proof (alternated_tree es To) as To2.
  constructor; rewrite ?alternated_labels, ?alternated_levels.
  - exact (mb_tree _ _ _ _ Mb).
  - exact (mb_represented _ _ _ _ Mb).
  - exact (mb_consistent _ _ _ _ Mb).
  - exact (Permutation_trans (mb_names _ _ _ _ Mb) (ai_names _ _ _ Ai)).
  - destruct (mb_root _ _ _ _ Mb) as (s & E & E' & Nn). destruct (ai_root _ _ _ Ai) as (r & s0 & Er & L0 & G0). destruct (m_root m') as [r'|] eqn:Er'; [|congruence]. exists r', s0. split; [reflexivity|]. split; [exact L0|].
    rewrite Er in E. destruct (get_stored h m t R s r E) as (f & (_ & F) & <-). rewrite (get_name h m t R s0 r f G0 F) in E'. exact E'.
  - intros i e s Ea Es. destruct (alternated_nth es i e Ea) as (e0 & Ee & ->). rewrite alternated_mark. destruct (ai_features _ _ _ Ai i e0 s Ee Es) as (x & f & Gx & Fx & K & N & O). destruct (mb_features _ _ _ _ Mb s x f Gx Fx) as (x' & g & Gx' & Fx' & (Nb & _ & Kb & B)). exists x', g. split; [exact Gx'|]. split; [exact Fx'|].
    rewrite K in Kb, B. split; [destruct (e_mark e0); exact Kb|]. split; [congruence|]. destruct (e_mark e0); cbn [optional] in *; destruct B as (_ & B); congruence.
  - intros i j s p e C Ei Ej Ea. destruct (alternated_nth es j e Ea) as (e0 & Ee & ->). rewrite alternated_mark. destruct (ai_parents _ _ _ Ai i j s p e0 C Ei Ej Ee) as (x & y & Gx & Gy & H). destruct (Fb s x Gx) as (x' & _ & _ & Gx' & _). destruct (Fb p y Gy) as (y' & _ & _ & Gy' & _). exists x', y'. split; [exact Gx'|]. split; [exact Gy'|].
    assert (child_in h' m' y' x') as Ch.
    { split; [eauto|]. assert (parent_named h' m' s p) as (x2 & y2 & G2 & G3 & Ab); [|assert (x2 = x') as -> by congruence; assert (y2 = y') as -> by congruence; exact Ab]. apply (mb_parents _ _ _ _ Mb). exists x, y. split; [exact Gx|]. split; [exact Gy|]. exact (hangs_above h m t R x y _ p H Gy). }
    destruct (mb_groups _ _ _ _ Mb p y y' Gy Gy') as (_ & _ & Hg). destruct (Hg x' Ch) as (Ha & Hn). pose proof (apart_marked j p y Gs Ej Gy) as Am.
    destruct (e_mark e0) as [| | | |k] eqn:Mk; cbn [group_of]; try (apply Hn; intros A; apply Am in A; destruct A as (k' & e' & E' & X); congruence).
    apply Ha. apply Am. exists k, e0. auto.
  - assert (exists gs, Forall2 (fun q g => exists c, h_cells h' q = Some c /\ n_data c = NRelationship (snd g) /\ n_parent c = get_feature m' (fst g) /\ get_feature m' (fst g) <> None) (m_relationships m') gs) as (gs & F).
    { apply forall2_choice. intros q Iq. destruct (group_cell h' m' t' R' q Iq) as (k & p & e0 & s & ns & Cq & Np & _). exists (s, k). cbn [fst snd]. eexists. split; [exact Cq|]. split; [reflexivity|]. cbn [n_parent].
      destruct (group_parent h' m' t' R' k p) as (g & Sg); [exists q; eexists; eauto|]. unfold name_at in Np. rewrite (proj2 Sg) in Np. cbn in Np. injection Np as <-. rewrite (stored_get h' m' t' R' p g Sg). split; [reflexivity|discriminate]. }
    exists gs. split.
    + apply NoDup_Permutation.
      * assert (NoDup (m_relationships m')) as Nr.
        { eapply Permutation_NoDup; [apply Permutation_sym; exact (rep_groups _ _ _ R')|]. exact (nodup_groups t' (rep_ids _ _ _ R')). }
        assert (forall q q' (g : text * rkind), In q (m_relationships m') -> In q' (m_relationships m') -> (exists c, h_cells h' q = Some c /\ n_parent c = get_feature m' (fst g) /\ get_feature m' (fst g) <> None) -> (exists c, h_cells h' q' = Some c /\ n_parent c = get_feature m' (fst g)) -> q = q') as One.
        { intros q q' g I I' (c & C & P & Ng) (c' & C' & P'). destruct (get_feature m' (fst g)) as [p|]; [|congruence]. exact (mb_one_group _ _ _ _ Mb p q q' c c' I I' C C' P P'). }
        revert Nr One. clear - F. induction F as [|q g qs gs X F IH]; intros Nr One; constructor.
        -- intros I. destruct (forall2_nth _ _ _ _ F I) as (q' & I' & c' & C' & _ & P' & _). apply NoDup_cons_iff in Nr. apply (proj1 Nr). destruct X as (c & C & _ & P & Ng).
           rewrite (One q q' g (or_introl eq_refl) (or_intror I')); eauto.
        -- apply NoDup_cons_iff in Nr. apply IH; [exact (proj2 Nr)|]. intros a b g' Ia Ib. apply One; right; assumption.
      * rewrite <- alternated_labels. exact (NoDup_map_inv _ _ (proj1 (group_names (alternated es) (labels (alternated es)) (to_labels _ To2)))).
      * intros (s, k). rewrite <- (alternated_labels es) at 1. rewrite alternated_lines. split.
        -- intros I. destruct (forall2_nth _ _ _ _ F I) as (q & Iq & c & C & D & P & Ng). cbn [fst snd] in D, P, Ng. destruct (get_feature m' s) as [p'|] eqn:Gp'; [|congruence].
           destruct (In_nth_error _ _ (Bk s p' Gp')) as (j & Lj). destruct (Th j s Lj) as (p & Gp).
           assert (FeatureCloneSpec.group_of h' m' p' k) as Gk by (exists q, c; auto). destruct (mb_groups _ _ _ _ Mb s p p' Gp Gp') as (Ga & Go & _). destruct k; [|contradiction]. split; [reflexivity|].
           apply Ga in Gk. apply (apart_marked j s p Gs Lj Gp) in Gk. destruct Gk as (k0 & Gk). exists k0. apply (line_marked es To j s k0 Lj). exact Gk.
        -- intros (-> & k0 & I). pose proof (in_map fst _ _ I) as J. apply (proj2 (group_names es (labels es) (to_labels _ To))) in J. cbn [fst] in J. destruct (In_nth_error _ _ J) as (j & Lj). apply (line_marked es To j s k0 Lj) in I.
           destruct (Th j s Lj) as (p & Gp). destruct (Fb s p Gp) as (p' & _ & _ & Gp' & _). destruct (mb_groups _ _ _ _ Mb s p p' Gp Gp') as (Ga & _ & _).
           destruct (proj2 Ga (proj2 (apart_marked j s p Gs Lj Gp) (ex_intro _ k0 I))) as (q & c & Iq & C & D & P). destruct (forall2_nth_l _ _ _ _ F Iq) as ((s2, k2) & I2 & c2 & C2 & D2 & P2 & _). cbn [fst snd] in D2, P2. assert (c2 = c) as -> by congruence.
           assert (k2 = RAlternative) as -> by congruence. rewrite P in P2. symmetry in P2. destruct (get_stored h' m' t' R' s p' Gp') as (f & (_ & Ff) & N). rewrite <- N. rewrite (get_name h' m' t' R' s2 p' f P2 Ff). exact I2.
    + clear - F. induction F as [|q g qs gs X F IH]; constructor; [|exact IH]. destruct X as (c & C & D & P & _). exists c. auto.
Qed.
End Model.

(** A model with the entries as features whose valid configurations are the stated ones. *)
Lemma indented_shows es h m t vs c a : as_indented es h m -> represents h m t -> features_registered h m vs -> shows vs c a -> shows_selection es c (a_bool a).
Proof.
  intros Ai R (_ & Rg) (A & B) x y.
  assert (forall i f, stored h m i f -> numeric_kind (f_kind f) = false) as Nn.
  { intros i f Sf. destruct (position es h m t R Ai _ i (stored_get h m t R i f Sf)) as (_ & e & f' & _ & _ & F' & K & _). assert (f' = f) as -> by (pose proof (proj2 Sf); congruence). rewrite K. destruct (e_mark e); reflexivity. }
  split.
  - intros O. destruct (B x y O) as (so & I). destruct (A x so I) as (s' & O' & Sh). assert (s' = y) as -> by congruence. apply Rg in I. destruct I as (i & g & Sg & -> & ->). rewrite (Nn i g Sg) in Sh. cbn [shown] in Sh. split; [|exact Sh].
    destruct (position es h m t R Ai _ i (stored_get h m t R i g Sg)) as (j & _ & _ & L & _). exact (nth_error_In _ _ L).
  - intros (I & ->). destruct (proj1 (there es h m t R Ai x) I) as (i & G). destruct (get_stored h m t R x i G) as (g & Sg & N). destruct (A x SBool) as (s' & O & Sh); [apply Rg; exists i, g; rewrite (Nn i g Sg); auto|]. cbn [shown] in Sh. congruence.
Qed.
Lemma indented_enumerated ord check es cs h m t : is_order ord -> as_indented es h m -> represents h m t -> supported h m -> no_xor m ->
  (forall a, SolverSpec.valid h m a <-> stated_configuration es cs (a_bool a)) ->
  exists N, forall fuel, N <= fuel -> exists s, SolverModel.load ord fuel h m = Some s /\
    (decides check (s_vars s) (s_asserted s) -> exists M, forall fuel', M <= fuel' -> answers_stated es cs (get_all check fuel' s)).
Proof.
  intros O Ai R Su X V. destruct (enumerate_model ord check h m t O R Su X) as (N1 & E1). destruct (load_registers ord h m t O R Su) as (N2 & E2).
  exists (N1 + N2). intros fuel L. destruct (E1 fuel) as (s & Ls & As); [lia|]. destruct (E2 fuel) as (s2 & L2 & Rg); [lia|]. rewrite Ls in L2. injection L2 as <-. exists s. split; [exact Ls|]. intros D.
  destruct (As D) as (M & H). exists M. intros fuel' L'. destruct (H fuel' L') as [(E & Z)|(l & G & Nl & A & B & C)].
  - left. split; [exact E|]. intros sel S. apply (Z (Assignment sel (fun _ => 0%Z) (fun _ => 0%Z))). apply V. exact S.
  - right. exists l. split; [exact G|]. split; [exact Nl|]. constructor; [| |exact C].
    + intros c I. destruct (A c I) as (a & Va & Sh). exists (a_bool a). split; [apply V; exact Va|exact (indented_shows es h m t _ c a Ai R Rg Sh)].
    + intros sel S. destruct (B (Assignment sel (fun _ => 0%Z) (fun _ => 0%Z))) as (c & I & Sh); [apply V; exact S|]. exists c. split; [exact I|exact (indented_shows es h m t _ c _ Ai R Rg Sh)].
Qed.

(** ** Documents *)
Theorem document_converted ord ord1 ord2 sci order or_first h h0 step cwd d n ind es cs :
  is_order ord -> is_order ord1 -> is_order ord2 -> sci_nonneg sci -> (forall l, Permutation (order l) l) -> heap_ok h -> heap_ok h0 -> d_name d = Some n -> tidy n ->
  ind = match d_indentation d with Some i => i | None => [ascii_of_nat 9] end -> indentation_ok ind ->
  (forall e, In e es -> entry_ok e /\ id_apart e) -> tree_ok es -> labels_savable es -> groups_savable es -> tree_text ind es (d_tree d) ->
  match d_constraints d with Some t => constraints_text es cs t | None => cs = [] end -> names_known es cs ->
  exists k, forall fuel, k <= fuel -> exists h1 m1 doc h2 m2, read_sxfm ord sci order fuel or_first h d = SxDone (h1, Some m1) /\
    write_xml ord1 h1 m1 = Some doc /\ XmlModel.valid doc = true /\ read_xml ord2 sci step cwd h0 doc = SxDone (h2, Some m2) /\
    m_name m2 = n /\ as_indented (alternated es) h2 m2 /\ (forall e, stated h2 (m_boolean m2) e <-> said es cs e) /\ m_nonboolean m2 = [] /\ m_mixed m2 = [].
Proof.
  intros Oo O1 O2 So Or K K0 Dn Tn Ei Io Eo To Ls Gs Tt Dc Nk. destruct (document_known ord sci order or_first h d n ind es cs Oo Or K Dn Ei Io Eo To Tt Dc Nk) as (Fe & k & H). exists k. intros fuel L.
  destruct (H fuel L) as (h1 & m1 & E1 & DM). pose proof (dm_sound _ _ _ _ _ DM) as ((t & R) & En & Re). pose proof (model_writable n es cs h1 m1 To Nk Fe DM Tn Ls) as W.
  destruct (written_and_read ord1 ord2 sci step cwd h1 m1 t h0 O1 O2 So R (XmlCountFinal.registered_enrolled h1 m1 En) Re W K0) as (doc & h2 & m2 & Ew & Vd & Er & Mb & _ & _).
  exists h1, m1, doc, h2, m2. split; [exact E1|]. split; [exact Ew|]. split; [exact Vd|]. split; [exact Er|]. split; [rewrite (mb_name _ _ _ _ Mb); exact (dm_name _ _ _ _ _ DM)|].
  split; [exact (back_indented n es cs h1 m1 To Fe DM h2 m2 Mb Gs)|]. split; [exact (back_said n es cs h1 m1 To Nk Fe DM h2 m2 Mb)|].
  pose proof (mb_nonboolean _ _ _ _ Mb) as Q1. pose proof (mb_mixed _ _ _ _ Mb) as Q2. rewrite (dm_nonboolean _ _ _ _ _ DM) in Q1. rewrite (dm_mixed _ _ _ _ _ DM) in Q2. inversion Q1. inversion Q2. auto.
Qed.
Theorem document_kept ord ord1 ord2 ord3 sci order or_first h h0 step cwd d n ind es cs check :
  is_order ord -> is_order ord1 -> is_order ord2 -> is_order ord3 -> sci_nonneg sci -> (forall l, Permutation (order l) l) -> heap_ok h -> heap_ok h0 -> d_name d = Some n -> tidy n ->
  ind = match d_indentation d with Some i => i | None => [ascii_of_nat 9] end -> indentation_ok ind ->
  (forall e, In e es -> entry_ok e /\ id_apart e) -> tree_ok es -> labels_savable es -> groups_savable es -> tree_text ind es (d_tree d) ->
  match d_constraints d with Some t => constraints_text es cs t | None => cs = [] end -> names_known es cs ->
  exists k, forall fuel, k <= fuel -> exists h1 m1 doc h2 m2, read_sxfm ord sci order fuel or_first h d = SxDone (h1, Some m1) /\
    write_xml ord1 h1 m1 = Some doc /\ read_xml ord2 sci step cwd h0 doc = SxDone (h2, Some m2) /\
    (forall a, SolverSpec.valid h2 m2 a <-> stated_configuration (alternated es) cs (a_bool a) /\ forall c, In c cs -> ~ negates c) /\
    ((forall c, In c cs -> ~ negates c) ->
     exists N, forall fuel', N <= fuel' -> exists s, SolverModel.load ord3 fuel' h2 m2 = Some s /\
       (decides check (s_vars s) (s_asserted s) -> exists M, forall fuel'', M <= fuel'' -> answers_stated (alternated es) cs (get_all check fuel'' s))).
Proof.
  intros Oo O1 O2 O3 So Or K K0 Dn Tn Ei Io Eo To Ls Gs Tt Dc Nk. destruct (document_known ord sci order or_first h d n ind es cs Oo Or K Dn Ei Io Eo To Tt Dc Nk) as (Fe & k & H). exists k. intros fuel L.
  destruct (H fuel L) as (h1 & m1 & E1 & DM). pose proof (dm_sound _ _ _ _ _ DM) as ((t & R) & En & Re). pose proof (model_writable n es cs h1 m1 To Nk Fe DM Tn Ls) as W.
  destruct (written_and_read ord1 ord2 sci step cwd h1 m1 t h0 O1 O2 So R (XmlCountFinal.registered_enrolled h1 m1 En) Re W K0) as (doc & h2 & m2 & Ew & Vd & Er & Mb & _ & Re2).
  destruct (mb_represented _ _ _ _ Mb) as (t' & R').
  pose proof (back_indented n es cs h1 m1 To Fe DM h2 m2 Mb Gs) as Ai. pose proof (mb_nonboolean _ _ _ _ Mb) as Q1. pose proof (mb_mixed _ _ _ _ Mb) as Q2. rewrite (dm_nonboolean _ _ _ _ _ DM) in Q1. rewrite (dm_mixed _ _ _ _ _ DM) in Q2.
  assert (m_nonboolean m2 = []) as N2 by (inversion Q1; reflexivity). assert (m_mixed m2 = []) as X2 by (inversion Q2; reflexivity).
  assert (only_alternatives (alternated es)) as Oa by (intros j Mj; apply alternated_marked in Mj; destruct Mj as (Mj & _); discriminate Mj).
  assert (forall e, stated h2 (m_boolean m2) e <-> said (alternated es) cs e) as St by (intros e; rewrite alternated_said; exact (back_said n es cs h1 m1 To Nk Fe DM h2 m2 Mb e)).
  assert (inhabited_groups (alternated es)) as Ih.
  { intros j Mj. apply alternated_marked in Mj. destruct Mj as (_ & k0 & Mj). destruct (Gs j k0 Mj) as ((a & b & s & u & Ca & _) & _). exists a, s. apply alternated_child. exact Ca. }
  pose proof (indented_valid (alternated es) cs h2 m2 t' R' (alternated_tree es To) Ai Re2 (fun c I => proj1 (Fe c I)) N2 X2 Oa St) as V.
  exists h1, m1, doc, h2, m2. split; [exact E1|]. split; [exact Ew|]. split; [exact Er|]. split; [exact V|]. intros Hn.
  destruct (indented_supported (alternated es) cs h2 m2 t' R' (alternated_tree es To) Ai Re2 (fun c I => proj1 (Fe c I)) N2 X2 St Ih Hn) as (Su & X).
  apply (indented_enumerated ord3 check (alternated es) cs h2 m2 t' O3 Ai R' Su X). intros a. rewrite (V a). tauto.
Qed.
