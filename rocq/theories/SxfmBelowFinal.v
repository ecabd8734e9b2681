(** Documents in the SXFM format whose root is called neither root nor base, saved as XML
    and read back. *)
From Coq Require Import List ZArith NArith Arith Bool Ascii String Permutation Lia.
From Verif Require Import Text TextProofs LlvmInt ConstraintModel ConstraintSpec ConstraintParserModel ConstraintRoundTrip SourceRangeModel FeatureTreeModel FeatureTreeSpec FeatureTreeProofs FeatureTransactionModel
  FeatureEditSpec FeatureEditProofs FeatureTransactionSpec FeatureTransactionFinal FeatureRemoveProofs FeatureHistoryProofs FeatureCloneSpec FeatureCloneProofs FeatureBuildSpec FeatureBuildFinal SxfmModel SxfmSpec SxfmLineProofs SxfmTreeProofs SxfmTreeFinal SxfmFormulaSpec SxfmFormulaProofs SxfmBuildProofs SxfmFinal
  XmlModel XmlWriterModel XmlSpec XmlTripSpec XmlTripFinal ConfigurationModel SolverModel SolverSpec SolverLoadProofs SolverProofs SolverFinal ValidSpec ValidProofs ValidTripProofs ValidFinal CloneSameProofs DescribedSpec DescribedProofs DescribedFinal SxfmConfigSpec SxfmConfigProofs SxfmConfigFinal
  RegisterSpec RegisterProofs RegisterFinal SafeSpec SafeFinal SxfmXmlSpec SxfmXmlProofs SxfmXmlConfigProofs SxfmXmlFinal XmlBelowSpec XmlBelowFinal SxfmBelowSpec SxfmBelowProofs.
Import ListNotations.
Local Open Scope string_scope.
Local Open Scope list_scope.
Local Open Scope nat_scope.

Section Model.
Variables (n : text) (es : list entry) (cs : list (cexpr string)) (h : heap) (m : fmodel).
Hypothesis To : tree_ok es.
Hypothesis Nk : names_known es cs.
Hypothesis Fe : forall c, In c cs -> formula c /\ expressible c.
Hypothesis DM : document_model n es cs h m.
Let Ai := dm_indented _ _ _ _ _ DM.

Lemma below_model_writable : tidy n -> labels_other es -> writable_below h m.
Proof.
  intros Tn Ls. destruct (dm_sound _ _ _ _ _ DM) as ((t & R) & _). constructor.
  - intros s i f G F. destruct (position es h m t R Ai s i G) as (a & e & f' & La & _ & F' & K & N & _). assert (f' = f) as -> by congruence. unfold writable_feature. rewrite N, (dm_places _ _ _ _ _ DM s i f G F), K.
    split; [exact (label_some es 0 a s La)|]. split; [exact (proj1 (Ls a s La))|]. split; [destruct (e_mark e); exact Logic.I|constructor].
  - intros s i G. destruct (position es h m t R Ai s i G) as (a & _ & _ & La & _). exact (proj2 (Ls a s La)).
  - intros s i f G F. destruct (position es h m t R Ai s i G) as (a & e & f' & La & E & F' & K & _). assert (f' = f) as -> by congruence. rewrite (root_only es h m t R To Ai a s i La G), <- (mark_root es To a e E), K. destruct (e_mark e); split; congruence.
  - rewrite (dm_name _ _ _ _ _ DM). exact Tn.
  - rewrite (dm_path _ _ _ _ _ DM). reflexivity.
  - rewrite (dm_commit _ _ _ _ _ DM). reflexivity.
  - intros c I. right. destruct (forall2_nth _ _ _ _ (dm_boolean _ _ _ _ _ DM) I) as (x & Ix & ->). exists x. split; [apply (spelled_pointing es h m t R Ai); intros s J; exact (Nk x s Ix J)|exact (proj2 (Fe x Ix))].
  - rewrite (dm_nonboolean _ _ _ _ _ DM). intros c [].
  - rewrite (dm_mixed _ _ _ _ _ DM). intros c [].
Qed.

Variables (h' : heap) (m' : fmodel).
Hypothesis Mb : model_below h m h' m'.

Lemma below_back_said e : stated h' (m_boolean m') e <-> said es cs e.
Proof.
  destruct (dm_sound _ _ _ _ _ DM) as ((t & R) & _). rewrite (bl_boolean _ _ _ _ Mb e). unfold boolean_back, said.
  assert (forall x, In x cs -> spelled h (cmap (fun s => pointing m (Own (T s))) x) x) as Sp by (intros x Ix; apply (spelled_pointing es h m t R Ai); intros s J; exact (Nk x s Ix J)).
  assert (forall x, stated h (m_boolean m) x <-> In x cs) as St.
  { intros x. split.
    - intros (c & I & S). destruct (forall2_nth _ _ _ _ (dm_boolean _ _ _ _ _ DM) I) as (y & Iy & E). rewrite E in S. rewrite (XmlTripDoc.spelled_unique h _ x y S (Sp y Iy)). exact Iy.
    - intros I. destruct (forall2_nth_l _ _ _ _ (dm_boolean _ _ _ _ _ DM) I) as (c & Ic & E). exists c. split; [exact Ic|]. rewrite E. exact (Sp x I). }
  assert (forall x, formula x -> ~ pair x) as Np by (intros x F (o & a & b & [-> | ->] & E); subst x; inversion F).
  assert (forall x, formula x -> excludes_as_implies x = x) as Ex by (intros x F; induction F; cbn [excludes_as_implies]; congruence).
  split.
  - intros [(P & c & I & S)|[(a & b & i & j & -> & Ga & Gb & N & Tg)|(c & -> & _ & S)]].
    + exfalso. unfold all_constraints in I. rewrite (dm_nonboolean _ _ _ _ _ DM), (dm_mixed _ _ _ _ _ DM) in I. cbn [map] in I. rewrite !app_nil_r in I. apply (Np e); [|exact P]. apply Fe. apply St. exists c. auto.
    + right. exists (T a), (T b). rewrite !U_T. split; [reflexivity|]. apply (together_mates es h m t R To Ai (T a) (T b) i j Ga Gb N). exact Tg.
    + left. apply St in S. rewrite (Ex c (proj1 (Fe c S))). exact S.
  - intros [I|(s & u & -> & Gm)].
    + right. right. exists e. split; [symmetry; exact (Ex e (proj1 (Fe e I)))|]. split; [exact (Np e (proj1 (Fe e I)))|apply St; exact I].
    + right. left. pose proof Gm as (j & k & a & b & _ & (_ & La) & (_ & Lb) & N). assert (forall i v, labelled es i v -> exists x, get_feature m v = Some x) as Th by (intros i v L; apply (there es h m t R Ai); exact (nth_error_In _ _ L)).
      destruct (Th a s La) as (x & Gx). destruct (Th b u Lb) as (y & Gy). exists (U s), (U u), x, y. rewrite !T_U. split; [reflexivity|]. split; [exact Gx|]. split; [exact Gy|].
      assert (x <> y) as Nxy. { intros ->. destruct (get_stored h m t R s y Gx) as (f & (_ & F) & Ns). pose proof (get_name h m t R u y f Gy F) as Nu. apply N. apply (label_one es To a b s La). replace s with u by congruence. exact Lb. }
      split; [exact Nxy|]. apply (together_mates es h m t R To Ai s u x y Gx Gy Nxy). exact Gm.
Qed.

Lemma below_back_indented : labels_other es -> groups_savable es -> as_indented (below (alternated es)) h' m'.
Proof.
  intros Lo Gs. destruct (dm_sound _ _ _ _ _ DM) as ((t & R) & _). destruct (bl_represented _ _ _ _ Mb) as (t' & R').
  assert (forall s i, get_feature m s = Some i -> exists i' f g, get_feature m' s = Some i' /\ feature_at h i = Some f /\ feature_at h' i' = Some g /\ back (demoted f) g) as Fb.
  { intros s i G. destruct (get_stored h m t R s i G) as (f & (_ & F) & _). destruct (bl_features _ _ _ _ Mb s i f G F) as (i' & g & G' & F' & B). exists i', f, g. auto. }
  assert (forall i s, labelled es i s -> exists x, get_feature m s = Some x) as Th by (intros i v L; apply (there es h m t R Ai); exact (nth_error_In _ _ L)).
  assert (forall s i', get_feature m' s = Some i' -> s = T "root" \/ In s (labels es)) as Bk.
  { intros s i' G'. apply (find_name_in _ _ _ (ts_names _ _ (bl_tree _ _ _ _ Mb))) in G'. assert (I : In s (T "root" :: map fst (m_features m))) by (apply (Permutation_in _ (bl_names _ _ _ _ Mb)); apply in_map_iff; exists (s, i'); auto).
    destruct I as [<-|I]; [auto|]. right. apply (Permutation_in _ (ai_names _ _ _ Ai)). exact I. }
  assert (Ne : alternated es <> []) by (destruct (to_root _ To) as (e & r & -> & _); discriminate).
  pose proof (alternated_tree es To) as To2.
  pose proof (to_indented _ To2) as W2.
  constructor; rewrite ?below_lines, ?(below_labels _ Ne), ?alternated_labels.
  - exact (bl_tree _ _ _ _ Mb).
  - exact (bl_represented _ _ _ _ Mb).
  - exact (bl_consistent _ _ _ _ Mb).
  - exact (Permutation_trans (bl_names _ _ _ _ Mb) (perm_skip _ (ai_names _ _ _ Ai))).
  - destruct (bl_root _ _ _ _ Mb) as (r & f & Er & Gr & _). exists r, (T "root"). auto.
  - intros i e s Ea Es. destruct i as [|i]; cbn [nth_error] in Es.
    + injection Es as <-. destruct (bl_root _ _ _ _ Mb) as (r & f & Er & Gr & Fr & K & _ & _ & O). exists r, f. split; [exact Gr|]. split; [exact Fr|]. assert (e_mark e = Root) as -> by (destruct (alternated es); [congruence|]; injection Ea as <-; reflexivity).
      split; [exact K|]. split; [exact (get_name h' m' t' R' _ _ _ Gr Fr)|exact O].
    + rewrite (below_nth _ i Ne) in Ea. destruct (nth_error (alternated es) i) as [e1|] eqn:Ea1; [|discriminate Ea]. injection Ea as <-. destruct (alternated_nth es i e1 Ea1) as (e0 & Ee & ->). cbn [deeper e_mark]. rewrite alternated_mark.
      destruct (ai_features _ _ _ Ai i e0 s Ee Es) as (x & f & Gx & Fx & K & N & O). destruct (bl_features _ _ _ _ Mb s x f Gx Fx) as (x' & g & Gx' & Fx' & (Nb & _ & Kb & B)). exists x', g. split; [exact Gx'|]. split; [exact Fx'|].
      unfold demoted in Nb, Kb, B. rewrite K in Nb, Kb, B. destruct (e_mark e0); cbn [f_kind f_name f_optional f_locations] in *; rewrite ?K in *; cbn [kind_back] in Kb; (split; [exact Kb|]); (split; [congruence|]); cbn [optional] in *; destruct B as (_ & B); congruence.
  - intros i j s p e C Ei Ej Ea. apply (below_closest_cases _ i j W2) in C. destruct C as [(i' & j' & -> & -> & C)|(-> & -> & _)]; cbn [nth_error] in Ei, Ej.
    + rewrite alternated_levels in C. rewrite (below_nth _ j' Ne) in Ea. destruct (nth_error (alternated es) j') as [e1|] eqn:Ea1; [|discriminate Ea]. injection Ea as <-. destruct (alternated_nth es j' e1 Ea1) as (e0 & Ee & ->). cbn [deeper e_mark]. rewrite alternated_mark.
      destruct (ai_parents _ _ _ Ai i' j' s p e0 C Ei Ej Ee) as (x & y & Gx & Gy & H). destruct (Fb s x Gx) as (x' & _ & _ & Gx' & _). destruct (Fb p y Gy) as (y' & _ & _ & Gy' & _). exists x', y'. split; [exact Gx'|]. split; [exact Gy'|].
      assert (child_in h' m' y' x') as Ch.
      { split; [eauto|]. assert (parent_named h' m' s p) as (x2 & y2 & G2 & G3 & Ab); [|assert (x2 = x') as -> by congruence; assert (y2 = y') as -> by congruence; exact Ab]. apply (bl_parents _ _ _ _ Mb). left. exists x, y. split; [exact Gx|]. split; [exact Gy|]. exact (hangs_above h m t R x y _ p H Gy). }
      destruct (bl_groups _ _ _ _ Mb p y y' Gy Gy') as (_ & _ & Hg). destruct (Hg x' Ch) as (Ha & Hn). pose proof (apart_marked n es cs h m To Fe DM j' p y Gs Ej Gy) as Am.
      destruct (e_mark e0) as [| | | |k] eqn:Mk; cbn [group_of]; try (apply Hn; intros A; apply Am in A; destruct A as (k' & e' & E' & X); congruence).
      apply Ha. apply Am. exists k, e0. auto.
    + injection Ej as <-. assert (e_mark e = Root) as -> by (destruct (alternated es); [congruence|]; injection Ea as <-; reflexivity). cbn [group_of].
      destruct (bl_root _ _ _ _ Mb) as (r & f & Er & Gr & _). destruct (Th 0 s Ei) as (x & Gx). destruct (Fb s x Gx) as (x' & _ & _ & Gx' & _). exists x', r. split; [exact Gx'|]. split; [exact Gr|].
      apply (proj2 (bl_top_groups _ _ _ _ Mb r Er)). split; [eauto|]. assert (parent_named h' m' s (T "root")) as (x2 & y2 & G2 & G3 & Ab); [|assert (x2 = x') as -> by congruence; assert (y2 = r) as -> by congruence; exact Ab].
      apply (bl_parents _ _ _ _ Mb). right. split; [congruence|]. split; [|reflexivity]. rewrite Gx. symmetry. apply (root_only es h m t R To Ai 0 s x Ei Gx). reflexivity.
  - assert (exists gs, Forall2 (fun q g => exists c, h_cells h' q = Some c /\ n_data c = NRelationship (snd g) /\ n_parent c = get_feature m' (fst g) /\ get_feature m' (fst g) <> None) (m_relationships m') gs) as (gs & F).
    { apply forall2_choice. intros q Iq. destruct (group_cell h' m' t' R' q Iq) as (k & p & e0 & s & ns & Cq & Np & _). exists (s, k). cbn [fst snd]. eexists. split; [exact Cq|]. split; [reflexivity|]. cbn [n_parent].
      destruct (group_parent h' m' t' R' k p) as (g & Sg); [exists q; eexists; eauto|]. unfold name_at in Np. rewrite (proj2 Sg) in Np. cbn in Np. injection Np as <-. rewrite (stored_get h' m' t' R' p g Sg). split; [reflexivity|discriminate]. }
    exists gs. split.
    + apply NoDup_Permutation.
      * assert (NoDup (m_relationships m')) as Nr.
        { eapply Permutation_NoDup; [apply Permutation_sym; exact (rep_groups _ _ _ R')|]. exact (nodup_groups t' (rep_ids _ _ _ R')). }
        assert (forall q q' (g : text * rkind), In q (m_relationships m') -> In q' (m_relationships m') -> (exists c, h_cells h' q = Some c /\ n_parent c = get_feature m' (fst g) /\ get_feature m' (fst g) <> None) -> (exists c, h_cells h' q' = Some c /\ n_parent c = get_feature m' (fst g)) -> q = q') as One.
        { intros q q' g I I' (c & C & P & Ng) (c' & C' & P'). destruct (get_feature m' (fst g)) as [p|]; [|congruence]. exact (bl_one_group _ _ _ _ Mb p q q' c c' I I' C C' P P'). }
        revert Nr One. clear - F. induction F as [|q g qs gs X F IH]; intros Nr One; constructor.
        -- intros I. destruct (forall2_nth _ _ _ _ F I) as (q' & I' & c' & C' & _ & P' & _). apply NoDup_cons_iff in Nr. apply (proj1 Nr). destruct X as (c & C & _ & P & Ng).
           rewrite (One q q' g (or_introl eq_refl) (or_intror I')); eauto.
        -- apply NoDup_cons_iff in Nr. apply IH; [exact (proj2 Nr)|]. intros a b g' Ia Ib. apply One; right; assumption.
      * rewrite <- alternated_labels. exact (NoDup_map_inv _ _ (proj1 (group_names (alternated es) (labels (alternated es)) (to_labels _ To2)))).
      * intros (s, k). rewrite <- (alternated_labels es) at 1. rewrite alternated_lines. split.
        -- intros I. destruct (forall2_nth _ _ _ _ F I) as (q & Iq & c & C & D & P & Ng). cbn [fst snd] in D, P, Ng. destruct (get_feature m' s) as [p'|] eqn:Gp'; [|congruence].
           assert (FeatureCloneSpec.group_of h' m' p' k) as Gk by (exists q, c; auto). destruct (Bk s p' Gp') as [-> | Bs].
           { exfalso. destruct (bl_root _ _ _ _ Mb) as (r & f & Er & Gr & _). assert (r = p') as -> by congruence. exact (proj1 (bl_top_groups _ _ _ _ Mb p' Er) k Gk). }
           destruct (In_nth_error _ _ Bs) as (j & Lj). destruct (Th j s Lj) as (p & Gp).
           destruct (bl_groups _ _ _ _ Mb s p p' Gp Gp') as (Ga & Go & _). destruct k; [|contradiction]. split; [reflexivity|].
           apply Ga in Gk. apply (apart_marked n es cs h m To Fe DM j s p Gs Lj Gp) in Gk. destruct Gk as (k0 & Gk). exists k0. apply (line_marked es To j s k0 Lj). exact Gk.
        -- intros (-> & k0 & I). pose proof (in_map fst _ _ I) as J. apply (proj2 (group_names es (labels es) (to_labels _ To))) in J. cbn [fst] in J. destruct (In_nth_error _ _ J) as (j & Lj). apply (line_marked es To j s k0 Lj) in I.
           destruct (Th j s Lj) as (p & Gp). destruct (Fb s p Gp) as (p' & _ & _ & Gp' & _). destruct (bl_groups _ _ _ _ Mb s p p' Gp Gp') as (Ga & _ & _).
           destruct (proj2 Ga (proj2 (apart_marked n es cs h m To Fe DM j s p Gs Lj Gp) (ex_intro _ k0 I))) as (q & c & Iq & C & D & P). destruct (forall2_nth_l _ _ _ _ F Iq) as ((s2, k2) & I2 & c2 & C2 & D2 & P2 & _). cbn [fst snd] in D2, P2. assert (c2 = c) as -> by congruence.
           assert (k2 = RAlternative) as -> by congruence. rewrite P in P2. symmetry in P2. destruct (get_stored h' m' t' R' s p' Gp') as (f & (_ & Ff) & N). rewrite <- N. rewrite (get_name h' m' t' R' s2 p' f P2 Ff). exact I2.
    + clear - F. induction F as [|q g qs gs X F IH]; constructor; [|exact IH]. destruct X as (c & C & D & P & _). exists c. auto.
Qed.
End Model.

(** ** Documents *)
Theorem below_document_converted ord ord1 ord2 sci order or_first h h0 step cwd d n ind es cs :
  is_order ord -> is_order ord1 -> is_order ord2 -> sci_nonneg sci -> (forall l, Permutation (order l) l) -> heap_ok h -> heap_ok h0 -> d_name d = Some n -> tidy n ->
  ind = match d_indentation d with Some i => i | None => [ascii_of_nat 9] end -> indentation_ok ind ->
  (forall e, In e es -> entry_ok e /\ id_apart e) -> tree_ok es -> labels_other es -> groups_savable es -> tree_text ind es (d_tree d) ->
  match d_constraints d with Some t => constraints_text es cs t | None => cs = [] end -> names_known es cs ->
  exists k, forall fuel, k <= fuel -> exists h1 m1 doc h2 m2, read_sxfm ord sci order fuel or_first h d = SxDone (h1, Some m1) /\
    write_xml ord1 h1 m1 = Some doc /\ XmlModel.valid doc = true /\ read_xml ord2 sci step cwd h0 doc = SxDone (h2, Some m2) /\
    m_name m2 = n /\ as_indented (below (alternated es)) h2 m2 /\ (forall e, stated h2 (m_boolean m2) e <-> said es cs e) /\ m_nonboolean m2 = [] /\ m_mixed m2 = [].
Proof.
  intros Oo O1 O2 So Or K K0 Dn Tn Ei Io Eo To Ls Gs Tt Dc Nk. destruct (document_known ord sci order or_first h d n ind es cs Oo Or K Dn Ei Io Eo To Tt Dc Nk) as (Fe & k & H). exists k. intros fuel L.
  destruct (H fuel L) as (h1 & m1 & E1 & DM). pose proof (dm_sound _ _ _ _ _ DM) as ((t & R) & En & Re). pose proof (below_model_writable n es cs h1 m1 To Nk Fe DM Tn Ls) as W.
  destruct (written_and_read_below ord1 ord2 sci step cwd h1 m1 t h0 O1 O2 So R (XmlCountFinal.registered_enrolled h1 m1 En) Re W K0) as (doc & h2 & m2 & Ew & Vd & Er & Mb & _ & _).
  exists h1, m1, doc, h2, m2. split; [exact E1|]. split; [exact Ew|]. split; [exact Vd|]. split; [exact Er|]. split; [rewrite (bl_name _ _ _ _ Mb); exact (dm_name _ _ _ _ _ DM)|].
  split; [exact (below_back_indented n es cs h1 m1 To Nk Fe DM h2 m2 Mb Ls Gs)|]. split; [exact (below_back_said n es cs h1 m1 To Nk Fe DM h2 m2 Mb)|].
  pose proof (bl_nonboolean _ _ _ _ Mb) as Q1. pose proof (bl_mixed _ _ _ _ Mb) as Q2. rewrite (dm_nonboolean _ _ _ _ _ DM) in Q1. rewrite (dm_mixed _ _ _ _ _ DM) in Q2. inversion Q1. inversion Q2. auto.
Qed.
Theorem below_document_kept ord ord1 ord2 ord3 sci order or_first h h0 step cwd d n ind es cs check :
  is_order ord -> is_order ord1 -> is_order ord2 -> is_order ord3 -> sci_nonneg sci -> (forall l, Permutation (order l) l) -> heap_ok h -> heap_ok h0 -> d_name d = Some n -> tidy n ->
  ind = match d_indentation d with Some i => i | None => [ascii_of_nat 9] end -> indentation_ok ind ->
  (forall e, In e es -> entry_ok e /\ id_apart e) -> tree_ok es -> labels_other es -> groups_savable es -> tree_text ind es (d_tree d) ->
  match d_constraints d with Some t => constraints_text es cs t | None => cs = [] end -> names_known es cs ->
  exists k, forall fuel, k <= fuel -> exists h1 m1 doc h2 m2, read_sxfm ord sci order fuel or_first h d = SxDone (h1, Some m1) /\
    write_xml ord1 h1 m1 = Some doc /\ read_xml ord2 sci step cwd h0 doc = SxDone (h2, Some m2) /\
    (forall a, SolverSpec.valid h2 m2 a <-> selected a (T "root") /\ stated_configuration (alternated es) cs (a_bool a) /\ forall c, In c cs -> ~ negates c) /\
    ((forall c, In c cs -> ~ negates c) ->
     exists N, forall fuel', N <= fuel' -> exists s, SolverModel.load ord3 fuel' h2 m2 = Some s /\
       (decides check (s_vars s) (s_asserted s) -> exists M, forall fuel'', M <= fuel'' -> answers_stated (below (alternated es)) cs (get_all check fuel'' s))).
Proof.
  intros Oo O1 O2 O3 So Or K K0 Dn Tn Ei Io Eo To Ls Gs Tt Dc Nk. destruct (document_known ord sci order or_first h d n ind es cs Oo Or K Dn Ei Io Eo To Tt Dc Nk) as (Fe & k & H). exists k. intros fuel L.
  destruct (H fuel L) as (h1 & m1 & E1 & DM). pose proof (dm_sound _ _ _ _ _ DM) as ((t & R) & En & Re). pose proof (below_model_writable n es cs h1 m1 To Nk Fe DM Tn Ls) as W.
  destruct (written_and_read_below ord1 ord2 sci step cwd h1 m1 t h0 O1 O2 So R (XmlCountFinal.registered_enrolled h1 m1 En) Re W K0) as (doc & h2 & m2 & Ew & Vd & Er & Mb & _ & Re2).
  destruct (bl_represented _ _ _ _ Mb) as (t' & R').
  pose proof (below_back_indented n es cs h1 m1 To Nk Fe DM h2 m2 Mb Ls Gs) as Ai. pose proof (bl_nonboolean _ _ _ _ Mb) as Q1. pose proof (bl_mixed _ _ _ _ Mb) as Q2. rewrite (dm_nonboolean _ _ _ _ _ DM) in Q1. rewrite (dm_mixed _ _ _ _ _ DM) in Q2.
  assert (m_nonboolean m2 = []) as N2 by (inversion Q1; reflexivity). assert (m_mixed m2 = []) as X2 by (inversion Q2; reflexivity).
  pose proof (alternated_tree es To) as To2. pose proof (to_indented _ To2) as W2. assert (Ne : alternated es <> []) by (destruct (to_root _ To) as (e & r & -> & _); discriminate).
  assert (To3 : tree_ok (below (alternated es))).
  { apply below_tree; [exact To2|]. rewrite alternated_labels. intros I. destruct (In_nth_error _ _ I) as (j & Lj). destruct (Ls j _ Lj) as (_ & X & _). exact (X eq_refl). }
  assert (only_alternatives (below (alternated es))) as Oa by (intros j Mj; apply below_marked in Mj; destruct Mj as (j' & -> & Mj); apply alternated_marked in Mj; destruct Mj as (Mj & _); discriminate Mj).
  assert (forall e, stated h2 (m_boolean m2) e <-> said (below (alternated es)) cs e) as St by (intros e; rewrite (below_said _ cs e Ne W2), alternated_said; exact (below_back_said n es cs h1 m1 To Nk Fe DM h2 m2 Mb e)).
  assert (inhabited_groups (below (alternated es))) as Ih.
  { intros j Mj. apply below_marked in Mj. destruct Mj as (j' & -> & Mj). apply alternated_marked in Mj. destruct Mj as (_ & k0 & Mj). destruct (Gs j' k0 Mj) as ((a & b & s & u & Ca & _) & _). exists (S a), s. apply (below_child _ _ _ _ Ne W2). left. exists j', a. rewrite alternated_child. auto. }
  pose proof (indented_valid (below (alternated es)) cs h2 m2 t' R' To3 Ai Re2 (fun c I => proj1 (Fe c I)) N2 X2 Oa St) as V.
  exists h1, m1, doc, h2, m2. split; [exact E1|]. split; [exact Ew|]. split; [exact Er|]. split; [intros a; rewrite (V a), (below_configuration _ cs _ To2); unfold selected; tauto|]. intros Hn.
  destruct (indented_supported (below (alternated es)) cs h2 m2 t' R' To3 Ai Re2 (fun c I => proj1 (Fe c I)) N2 X2 St Ih Hn) as (Su & X).
  apply (indented_enumerated ord3 check (below (alternated es)) cs h2 m2 t' O3 Ai R' Su X). intros a. rewrite (V a). tauto.
Qed.
