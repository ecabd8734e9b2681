(** Models made by careful use of the interface are in good condition. *)
From Coq Require Import List ZArith Arith Bool Ascii String Permutation Lia.
From Verif Require Import Text TextProofs ConstraintModel ConstraintSpec ConstraintParserModel ConstraintRoundTrip SourceRangeModel FeatureTreeModel FeatureTreeSpec FeatureTreeProofs FeatureOrderProofs FeatureTreeFinal FeatureTransactionModel FeatureTransactionSpec FeatureTransactionFinal
  FeatureEditSpec FeatureEditProofs FeatureDataProofs FeatureIsolationProofs FeatureHistoryProofs FeatureBulkSpec FeatureBulkProofs FeatureRecursiveModel FeatureRecursiveSpec FeatureCloneSpec FeatureCloneProofs FeatureMergeSpec FeatureMergeResult FeatureBuildSpec FeatureBuildFinal
  SxfmModel SxfmSpec SxfmFormulaSpec SxfmFinal XmlModel XmlWriterModel XmlSpec XmlFinal XmlTripSpec XmlTripFinal RegisterSpec RegisterProofs RegisterFinal XmlCountFinal ValidFinal GraphvizModel GraphvizFinal RegisterDrawProofs DumpModel DumpProofs SolverEncodingProofs SafeSpec SafeProofs CopySafeSpec CopySafeProofs SafeMadeSpec.
Import ListNotations.
Local Open Scope nat_scope.

(** ** Constraints that are connected *)
Lemma linked_resolved (d : decl) m e c : mentions_declared d e -> (forall s, taken d s -> exists i, get_feature m s = Some i) -> links_to m e c ->
  forall r, In r (leaves (c_expr c)) -> exists s i, r = Ref i /\ get_feature m s = Some i.
Proof.
  intros De Kn L r. unfold links_to in L. rewrite L, FeatureTransactionFinal.leaves_cmap, in_map_iff. intros (q & <- & Iq). destruct (De q Iq) as (s & -> & Ts). destruct (Kn s Ts) as (i & G). exists s, i. cbn. rewrite G. auto.
Qed.
Lemma forall2_right {A B} (P : A -> B -> Prop) l l' y : Forall2 P l l' -> In y l' -> exists x, In x l /\ P x y.
Proof. induction 1 as [|a b l l' H F IH]; intros []; [subst; exists a; split; [left; reflexivity|exact H]|]. destruct IH as (x & I & Px); [assumption|]. exists x. split; [right; exact I|exact Px]. Qed.

Lemma described_resolved cs d h m : (forall c, In c cs -> relation_ok d c) -> as_described cs d h m -> all_resolved m.
Proof.
  intros De A. assert (Kn : forall s, taken d s -> exists i, get_feature m s = Some i).
  { intros s [->|I]; [destruct (ad_root _ _ _ _ A) as (r & f & _ & G & _); eauto|]. apply in_map_iff in I. destruct I as (f & <- & I). destruct (ad_data _ _ _ _ A f I) as (i & g & G & _). eauto. }
  assert (Dm : forall k e, In (k, e) (constraints_of cs) -> mentions_declared d e).
  { intros k e I. unfold constraints_of in I. apply in_flat_map in I. destruct I as (c & Ic & Ie). pose proof (De c Ic) as X. destruct c; try contradiction. destruct Ie as [Ie|[]]. injection Ie as <- <-. exact X. }
  intros c r Ic Ir. unfold all_constraints in Ic. rewrite !in_app_iff, in_map_iff in Ic. destruct Ic as [Ic|[Ic|(x & <- & Ic)]].
  - destruct (forall2_right _ _ _ _ (ad_boolean _ _ _ _ A) Ic) as (e & Ie & L). apply in_flat_map in Ie. destruct Ie as ((k & e') & I' & Ie). destruct k; cbn in Ie; try contradiction. destruct Ie as [<-|[]].
    exact (linked_resolved d m e' c (Dm _ _ I') Kn L r Ir).
  - destruct (forall2_right _ _ _ _ (ad_nonboolean _ _ _ _ A) Ic) as (e & Ie & L). apply in_flat_map in Ie. destruct Ie as ((k & e') & I' & Ie). destruct k; cbn in Ie; try contradiction. destruct Ie as [<-|[]].
    exact (linked_resolved d m e' c (Dm _ _ I') Kn L r Ir).
  - destruct (forall2_right _ _ _ _ (ad_mixed _ _ _ _ A) Ic) as (e & Ie & L & _). apply in_flat_map in Ie. destruct Ie as ((k & e') & I' & Ie). destruct k; cbn in Ie; try contradiction. destruct Ie as [<-|[]].
    exact (linked_resolved d m e' (x_con x) (Dm _ _ I') Kn L r Ir).
Qed.
Lemma copied_resolved h h' m' bs ns xs :
  Forall2 (fun c c' => same_constraint h h' m' (c_expr c) (c_expr c')) bs (m_boolean m') -> Forall2 (fun c c' => same_constraint h h' m' (c_expr c) (c_expr c')) ns (m_nonboolean m') ->
  Forall2 (fun x x' => same_constraint h h' m' (c_expr (x_con x)) (c_expr (x_con x')) /\ x_req x' = x_req x /\ x_kind x' = x_kind x) xs (m_mixed m') -> all_resolved m'.
Proof.
  intros B N X c r Ic Ir. unfold all_constraints in Ic. rewrite !in_app_iff, in_map_iff in Ic. destruct Ic as [Ic|[Ic|(x & <- & Ic)]].
  - destruct (forall2_right _ _ _ _ B Ic) as (e & _ & _ & H). exact (H r Ir).
  - destruct (forall2_right _ _ _ _ N Ic) as (e & _ & _ & H). exact (H r Ir).
  - destruct (forall2_right _ _ _ _ X Ic) as (e & _ & (_ & H) & _). exact (H r Ir).
Qed.

(** ** Other objects *)
Lemma left_sound h m h' : sound h m -> heap_ok h' -> h_next h <= h_next h' -> (forall i, i < h_next h -> h_cells h' i = h_cells h i) -> sound h' m.
Proof.
  intros ((t & R) & G & A) Ho Le Eq. split; [exists t; exact (represents_kept h h' m t R Ho Eq)|]. split; [|exact A].
  assert (Fa : forall s i, get_feature m s = Some i -> feature_at h' i = feature_at h i) by (intros s i X; unfold feature_at; rewrite (Eq i (rg_keys _ _ G s i X)); reflexivity).
  destruct G as [[a b c d e f] Hk Ke Na Di Id Re]. constructor; [constructor| | | | | |]; try assumption.
  - intros s i x id pos G F. rewrite (Fa s i G) in F. eauto.
  - intros s i x G F. rewrite (Fa s i G) in F. eauto.
  - intros s i x id G F. rewrite (Fa s i G) in F. eauto.
  - intros s i x id G F. rewrite (Fa s i G) in F. eauto.
  - intros s i x id G F. rewrite (Fa s i G) in F. eauto.
  - intros s i x id G F. rewrite (Fa s i G) in F. eauto.
  - intros s i G. pose proof (Ke s i G). lia.
  - intros s i x G F. rewrite (Fa s i G) in F. eauto.
  - intros x I. pose proof (Id x I). lia.
  - intros x i I J. pose proof (Re x i I J). lia.
Qed.

(** ** Copies *)
Lemma clone_sound ord map_order h m h' m' : is_order ord -> (forall l, Permutation (map_order l) l) -> sound h m -> root_name_free m -> clone_model ord map_order h m = Some (h', m') -> sound h' m'.
Proof.
  intros O Mo ((t & R) & G & A) Rf E. destruct (model_cloned ord O map_order Mo h m t R (resolved_connected h m t R A) Rf) as (h2 & m2 & E2 & Cl & _). rewrite E in E2. injection E2 as <- <-.
  split; [exact (cl_represented _ _ _ _ Cl)|]. split; [exact (clone_registered ord map_order h m h' m' (rep_ok _ _ _ R) E)|].
  exact (copied_resolved h h' m' _ _ _ (cl_boolean _ _ _ _ Cl) (cl_nonboolean _ _ _ _ Cl) (cl_mixed _ _ _ _ Cl)).
Qed.
Theorem careful_copies ord map_order h m : is_order ord -> (forall l, Permutation (map_order l) l) -> sound h m -> root_name_free m ->
  exists h1 m1, open_copy ord map_order h m = Some (h1, Ctx (Some m1) true) /\ cloned h m h1 m1 /\
  forall os, careful_copy ord (h1, m1) os -> exists h2 m2, copy_run ord os h1 (Ctx (Some m1) true) = Some (h2, Ctx (Some m2) true) /\ commit_copy h2 (Ctx (Some m2) true) = Some (Some m2, Ctx None true) /\ sound h2 m2 /\ sound h2 m.
Proof.
  intros O Mo So Rf. pose proof So as ((t & R) & G & A). destruct (model_cloned ord O map_order Mo h m t R (resolved_connected h m t R A) Rf) as (h1 & m1 & E & Cl & _). exists h1, m1.
  assert (E1 : open_copy ord map_order h m = Some (h1, Ctx (Some m1) true)) by (unfold open_copy; rewrite (represents_consistent h m t R); cbn [bind]; unfold ctx_start; rewrite E; reflexivity).
  split; [exact E1|]. split; [exact Cl|]. intros os C. destruct (careful_copy_runs ord O os h1 m1 true (clone_sound ord map_order h m h1 m1 O Mo So Rf E) C) as (h2 & m2 & E2 & S2). exists h2, m2. split; [exact E2|].
  split; [unfold commit_copy; cbn [x_copy x_continue]; destruct S2 as ((t2 & R2) & _); rewrite (represents_consistent h2 m2 t2 R2); reflexivity|]. split; [exact S2|].
  destruct (copy_grows ord O map_order h m _ _ os h2 _ (rep_ok _ _ _ R) E1 E2) as (K & L & Q). exact (left_sound h m h2 So K L Q).
Qed.

(** ** All of them *)
Theorem made_sound h m : made h m -> sound h m.
Proof.
  induction 1 as [h name root path commit Ho|ord h cs d h' m O Ho De Fr E|ord sci step cwd h e cs d h' m O Ho St De E|ord sci order or_first h d n ind es cs h' m O Op Ho Dn Ei Io Ok To Tt Ct Nk E
    |ord ord' sci step cwd h m h0 doc h' m' O O' Sn Ho M ((t & R) & G & A) W Ew Er|ord h m os t w e O M IH C E|ord part_order fuel h m rs w left O Pa Le M ((t & R) & G & A) Ro Nd Ne Un E
    |h m h' M IH Ho Le Eq|ord map_order h m h' m' O Mo M IH Rf E|ord map_order h m h1 m1 os h2 t2 m' t3 O Mo M IH Rf E1 C E2 E3|ord map_order h m1 m2 strict h' m' O Mo M1 ((t1 & R1) & G1 & A1) M2 ((t2 & R2) & G2 & A2) Rf Sh Fit E].
  - split; [eexists; exact (represents_new h name root path commit Ho)|]. split; [exact (new_model_registered h name root path commit Ho)|]. intros c r [].
  - split; [|split; [exact (build_registered ord h cs h' m Ho Fr E)|]]; destruct (built ord O h cs d Ho De) as (h2 & m2 & E2 & Ad & _); rewrite E in E2; injection E2 as <- <-.
    + exact (ad_represented _ _ _ _ Ad).
    + exact (described_resolved cs d h' m (de_relations _ _ De) Ad).
  - assert (valid e = true) as V by (exact (proj1 (document_needed ord sci step cwd h e _ E))). destruct (document_means ord sci step O cwd h e cs d Ho V St De) as (h2 & m2 & ps & E2 & _ & _ & _ & Ad & _ & _ & Rs). rewrite E in E2. injection E2 as <- <-.
    split; [exact (ad_represented _ _ _ _ Ad)|]. split; [exact (xml_registered ord sci step cwd h e h' m Ho E)|exact Rs].
  - destruct (document_read ord sci order or_first h d n ind es cs O Op Ho Dn Ei Io Ok To Tt Ct Nk) as (k & K). destruct (E k) as (fuel & Lf & E1). destruct (K fuel Lf) as (h2 & m2 & E2 & _ & _ & Ai & F2 & Nn & Nx). rewrite E1 in E2. injection E2 as <- <-.
    split; [exact (ai_represented _ _ _ Ai)|]. split; [exact (sxfm_registered ord sci order fuel or_first h d h' m Ho E1)|].
    intros c r Ic Ir. unfold all_constraints in Ic. rewrite Nn, Nx, app_nil_r in Ic. cbn [map] in Ic. rewrite ?app_nil_r in Ic. destruct (forall2_right _ _ _ _ F2 Ic) as (x & Ix & X). rewrite X, FeatureTransactionFinal.leaves_cmap, in_map_iff in Ir. destruct Ir as (s & <- & Is).
    pose proof (Nk x s Ix Is) as Il. apply (Permutation_in _ (Permutation_sym (ai_names _ _ _ Ai))) in Il. destruct (ai_represented _ _ _ Ai) as (t & R). apply in_map_iff in Il. destruct Il as ((s' & i) & Es & Il). cbn in Es. subst s'.
    assert (get_feature m (T s) = Some i) as G by (apply (rep_find R); apply (Permutation_in _ (rep_features _ _ _ R)); exact Il). exists (T s), i. cbn. rewrite G. auto.
  - destruct (written_and_read ord ord' sci step cwd h m t h0 O O' Sn R (registered_enrolled _ _ G) A W Ho) as (doc' & h2 & m2 & Ew' & V & Er' & Mb & _ & Rs).
    assert (doc' = doc) as -> by congruence. rewrite Er in Er'. injection Er' as <- <-. split; [exact (mb_represented _ _ _ _ Mb)|]. split; [exact (xml_registered ord' sci step cwd h0 doc h' m' Ho Er)|exact Rs].
  - destruct (careful_commits ord O os (h, m) IH C) as (w' & e' & E' & _ & So). rewrite E in E'. injection E' as _ <- _. exact So.
  - destruct w as (h' & m'). cbn [fst snd]. destruct (bulk_exact ord part_order rs h m t fuel O Pa Le R Ro Nd Ne) as (h2 & m2 & rest & gone & E2 & _ & _ & _ & (t' & R') & Sr & Nn & Th & _). rewrite E in E2. injection E2 as <- <- _.
    split; [eauto|]. split; [exact (removed_registered ord part_order fuel (h, m) rs (h', m') left E G)|].
    apply (resolved_kept h m t h' m' t' R R' (same_rest_constraints _ _ Sr) A). intros i I. assert (In i (map snd (m_features m))) as K by (apply (resolved_ids h m t R) in A; exact (proj2 A i I)).
    assert (In i (nodes m')) as Ni by (apply Nn; split; [unfold nodes; apply in_or_app; auto|exact (Un i I)]). destruct (Th i Ni) as (c & es' & C1 & C2 & _).
    apply (rep_feature_node R) in K. destruct K as (u & f & Su & Eu & Du). pose proof (rep_feature_at h m t u f R Su Du) as Fu. rewrite Eu in Fu.
    apply (rep_node R') in Ni. destruct (ids_subtree _ _ Ni) as (v & V & Ev). apply (rep_feature_node R'). exists v, f. split; [exact V|]. split; [exact Ev|].
    pose proof (rep_cell R' v V) as Cv. rewrite Ev, C2 in Cv. destruct Cv as (q & Cv). injection Cv as Cv _ _. unfold feature_at in Fu. rewrite C1 in Fu. cbn in Fu. rewrite <- Cv. destruct (n_data c); [injection Fu as ->; reflexivity|discriminate].
  - exact (left_sound h m h' IH Ho Le Eq).
  - exact (clone_sound ord map_order h m h' m' O Mo IH Rf E).
  - destruct (careful_copies ord map_order h m O Mo IH Rf) as (h1' & m1' & E1' & _ & K). rewrite E1 in E1'. injection E1' as <- <-. destruct (K os C) as (h3 & m3 & E4 & E5 & S3 & _). rewrite E2 in E4. injection E4 as -> ->. rewrite E3 in E5. injection E5 as -> _. exact S3.
  - destruct (merge_success ord O map_order Mo h m1 m2 t1 t2 strict R1 R2 (resolved_connected h m1 t1 R1 A1) Rf Sh Fit) as (h2 & m3 & E2 & Mg & _). rewrite E in E2. injection E2 as <- <-.
    split; [exact (mg_represented _ _ _ _ _ Mg)|]. split; [exact (merged_registered ord map_order h m1 m2 strict h' m' (rep_ok _ _ _ R1) E)|].
    exact (copied_resolved h h' m' _ _ _ (mg_boolean _ _ _ _ _ Mg) (mg_nonboolean _ _ _ _ _ Mg) (mg_mixed _ _ _ _ _ Mg)).
Qed.

(** ** What can be done with them *)
Theorem sound_used h m : sound h m ->
  consistent h m = Some true /\
  (forall ord, is_order ord -> exists r l, m_root m = Some r /\ iterate ord (S (h_next h)) h (Some r) = Some l /\ NoDup l /\ forall i, In i l <-> exists s, get_feature m s = Some i) /\
  (forall order, (forall l, Permutation (order l) l) -> exists x, dump_model order h m = Some x) /\
  (forall ptr this title, exists x, write_graph ptr this h m title = Some x) /\
  (root_name_free m -> forall ord map_order, is_order ord -> (forall l, Permutation (map_order l) l) -> exists h' m', clone_model ord map_order h m = Some (h', m')) /\
  (writable h m -> forall ord, is_order ord -> exists doc, write_xml ord h m = Some doc /\ valid doc = true).
Proof.
  intros ((t & R) & G & A). split; [exact (represents_consistent h m t R)|]. split; [|split; [|split; [|split]]].
  - intros ord O. destruct (rep_top_data R) as (f & Df & _). destruct (iterate_features ord h t O (rep_ok _ _ _ R) (rep_holds _ _ _ R) (rep_ids _ _ _ R)) as (l & E & _ & P & N); [rewrite Df; reflexivity|].
    exists (rid t), l. split; [exact (rep_root _ _ _ R)|]. split; [apply E; lia|]. split; [exact N|]. intros i. rewrite (known_feature h m t R i). rewrite (rep_feature_node R). transitivity (In i (feature_ids t)); [split; apply Permutation_in; [exact P|exact (Permutation_sym P)]|]. rewrite feature_ids_subtree. split.
    + intros (u & Su & Eu & Fu). destruct (rdata u) as [g|k] eqn:Du; [|discriminate]. exists u, g. auto.
    + intros (u & g & Su & Eu & Du). exists u. rewrite Du. auto.
  - intros order Oo. destruct (dump_lists order h m t R Oo) as (es & E & _). eauto.
  - intros ptr this title. destruct (graphs_draw_the_tree ptr this h m t title R (registered_drawable h m t G R A)) as (start & items & x & E & _). eauto.
  - intros Rf ord map_order O Mo. destruct (model_cloned ord O map_order Mo h m t R (resolved_connected h m t R A) Rf) as (h2 & m2 & E2 & _). eauto.
  - intros W ord O. assert (sci_nonneg (fun _ => None)) as Sn by (intros x y; discriminate). destruct (written_and_read ord ord (fun _ => None) (fun _ => SxRefused) [] h m t h O O Sn R (registered_enrolled _ _ G) A W (rep_ok _ _ _ R)) as (doc & h2 & m2 & E & V & _). eauto.
Qed.
