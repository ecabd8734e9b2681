(** Built and read models have the described configurations and are enumerated so. *)
From Coq Require Import List ZArith Arith Bool Ascii String Permutation Lia.
From Verif Require Import Text TextProofs ConstraintModel ConstraintSpec FeatureTreeModel FeatureTreeSpec FeatureTreeProofs FeatureTransactionModel FeatureTransactionSpec FeatureEditSpec FeatureEditProofs
  FeatureHistoryProofs FeatureBuildSpec FeatureBuildFinal FeatureCloneSpec FeatureCloneProofs SxfmModel XmlModel XmlSpec XmlTripSpec XmlReadProofs XmlDetectFinal XmlFinal ConfigurationModel SolverModel SolverSpec SolverProofs SolverLoadProofs SolverFinal
  ValidSpec ValidProofs DescribedSpec DescribedProofs.
Import ListNotations.

Lemma shown_fun a n t s s' : shown a n t s -> shown a n t s' -> s = s'.
Proof.
  destruct t; cbn [shown].
  - congruence.
  - intros [(A & ->)|(A & ->)] [(B & ->)|(B & ->)]; try reflexivity; lia.
Qed.
Section Enumerated.
Variables (cs : list bcall) (d : decl) (h : heap) (m : fmodel) (t : tree).
Hypothesis R : represents h m t.
Hypothesis AD : as_described cs d h m.
Hypothesis DE : describes cs d.

Lemma shows_displays vs c a : features_registered h m vs -> shows vs c a -> displays d c a.
Proof.
  intros (_ & Rg) (A & B) n s. split.
  - intros O. destruct (B n s O) as (so & I). destruct (A n so I) as (s' & O' & Sh). assert (s' = s) as -> by congruence. apply Rg in I. destruct I as (i & g & Sg & -> & ->).
    split; [apply (declared_in cs d h m t R AD); exists i; exact (stored_get h m t R i g Sg)|]. pose proof (numeric_stored cs d h m t R AD i g Sg) as Nm. destruct (numeric_kind (f_kind g)) eqn:K; [left|right]; (split; [|exact Sh]); [tauto|].
    intros X. apply Nm in X. discriminate.
  - intros (Tk & Sh). apply (declared_in cs d h m t R AD) in Tk. destruct Tk as (i & G). destruct (get_stored h m t R n i G) as (g & Sg & N). pose proof (numeric_stored cs d h m t R AD i g Sg) as Nm. rewrite N in Nm.
    destruct (A n (if numeric_kind (f_kind g) then SInt else SBool)) as (s' & O & Sh'); [apply Rg; exists i, g; auto|]. rewrite O. f_equal. destruct (numeric_kind (f_kind g)), Sh as [(X & Sh)|(X & Sh)].
    + exact (shown_fun a n _ _ _ Sh' Sh).
    + exfalso. apply X. tauto.
    + apply Nm in X. discriminate.
    + exact (shown_fun a n _ _ _ Sh' Sh).
Qed.
Lemma enumerated_described ord check : is_order ord -> settled cs d (requested cs) ->
  exists N, forall fuel, N <= fuel -> exists s, SolverModel.load ord fuel h m = Some s /\
    (decides check (s_vars s) (s_asserted s) -> exists M, forall fuel', M <= fuel' -> answers d (configures cs d (requested cs)) (get_all check fuel' s)).
Proof.
  intros O Se. destruct (settled_supported cs d h m t R AD DE Se) as (Su & X). destruct (enumerate_model ord check h m t O R Su X) as (N1 & E1). destruct (load_registers ord h m t O R Su) as (N2 & E2).
  exists (N1 + N2). intros fuel L. destruct (E1 fuel) as (s & Ls & As); [lia|]. destruct (E2 fuel) as (s2 & L2 & Rg); [lia|]. rewrite Ls in L2. injection L2 as <-. exists s. split; [exact Ls|]. intros D.
  destruct (As D) as (M & H). exists M. intros fuel' L'. destruct (H fuel' L') as [(U & Z)|(l & G & Nl & A & B & C)].
  - left. split; [exact U|]. intros a Ca. apply (Z a). apply (described_valid cs d h m t R AD DE). exact Ca.
  - right. exists l. split; [exact G|]. split; [exact Nl|]. constructor; [| |exact C].
    + intros c I. destruct (A c I) as (a & V & Sh). exists a. split; [apply (described_valid cs d h m t R AD DE); exact V|exact (shows_displays _ c a Rg Sh)].
    + intros a Ca. apply (described_valid cs d h m t R AD DE) in Ca. destruct (B a Ca) as (c & I & Sh). exists c. split; [exact I|exact (shows_displays _ c a Rg Sh)].
Qed.
End Enumerated.

(** ** Built models *)
Lemma built_valid ord h cs d : is_order ord -> heap_ok h -> describes cs d ->
  exists h' m', build_calls ord h cs = Some (h', Some m') /\ forall a, SolverSpec.valid h' m' a <-> configures cs d (requested cs) a.
Proof.
  intros O K De. destruct (built ord O h cs d K De) as (h' & m' & E & AD & _). exists h', m'. split; [exact E|]. destruct (ad_represented _ _ _ _ AD) as (t & R). exact (described_valid cs d h' m' t R AD De).
Qed.
Lemma built_enumerated ord ord' check h cs d : is_order ord -> is_order ord' -> heap_ok h -> describes cs d -> settled cs d (requested cs) ->
  exists h' m', build_calls ord h cs = Some (h', Some m') /\ exists N, forall fuel, N <= fuel -> exists s, SolverModel.load ord' fuel h' m' = Some s /\
    (decides check (s_vars s) (s_asserted s) -> exists M, forall fuel', M <= fuel' -> answers d (configures cs d (requested cs)) (get_all check fuel' s)).
Proof.
  intros O O' K De Se. destruct (built ord O h cs d K De) as (h' & m' & E & AD & _). exists h', m'. split; [exact E|]. destruct (ad_represented _ _ _ _ AD) as (t & R). exact (enumerated_described cs d h' m' t R AD De ord' check O' Se).
Qed.

(** ** Documents *)
Section Same.
Variables (cs cs' : list bcall) (d : decl) (G G' : text -> rkind -> Prop).
Hypothesis Ed : forall s, last_edge cs s (fst d) = last_edge cs' s (fst d).
Hypothesis Co : constraints_of cs = constraints_of cs'.
Hypothesis Gr : forall s k, G s k <-> G' s k.
Lemma below_same s f : below cs d s f <-> below cs' d s f.
Proof. unfold below. rewrite Ed. reflexivity. Qed.
Lemma configures_same a : configures cs d G a -> configures cs' d G' a.
Proof.
  intros [C1 C2 C3 C4 C5 C6 C7 C8]. unfold parent_of in *. constructor; unfold parent_of.
  - exact C1.
  - intros f I K. rewrite <- Ed. exact (C2 f I K).
  - intros f I K O Ng. rewrite <- Ed in *. apply C3; auto. intros k X. apply (Ng k). apply Gr. exact X.
  - intros s X Sel. apply Gr in X. destruct (C4 s X Sel) as (f & B & Sf & U). exists f. split; [apply below_same; exact B|]. split; [exact Sf|]. intros g Bg. apply U. apply below_same. exact Bg.
  - intros s X Sel. apply Gr in X. destruct (C5 s X Sel) as (f & B & Sf). exists f. split; [apply below_same; exact B|exact Sf].
  - exact C6.
  - rewrite <- Co. exact C7.
  - rewrite <- Co. exact C8.
Qed.
Lemma settled_same : settled cs d G -> settled cs' d G'.
Proof.
  intros [C1 C2 C3 C4 C5 C6 C7]. unfold parent_of in *. constructor; unfold parent_of; try (rewrite <- Co; assumption); auto.
  - intros f I K. rewrite <- Ed. exact (C2 f I K).
  - intros s X. apply Gr in X. destruct (C3 s X) as (f & B). exists f. apply below_same. exact B.
Qed.
End Same.
Lemma constraints_groups cs ps : constraints_of (cs ++ groups_at ps) = constraints_of cs.
Proof. unfold constraints_of. rewrite flat_map_app. transitivity (flat_map (fun c => match c with BConstraint k e => [(k, e)] | _ => [] end) cs ++ []); [|apply app_nil_r]. f_equal. unfold groups_at. induction ps; [reflexivity|assumption]. Qed.

Lemma read_described ord sci step : is_order ord -> forall cwd h e cs d, heap_ok h -> XmlModel.valid e = true -> stands sci step cwd e cs -> describes cs d ->
  exists h' m' t cs', read_xml ord sci step cwd h e = SxDone (h', Some m') /\ represents h' m' t /\ as_described cs' d h' m' /\ describes cs' d /\
    (forall s, last_edge cs' s (fst d) = last_edge cs s (fst d)) /\ constraints_of cs' = constraints_of cs /\ forall s k, requested cs' s k <-> found cs d s k.
Proof.
  intros O cwd h e cs d K Ve St De. destruct (document_means ord sci step O cwd h e cs d K Ve St De) as (h' & m' & ps & E & _ & _ & Ps & AD & De' & _). destruct (ad_represented _ _ _ _ AD) as (t & R).
  exists h', m', t, (cs ++ groups_at ps). split; [exact E|]. split; [exact R|]. split; [exact AD|]. split; [exact De'|]. split; [intros s; apply last_edge_groups|]. split; [apply constraints_groups|].
  intros s k. unfold requested, found. rewrite requests_groups. rewrite (plain_requests _ (stands_plain sci step cwd e cs St)). cbn [app]. split.
  - intros I. apply in_map_iff in I. destruct I as (p & X & I). injection X as -> <-. split; [reflexivity|]. apply Ps. exact I.
  - intros (-> & Al). apply in_map_iff. exists s. split; [reflexivity|]. apply Ps. split; [|exact Al]. destruct Al as ((f & g & (I & <-) & _) & _). pose proof (parent_taken (cs ++ groups_at ps) d h' m' t R AD f I) as Tk. unfold parent_of in Tk. rewrite last_edge_groups in Tk. exact Tk.
Qed.

Lemma read_valid ord sci step cwd h e cs d : is_order ord -> heap_ok h -> XmlModel.valid e = true -> stands sci step cwd e cs -> describes cs d ->
  exists h' m', read_xml ord sci step cwd h e = SxDone (h', Some m') /\ forall a, SolverSpec.valid h' m' a <-> configures cs d (found cs d) a.
Proof.
  intros O K Ve St De. destruct (read_described ord sci step O cwd h e cs d K Ve St De) as (h' & m' & t & cs' & E & R & AD & De' & Ed & Co & Gr). exists h', m'. split; [exact E|].
  intros a. rewrite (described_valid cs' d h' m' t R AD De' a). split; apply configures_same; auto. intros s k. symmetry. apply Gr.
Qed.
Lemma read_enumerated ord ord' check sci step cwd h e cs d : is_order ord -> is_order ord' -> heap_ok h -> XmlModel.valid e = true -> stands sci step cwd e cs -> describes cs d -> settled cs d (found cs d) ->
  exists h' m', read_xml ord sci step cwd h e = SxDone (h', Some m') /\ exists N, forall fuel, N <= fuel -> exists s, SolverModel.load ord' fuel h' m' = Some s /\
    (decides check (s_vars s) (s_asserted s) -> exists M, forall fuel', M <= fuel' -> answers d (configures cs d (found cs d)) (get_all check fuel' s)).
Proof.
  intros O O' K Ve St De Se. destruct (read_described ord sci step O cwd h e cs d K Ve St De) as (h' & m' & t & cs' & E & R & AD & De' & Ed & Co & Gr). exists h', m'. split; [exact E|].
  assert (Se' : settled cs' d (requested cs')). { apply (settled_same cs cs' d (found cs d) (requested cs')); auto. intros s k. symmetry. apply Gr. }
  destruct (enumerated_described cs' d h' m' t R AD De' ord' check O' Se') as (N & H). exists N. intros fuel L. destruct (H fuel L) as (s & Ls & As). exists s. split; [exact Ls|]. intros D. destruct (As D) as (M & HM). exists M. intros fuel' L'.
  assert (Eq : forall a, configures cs' d (requested cs') a <-> configures cs d (found cs d) a). { intros a. split; apply configures_same; auto. intros u k. symmetry. apply Gr. }
  destruct (HM fuel' L') as [(U & Z)|(l & G & Nl & [A B C])]; [left|right].
  - split; [exact U|]. intros a X. apply (Z a). apply Eq. exact X.
  - exists l. split; [exact G|]. split; [exact Nl|]. constructor; [| |exact C].
    + intros c I. destruct (A c I) as (a & V & X). exists a. split; [apply Eq; exact V|exact X].
    + intros a X. apply Eq in X. exact (B a X).
Qed.
