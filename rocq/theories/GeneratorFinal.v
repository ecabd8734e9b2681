(** The endings of the configuration generator. *)
From Coq Require Import List ZArith NArith Arith Bool Ascii String Permutation Sorted Lia.
From Verif Require Import Text TextProofs ConstraintModel ConstraintSpec FeatureTreeModel FeatureTreeSpec FeatureTreeProofs FeatureOrderProofs FeatureTransactionModel FeatureTransactionSpec FeatureEditSpec FeatureEditProofs
  FeatureHistoryProofs FeatureBuildSpec FeatureCloneSpec FeatureCloneProofs SxfmModel XmlModel XmlSpec XmlTripSpec XmlReadProofs XmlFinal ConfigurationModel ConfigurationSpec SolverModel SolverSpec SolverProofs SolverEnumerationProofs SolverLoadProofs SolverFinal
  SampleModel SampleSpec SampleProofs ValidSpec ValidProofs DescribedSpec DescribedProofs DescribedFinal GeneratorModel GeneratorSpec GeneratorProofs FeatureMergeResult.
Import ListNotations.

Lemma numeric_dec d s : numeric_name d s \/ ~ numeric_name d s.
Proof.
  unfold numeric_name. induction (snd d) as [|f l IH].
  - right. intros (f & [] & _).
  - destruct IH as [(g & I & X)|N]; [left; exists g; split; [right; exact I|exact X]|]. destruct (numeric_kind (f_kind f)) eqn:K.
    + destruct (text_eqb (f_name f) s) eqn:E; [apply text_eqb_eq in E; left; exists f; repeat split; auto; left; reflexivity|].
      right. intros (g & [<-|I] & Eg & X); [|apply N; eauto]. apply text_eqb_eq in Eg. congruence.
    + right. intros (g & [<-|I] & Eg & X); [congruence|apply N; eauto].
Qed.
Lemma shown_not_false a n s : shown a n SInt s -> s <> T "false".
Proof.
  intros [(P & ->)|(_ & ->)] E; [|discriminate]. rewrite print_Z_nonneg in E by exact P. pose proof (print_N_digits (Z.to_N (a_int a n))) as D. rewrite E in D. discriminate.
Qed.

(** ** Assignments and what displays them *)
Lemma displays_same d c a b : displays d c a -> displays d c b -> same_configuration d a b.
Proof.
  intros A B. split.
  - intros n Nn. assert (Tk : taken d n) by (destruct Nn as (f & I & <- & _); right; apply in_map; exact I). pose proof (value_text_shown a n SInt) as Sh. pose proof (proj2 (A n _) (conj Tk (or_introl (conj Nn Sh)))) as O.
    apply B in O. destruct O as (_ & [(_ & Sb)|(X & _)]); [|contradiction]. apply (shown_same a b n SInt _ Sh) in Sb. cbn in Sb. congruence.
  - intros n Tk Nn. pose proof (value_text_shown a n SBool) as Sh. pose proof (proj2 (A n _) (conj Tk (or_intror (conj Nn Sh)))) as O.
    apply B in O. destruct O as (_ & [(X & _)|(_ & Sb)]); [contradiction|]. apply (shown_same a b n SBool _ Sh) in Sb. cbn in Sb. congruence.
Qed.
Lemma same_displays d c e a b : displays d c a -> displays d e b -> same_configuration d a b -> forall n, option_value c n = option_value e n.
Proof.
  intros A B (Si & Sb) n. assert (H : forall c e a b, displays d c a -> displays d e b -> (forall n, numeric_name d n -> a_int a n = a_int b n) -> (forall n, taken d n -> ~ numeric_name d n -> a_bool a n = a_bool b n) ->
    forall s, option_value c n = Some s -> option_value e n = Some s).
  { clear. intros c e a b A B Si Sb s O. apply A in O. destruct O as (Tk & [(Nn & Sh)|(Nn & Sh)]); apply B; (split; [exact Tk|]); [left|right]; (split; [exact Nn|]); apply (shown_same a b n _ _ Sh); cbn; f_equal; auto. }
  destruct (option_value c n) as [s|] eqn:O; [symmetry; apply (H c e a b); auto|]. destruct (option_value e n) as [s|] eqn:O'; [|reflexivity].
  rewrite <- O. apply (H e c b a); auto; intros; symmetry; auto.
Qed.
Lemma chosen d P l : (forall c, In c l -> exists a, P a /\ displays d c a) -> exists assigns, Forall2 (fun c a => P a /\ displays d c a) l assigns.
Proof.
  induction l as [|c l IH]; intros A; [exists []; constructor|]. destruct (A c (or_introl eq_refl)) as (a & Pa). destruct IH as (as' & F); [intros e J; apply A; right; exact J|]. exists (a :: as'). constructor; assumption.
Qed.
Lemma forall2_nth {A B} (P : A -> B -> Prop) l l' : Forall2 P l l' -> (forall n x, nth_error l n = Some x -> exists y, nth_error l' n = Some y /\ P x y) /\ (forall n y, nth_error l' n = Some y -> exists x, nth_error l n = Some x /\ P x y).
Proof.
  intros F. induction F as [|x y l l' X F (IH1 & IH2)]; split; intros [|n] z E; try discriminate E; cbn in *.
  - injection E as <-. eauto.
  - auto.
  - injection E as <-. eauto.
  - auto.
Qed.
Lemma once_each d P l assigns : lists_exactly d P l -> Forall2 (fun c a => P a /\ displays d c a) l assigns -> each_once d P assigns.
Proof.
  intros [A B C] F. constructor.
  - intros a J. destruct (paired_r _ _ _ _ F J) as (c & _ & Pa & _). exact Pa.
  - intros a Pa. destruct (B a Pa) as (c & Ic & Dc). destruct (paired_l _ _ _ _ F Ic) as (b & Ib & _ & Db). exists b. split; [exact Ib|exact (displays_same d c a b Dc Db)].
  - intros i j a b Ea Eb N Sm. destruct (proj2 (forall2_nth _ _ _ F) i a Ea) as (c & Ec & _ & Dc). destruct (proj2 (forall2_nth _ _ _ F) j b Eb) as (e & Ee & _ & De).
    destruct (C i j c e Ec Ee N) as (n & X). apply X. exact (same_displays d c e a b Dc De Sm n).
Qed.

Lemma listing_names cs d h m t ns l : represents h m t -> as_described cs d h m -> ns = map (name_of h) l -> Permutation l (feature_ids t) -> NoDup ns /\ forall s, In s ns <-> taken d s.
Proof.
  intros R AD -> Pm. assert (St : forall i, In i l -> exists g, stored h m i g).
  { intros i I. destruct (features_exist h m t i R (Permutation_in _ Pm I)) as (g & F & G). exists g. apply (stored_is h m t R). auto. }
  split.
  - assert (N : NoDup l) by (eapply Permutation_NoDup; [symmetry; exact Pm|apply feature_ids_nodup, (rep_ids _ _ _ R)]). clear Pm. induction l as [|i l IH]; [constructor|]. inversion N as [|? ? Nx Nl]; subst. cbn [map]. constructor; [|apply IH; auto; intros j J; apply St; right; exact J].
    intros I. apply in_map_iff in I. destruct I as (j & E & J). apply Nx. destruct (St i (or_introl eq_refl)) as (g & Sg). destruct (St j (or_intror J)) as (g' & Sg').
    rewrite (name_of_stored h m i g Sg), (name_of_stored h m j g' Sg') in E. pose proof (stored_get h m t R i g Sg) as G. pose proof (stored_get h m t R j g' Sg') as G'. rewrite E in G'. assert (i = j) by congruence. subst j. exact J.
  - intros s. rewrite (declared_in cs d h m t R AD s). split.
    + intros I. apply in_map_iff in I. destruct I as (i & <- & I). destruct (St i I) as (g & Sg). exists i. rewrite (name_of_stored h m i g Sg). exact (stored_get h m t R i g Sg).
    + intros (i & G). destruct (get_stored h m t R s i G) as (g & Sg & <-). apply in_map_iff. exists i. split; [exact (name_of_stored h m i g Sg)|]. apply (Permutation_in _ (Permutation_sym Pm)). apply feature_ids_named. exists (f_name g). apply (rep_find R). exact G.
Qed.

Section Flags.
Variables (cs : list bcall) (d : decl) (h : heap) (m : fmodel) (t : tree).
Hypothesis R : represents h m t.
Hypothesis AD : as_described cs d h m.
Lemma root_silent i g : stored h m i g -> m_root m = Some i -> f_output g = [].
Proof. intros (_ & F) E. destruct (ad_root _ _ _ _ AD) as (r & f & Er & _ & Fr & S). rewrite E in Er. injection Er as <-. rewrite F in Fr. injection Fr as <-. exact (proj1 (proj2 (proj2 S))). Qed.
Lemma one_stored f i g i' g' : stored h m i g -> stored h m i' g' -> same_data f g -> f_name g' = f_name f -> i' = i /\ g' = g.
Proof. intros S1 S2 (_ & N & _) N'. pose proof (stored_get h m t R i g S1) as G. pose proof (stored_get h m t R i' g' S2) as G'. rewrite N in G. rewrite N' in G'. assert (i' = i) as -> by congruence. split; [reflexivity|]. destruct S1 as (_ & F1), S2 as (_ & F2). congruence. Qed.
Lemma numeric_declared f : In f (snd d) -> (numeric_name d (f_name f) <-> numeric_kind (f_kind f) = true).
Proof. intros I. split; [|intros K; exists f; auto]. intros (g & J & N & K). rewrite <- (same_feature cs d h m t R AD g f J I N). exact K. Qed.
Lemma taken_declared f : In f (snd d) -> taken d (f_name f).
Proof. intros I. right. apply in_map. exact I. Qed.

Lemma contributes_emits c a i g x : displays d c a -> stored h m i g -> (contributes h c i x <-> emits d a (f_name g) x).
Proof.
  intros Ds Sg. split.
  - intros (g' & v & F & O & Nf & No & ->). assert (g' = g) as -> by (destruct Sg as (_ & F'); congruence). destruct (from cs d h m t R AD i g Sg) as [(Er & _)|(f & I & S)]; [exfalso; exact (No (root_silent i g Sg Er))|].
    apply Ds in O. destruct O as (_ & O). destruct S as (K & N & Ou & _). rewrite N, Ou, K in *. pose proof (numeric_declared f I) as Nd. destruct O as [(Nn & Sh)|(Nn & Sh)].
    + apply Nd in Nn. destruct (f_kind f) eqn:Ek; try discriminate Nn. apply em_value; auto. rewrite Ek. reflexivity.
    + assert (numeric_kind (f_kind f) = false) as Kf by (destruct (numeric_kind (f_kind f)); [exfalso; apply Nn, Nd; reflexivity|reflexivity]).
      assert (match f_kind f with FNumeric _ _ => v | _ => [] end = []) as -> by (destruct (f_kind f); [reflexivity|discriminate Kf|reflexivity|reflexivity]). rewrite app_nil_r. apply em_selected; auto.
      cbn [shown] in Sh. unfold selected. destruct (a_bool a (f_name f)); [reflexivity|]. subst v. exfalso. apply Nf. reflexivity.
  - intros X. inversion X as [f I Kf No Se E|f v I Kf No Sh E].
    + destruct (made cs d h m t R AD f I) as (i2 & g2 & S2 & S). destruct (one_stored f i2 g2 i g S2 Sg S (eq_sym E)) as (-> & ->). destruct S as (K & N & Ou & _).
      exists g2, (T "true"). split; [exact (proj2 S2)|]. split; [apply Ds; rewrite N; split; [exact (taken_declared f I)|right; split; [intros Y; apply (numeric_declared f I) in Y; congruence|]]; cbn [shown]; unfold selected in Se; rewrite Se; reflexivity|].
      split; [discriminate|]. rewrite Ou, K. split; [exact No|]. destruct (f_kind f); [|discriminate Kf| |]; rewrite app_nil_r; reflexivity.
    + destruct (made cs d h m t R AD f I) as (i2 & g2 & S2 & S). destruct (one_stored f i2 g2 i g S2 Sg S (eq_sym E)) as (-> & ->). destruct S as (K & N & Ou & _).
      exists g2, v. split; [exact (proj2 S2)|]. split; [apply Ds; rewrite N; split; [exact (taken_declared f I)|left; split; [apply (numeric_declared f I); exact Kf|exact Sh]]|].
      split; [exact (shown_not_false a _ v Sh)|]. rewrite Ou, K. split; [exact No|]. destruct (f_kind f); try discriminate Kf. reflexivity.
Qed.
Lemma contributes_cell c columns row i g x : row_config h m columns row c -> stored h m i g -> (contributes h c i x <-> cell_emits d columns row (f_name g) x).
Proof.
  intros Rc Sg. split.
  - intros (g' & v & F & O & Nf & No & ->). assert (g' = g) as -> by (destruct Sg as (_ & F'); congruence). destruct (from cs d h m t R AD i g Sg) as [(Er & _)|(f & I & S)]; [exfalso; exact (No (root_silent i g Sg Er))|].
    apply Rc in O. destruct O as (i2 & g2 & G2 & F2 & Ic & Cv). rewrite (stored_get h m t R i g Sg) in G2. injection G2 as <-. assert (g2 = g) as -> by (destruct Sg as (_ & F'); congruence). unfold cell_value in Cv.
    destruct S as (K & N & Ou & _). rewrite N, Ou, K in *. destruct (f_kind f) eqn:Ek.
    + rewrite app_nil_r. apply ce_selected; auto. intros E. apply Nf. rewrite Cv. apply text_eqb_eq in E. rewrite E. reflexivity.
    + destruct Cv as (w & Tw & ->). pose proof (ce_value d columns row f w I) as X. rewrite Ek in X. apply X; auto; discriminate.
    + exfalso. assert (D : f_kind g = FRoot) by congruence. destruct (rep_top_data R) as (f0 & D0 & K0). pose proof Sg as Sg'. apply (stored_sub h m t R) in Sg'. destruct Sg' as (u & U & Eu & Du).
      destruct (Nat.eq_dec (rid u) (rid t)) as [E|E]; [|exact (rep_other_kind R u g U Du E D)]. apply No. rewrite <- Ou. apply (root_silent i g Sg). rewrite (rep_root _ _ _ R). congruence.
    + destruct Cv as (w & Tw & ->). pose proof (ce_value d columns row f w I) as X. rewrite Ek in X. apply X; auto; discriminate.
  - intros X. inversion X as [f I Kf Ic No Nz E|f w I Kf Ic No Tw Nw E].
    + destruct (made cs d h m t R AD f I) as (i2 & g2 & S2 & S). destruct (one_stored f i2 g2 i g S2 Sg S (eq_sym E)) as (-> & ->). pose proof S2 as S3. pose proof (stored_get h m t R i2 g2 S2) as G. destruct S as (K & N & Ou & _).
      exists g2, (T "true"). split; [exact (proj2 S2)|]. split; [apply Rc; exists i2, g2; rewrite N in *; split; [exact G|split; [exact (proj2 S2)|split; [exact Ic|]]]|].
      * unfold cell_value. rewrite K, Kf. destruct (text_eqb (row (f_name f)) (T "0")) eqn:Q; [apply text_eqb_eq in Q; contradiction|reflexivity].
      * split; [discriminate|]. rewrite Ou, K, Kf. split; [exact No|]. rewrite app_nil_r. reflexivity.
    + destruct (made cs d h m t R AD f I) as (i2 & g2 & S2 & S). destruct (one_stored f i2 g2 i g S2 Sg S (eq_sym E)) as (-> & ->). pose proof (stored_get h m t R i2 g2 S2) as G. destruct S as (K & N & Ou & _).
      destruct (from cs d h m t R AD i2 g2 S2) as [(Er & _)|_]; [exfalso; apply No; rewrite <- Ou; exact (root_silent i2 g2 S2 Er)|].
      destruct (f_kind f) eqn:Ek; [contradiction| | |].
      * exists g2, (as_string w). split; [exact (proj2 S2)|]. split; [apply Rc; exists i2, g2; rewrite N in *; split; [exact G|split; [exact (proj2 S2)|split; [exact Ic|]]]; unfold cell_value; rewrite K; eauto|].
        split; [exact Nw|]. rewrite Ou, K. auto.
      * exfalso. destruct (rep_top_data R) as (f0 & D0 & K0). apply (stored_sub h m t R) in S2. destruct S2 as (u & U & Eu & Du).
        destruct (Nat.eq_dec (rid u) (rid t)) as [Q|Q]; [|exact (rep_other_kind R u g2 U Du Q K)]. apply No. rewrite <- Ou. apply (root_silent i2 g2 Sg). rewrite (rep_root _ _ _ R). congruence.
      * exists g2, (as_string w). split; [exact (proj2 S2)|]. split; [apply Rc; exists i2, g2; rewrite N in *; split; [exact G|split; [exact (proj2 S2)|split; [exact Ic|]]]; unfold cell_value; rewrite K; eauto|].
        split; [exact Nw|]. rewrite Ou, K. auto.
Qed.
Lemma flags_collected c (P : text -> text -> Prop) l xs : (forall i g x, stored h m i g -> (contributes h c i x <-> P (f_name g) x)) -> incl l (feature_ids t) ->
  (flags h c l xs <-> collected P (map (name_of h) l) xs).
Proof.
  intros E. revert xs. induction l as [|i l IH]; intros xs Inc.
  - split; intros X; inversion X; constructor.
  - assert (exists g, stored h m i g) as (g & Sg). { destruct (features_exist h m t i R (Inc i (or_introl eq_refl))) as (g & F & G). exists g. apply (stored_is h m t R). auto. }
    assert (Inc' : incl l (feature_ids t)) by (intros j J; apply Inc; right; exact J). cbn [map]. rewrite (name_of_stored h m i g Sg). split; intros X.
    + inversion X as [|? ? x ys C F|? ? ys C F]; subst; [apply col_take|apply col_skip]; [apply (E i g x Sg); exact C|apply IH; auto| |apply IH; auto]. intros x Px. apply (C x). apply (E i g x Sg). exact Px.
    + inversion X as [|? ? x ys C F|? ? ys C F]; subst; [apply flags_take|apply flags_skip]; [apply (E i g x Sg); exact C|apply IH; auto| |apply IH; auto]. intros x Px. apply (C x). apply (E i g x Sg). exact Px.
Qed.
Hypothesis DE : describes cs d.
(** Writing any list of configurations each of which gives flags according to [P]. *)
Lemma deliver_spec {A} ord w c (P : A -> text -> text -> Prop) l xs : is_order ord -> l <> [] ->
  Forall2 (fun e a => forall i g x, stored h m i g -> (contributes h e i x <-> P a (f_name g) x)) l xs ->
  exists ns es, listing cs d (fst d) ns /\ (NoDup ns /\ forall s, In s ns <-> taken d s) /\ entries (fun a fs => collected (P a) ns fs) xs es /\ delivered w c es (deliver ord w c h m l).
Proof.
  intros O Ne F. destruct (written ord h m t l O R) as (is & es & Pr & Pm & W & So & H). exists (map (name_of h) is), es. split; [exact (listing_top cs d h m t R AD DE is Pr)|]. split; [exact (listing_names cs d h m t _ is R AD eq_refl Pm)|]. split.
  - split; [exact So|]. assert (Inc : incl is (feature_ids t)) by (intros j J; exact (Permutation_in _ Pm J)). intros k v. rewrite H. split.
    + intros (n & e & fs & En & -> & Fl & ->). destruct (proj1 (forall2_nth _ _ _ F) n e En) as (a & Ea & Pa). exists n, a, fs. repeat (split; [auto|]); [|reflexivity]. apply (flags_collected e (P a) is fs Pa Inc). exact Fl.
    + intros (n & a & fs & Ea & -> & Cl & ->). destruct (proj2 (forall2_nth _ _ _ F) n a Ea) as (e & En & Pa). exists n, e, fs. repeat (split; [auto|]); [|reflexivity]. apply (flags_collected e (P a) is fs Pa Inc). exact Cl.
  - unfold delivered, deliver. destruct (text_eqb (g_out c) []) eqn:E.
    + left. apply text_eqb_eq in E. auto.
    + right. assert (N : g_out c <> []) by (intros X; rewrite X in E; discriminate). destruct l as [|e l]; [contradiction|]. cbn [negb andb]. rewrite W. destruct (can_write w (g_out c)) eqn:Cw; [left|right]; auto.
Qed.
End Flags.

Lemma below_last cs cs' d : (forall s, last_edge cs' s (fst d) = last_edge cs s (fst d)) -> forall s f, below cs' d s f <-> below cs d s f.
Proof. intros E s f. unfold below. rewrite E. reflexivity. Qed.
Scheme listing_mut := Induction for listing Sort Prop
  with listings_mut := Induction for listings Sort Prop.
Lemma listing_last cs cs' d : (forall s, last_edge cs' s (fst d) = last_edge cs s (fst d)) -> forall s l, listing cs' d s l -> listing cs d s l.
Proof.
  intros E s l L. induction L as [s fs l N B So L IH| |f fs l k L1 IH1 L2 IH2] using listing_mut with (P0 := fun fs l _ => listings cs d fs l).
  - apply listing_at with (fs := fs); auto. intros f. rewrite B. apply below_last. exact E.
  - constructor.
  - constructor; assumption.
Qed.

(** ** All configurations *)
Lemma generated_all ord sci step cwd check h w c e cs d : is_order ord -> heap_ok h -> g_file c <> [] -> documents w (g_file c) = Document e -> XmlModel.valid e = true -> stands sci step cwd e cs -> describes cs d ->
  settled cs d (found cs d) -> g_choice c = GenAll ->
  exists h' m', read_xml ord sci step cwd h e = SxDone (h', Some m') /\ exists N, forall fuel, N <= fuel -> exists s, SolverModel.load ord fuel h' m' = Some s /\
    (decides check (s_vars s) (s_asserted s) -> exists M, forall fuel', M <= fuel' -> let r := generate ord sci step cwd check fuel fuel' h w c in
      ((forall a, ~ configures cs d (found cs d) a) /\ r = Exit 1 None) \/
      exists assigns ns es, assigns <> [] /\ each_once d (configures cs d (found cs d)) assigns /\ listing cs d (fst d) ns /\ (NoDup ns /\ forall s, In s ns <-> taken d s) /\
        entries (fun a fs => collected (emits d a) ns fs) assigns es /\ delivered w c es r).
Proof.
  intros O K Ng Ef Ve St De Se Ch. destruct (read_described ord sci step O cwd h e cs d K Ve St De) as (h' & m' & t & cs' & E & R & AD & De' & Ed & Co & Gr). exists h', m'. split; [exact E|].
  assert (Se' : settled cs' d (requested cs')). { apply (settled_same cs cs' d (found cs d) (requested cs')); auto. intros s k. symmetry. apply Gr. }
  destruct (enumerated_described cs' d h' m' t R AD De' ord check O Se') as (N & H). exists N. intros fuel L. destruct (H fuel L) as (s & Ls & As). exists s. split; [exact Ls|]. intros D. destruct (As D) as (M & HM). exists M. intros fuel' L' r.
  assert (Eq : forall a, configures cs' d (requested cs') a <-> configures cs d (found cs d) a). { intros a. split; apply configures_same; auto. intros u k. symmetry. apply Gr. }
  assert (Er : r = match get_all check fuel' s with None => Stuck | Some (inr _) => Exit 1 None | Some (inl l) => deliver ord w c h' m' l end).
  { unfold r, generate. destruct (text_eqb (g_file c) []) eqn:X; [apply text_eqb_eq in X; contradiction|]. unfold verify_model, load_model. rewrite Ef, Ve, E, Ch, Ls. reflexivity. }
  destruct (HM fuel' L') as [(U & Z)|(l & G & Nl & LE)]; [left|right].
  - split; [intros a Ca; apply (Z a), Eq, Ca|]. rewrite Er, U. reflexivity.
  - destruct (chosen d (configures cs' d (requested cs')) l (le_sound _ _ _ LE)) as (assigns & F). exists assigns.
    destruct (deliver_spec cs' d h' m' t R AD De' ord w c (emits d) l assigns O Nl) as (ns & es & A & B & C & Dv).
    { clear - F R AD. induction F as [|x a l l' (_ & Ds) F IH]; constructor; [|exact IH]. intros i g y Sg. exact (contributes_emits cs' d h' m' t R AD x a i g y Ds Sg). }
    exists ns, es. split; [intros ->; inversion F; subst; contradiction|]. split.
    { destruct (once_each d _ l assigns LE F) as [X Y Z]. constructor; [intros a I; apply Eq, X, I|intros a Ca; apply Y, Eq, Ca|exact Z]. }
    split; [exact (listing_last cs cs' d Ed _ _ A)|]. split; [exact B|]. split; [exact C|]. rewrite Er, G. exact Dv.
Qed.
(** ** Sample sets *)
Lemma generated_sample ord sci step cwd check fuel fuel' h w c e cs d tab : is_order ord -> heap_ok h -> g_file c <> [] -> documents w (g_file c) = Document e -> XmlModel.valid e = true -> stands sci step cwd e cs -> describes cs d ->
  g_choice c = GenSample -> g_csv c <> [] -> tables w (g_csv c) = Some tab ->
  let r := generate ord sci step cwd check fuel fuel' h w c in
  (t_rows tab = [] /\ r = Exit 0 None) \/
  exists ns es, listing cs d (fst d) ns /\ (NoDup ns /\ forall s, In s ns <-> taken d s) /\ entries (fun row fs => collected (cell_emits d (t_columns tab) row) ns fs) (rev (t_rows tab)) es /\ delivered w c es r.
Proof.
  intros O K Ng Ef Ve St De Ch Nc Et r. destruct (read_described ord sci step O cwd h e cs d K Ve St De) as (h' & m' & t & cs' & E & R & AD & De' & Ed & Co & Gr).
  destruct (table_read ord h' m' t tab O R) as (l & El & F).
  assert (Er : r = deliver ord w c h' m' l).
  { unfold r, generate. destruct (text_eqb (g_file c) []) eqn:X; [apply text_eqb_eq in X; contradiction|]. unfold verify_model, load_model. rewrite Ef, Ve, E, Ch. cbn [negb].
    destruct (text_eqb (g_csv c) []) eqn:Y; [apply text_eqb_eq in Y; contradiction|]. rewrite Et, El. reflexivity. }
  destruct (t_rows tab) as [|row rows] eqn:Rt.
  - left. split; [reflexivity|]. cbn in F. inversion F; subst. rewrite Er. unfold deliver. cbn. rewrite andb_false_r. reflexivity.
  - right. rewrite <- Rt in *. assert (Nl : l <> []). { intros ->. inversion F as [X|]. rewrite Rt in X. cbn in X. destruct (rev rows); discriminate X. }
    destruct (deliver_spec cs' d h' m' t R AD De' ord w c (cell_emits d (t_columns tab)) l (rev (t_rows tab)) O Nl) as (ns & es & A & B & C & Dv).
    { clear - F R AD. induction F as [|a x l l' Rc F IH]; constructor; [|exact IH]. intros i g y Sg. exact (contributes_cell cs' d h' m' t R AD x (t_columns tab) a i g y Rc Sg). }
    exists ns, es. split; [exact (listing_last cs cs' d Ed _ _ A)|]. split; [exact B|]. split; [exact C|]. rewrite Er. exact Dv.
Qed.
(** ** Refusals *)
Lemma generate_refuses ord sci step cwd check fuel fuel' h w c :
  g_file c = [] \/ (forall e, documents w (g_file c) = Document e -> XmlModel.valid e = false) \/
  (exists e, documents w (g_file c) = Document e /\ XmlModel.valid e = true /\ read_xml ord sci step cwd h e = SxRefused) \/
  (exists e r, documents w (g_file c) = Document e /\ read_xml ord sci step cwd h e = SxDone r /\ (g_choice c = GenStrategy \/ (g_choice c = GenSample /\ g_csv c = []))) ->
  generate ord sci step cwd check fuel fuel' h w c = Exit 1 None.
Proof.
  unfold generate, verify_model, load_model. intros [E|[E|[(e & Ee & Ve & Re)|(e & (h1 & m1) & Ee & Re & Ch)]]].
  - rewrite E. reflexivity.
  - destruct (text_eqb (g_file c) []); [reflexivity|]. destruct (documents w (g_file c)) as [| |e]; [reflexivity|reflexivity|]. rewrite (E e eq_refl). reflexivity.
  - destruct (text_eqb (g_file c) []); [reflexivity|]. rewrite Ee, Ve, Re. reflexivity.
  - destruct (text_eqb (g_file c) []); [reflexivity|]. rewrite Ee, Re. destruct (XmlModel.valid e); [|reflexivity]. destruct m1 as [m1|]; [|reflexivity]. cbn [negb]. destruct Ch as [-> |(-> & ->)]; reflexivity.
Qed.
Lemma generate_succeeds ord sci step cwd check fuel fuel' h w c code out : generate ord sci step cwd check fuel fuel' h w c = Exit code out ->
  (code = 1 /\ out = None) \/
  (code = 0 /\ g_file c <> [] /\ (exists e cs, documents w (g_file c) = Document e /\ XmlModel.valid e = true /\ stands sci step cwd e cs) /\
   g_choice c <> GenStrategy /\ (g_choice c = GenSample -> g_csv c <> []) /\ (out <> None -> g_out c <> [] /\ can_write w (g_out c) = true)).
Proof.
  unfold generate, verify_model, load_model. intros E. destruct (text_eqb (g_file c) []) eqn:Nf; [injection E as <- <-; auto|].
  assert (g_file c <> []) as Nf' by (intros X; rewrite X in Nf; discriminate). destruct (documents w (g_file c)) as [| |e] eqn:Ee; [injection E as <- <-; auto|injection E as <- <-; auto|].
  destruct (XmlModel.valid e) eqn:Ve; cbn [negb] in E; [|injection E as <- <-; auto]. destruct (read_xml ord sci step cwd h e) as [(h1 & o)| | | |] eqn:Re; try discriminate E; [|injection E as <- <-; auto].
  destruct o as [m1|]; [|injection E as <- <-; auto]. destruct (document_needed ord sci step cwd h e _ Re) as (_ & cs & St).
  assert (Dl : forall l, deliver ord w c h1 m1 l = Exit code out -> (code = 1 /\ out = None) \/ (code = 0 /\ (out <> None -> g_out c <> [] /\ can_write w (g_out c) = true))).
  { intros l. unfold deliver. destruct (text_eqb (g_out c) []) eqn:No; cbn [negb andb]; [intros X; injection X as <- <-; right; split; [reflexivity|congruence]|].
    destruct l as [|x l]; cbn [negb]; [intros X; injection X as <- <-; right; split; [reflexivity|congruence]|]. destruct (write_configurations ord h1 m1 (x :: l)); [|discriminate].
    destruct (can_write w (g_out c)) eqn:Cw; intros X; injection X as <- <-; [right|left]; auto. split; [reflexivity|]. intros _. split; [intros Y; rewrite Y in No; discriminate|reflexivity]. }
  destruct (g_choice c) eqn:Ch.
  - destruct (SolverModel.load ord fuel h1 m1) as [s|]; [|discriminate]. destruct (get_all check fuel' s) as [[l|u]|]; [|injection E as <- <-; auto|discriminate].
    destruct (Dl l E) as [X|(X & Y)]; [left; exact X|right]. split; [exact X|]. split; [exact Nf'|]. split; [exists e, cs; auto|]. split; [discriminate|]. split; [discriminate|exact Y].
  - injection E as <- <-. auto.
  - destruct (text_eqb (g_csv c) []) eqn:Nc; [injection E as <- <-; auto|]. destruct (tables w (g_csv c)) as [tab|]; [|discriminate]. destruct (read_table ord h1 m1 tab) as [l|]; [|discriminate].
    destruct (Dl l E) as [X|(X & Y)]; [left; exact X|right]. split; [exact X|]. split; [exact Nf'|]. split; [exists e, cs; auto|]. split; [discriminate|]. split; [intros _ Z; rewrite Z in Nc; discriminate|exact Y].
Qed.
Lemma verified_loaded ord sci step cwd w h p :
  (forall r, load_model ord sci step cwd w h p = SxDone r -> verify_model w p = true) /\
  (verify_model w p = false -> load_model ord sci step cwd w h p = SxRefused) /\
  (documents w p = Missing \/ documents w p = Malformed -> verify_model w p = false).
Proof.
  assert (verify_model w p = false -> load_model ord sci step cwd w h p = SxRefused) as R.
  { unfold verify_model, load_model. destruct (documents w p) as [| |e]; auto. intros V. unfold read_xml. rewrite V. reflexivity. }
  split; [|split; [exact R|]].
  - intros r L. destruct (verify_model w p); [reflexivity|]. rewrite (R eq_refl) in L. discriminate.
  - unfold verify_model. intros [->| ->]; reflexivity.
Qed.
