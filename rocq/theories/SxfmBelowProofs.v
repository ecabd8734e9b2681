(** Entries below a new root. *)
From Coq Require Import List ZArith NArith Arith Bool Ascii String Permutation Lia.
From Verif Require Import Text TextProofs LlvmInt ConstraintModel ConstraintSpec ConstraintParserModel ConstraintRoundTrip SourceRangeModel FeatureTreeModel FeatureTreeSpec FeatureTreeProofs FeatureTransactionModel
  FeatureEditSpec FeatureEditProofs FeatureTransactionSpec FeatureTransactionFinal FeatureRemoveProofs FeatureHistoryProofs FeatureCloneSpec FeatureCloneProofs FeatureBuildSpec FeatureBuildFinal SxfmModel SxfmSpec SxfmLineProofs SxfmTreeProofs SxfmTreeFinal SxfmFormulaSpec SxfmFormulaProofs SxfmBuildProofs SxfmFinal
  XmlModel XmlWriterModel XmlSpec XmlTripSpec XmlTripFinal ConfigurationModel SolverModel SolverSpec SolverLoadProofs SolverProofs SolverFinal ValidSpec ValidProofs ValidTripProofs ValidFinal CloneSameProofs DescribedSpec DescribedProofs DescribedFinal SxfmConfigSpec SxfmConfigProofs SxfmConfigFinal
  RegisterSpec RegisterProofs RegisterFinal SafeSpec SafeFinal SxfmXmlSpec SxfmXmlProofs SxfmXmlConfigProofs SxfmXmlFinal XmlBelowSpec XmlBelowFinal SxfmBelowSpec.
Import ListNotations.
Local Open Scope string_scope.
Local Open Scope list_scope.
Local Open Scope nat_scope.

(** ** Entries below a new root *)
Lemma label_deeper es : forall k, label k (map deeper es) = label k es.
Proof. induction es as [|e es IH]; intros k; [reflexivity|]. cbn [map label]. change (e_name (deeper e)) with (e_name e). destruct (e_name e); rewrite IH; reflexivity. Qed.
Lemma below_labels es : es <> [] -> labels (below es) = T "root" :: labels es.
Proof. destruct es as [|e es]; [congruence|]. intros _. unfold labels, below. change (T "root" :: label 0 (map deeper (e :: es)) = T "root" :: label 0 (e :: es)). rewrite label_deeper. reflexivity. Qed.
Lemma below_levels e es : levels (below (e :: es)) = e_level e :: map S (levels (e :: es)).
Proof. unfold below, levels. cbn [map e_level]. f_equal. cbn [map]. f_equal. rewrite !map_map. reflexivity. Qed.
Lemma below_nth es i : es <> [] -> nth_error (below es) (S i) = option_map deeper (nth_error es i).
Proof. destruct es as [|e es]; [congruence|]. intros _. unfold below. cbn [nth_error]. apply nth_error_map. Qed.
Lemma indented_deeper r : forall ls last, indented r last ls -> indented r (S last) (map S ls).
Proof. induction ls as [|l ls IH]; intros last H; [exact I|]. cbn [map indented] in *. destruct H as (H & H'). split; [lia|]. apply IH. exact H'. Qed.
Lemma indented_above r : forall ls last l, indented r last ls -> In l ls -> r < l.
Proof. induction ls as [|x ls IH]; intros last l H I; [destruct I|]. cbn [indented] in H. destruct I as [<-|I]; [lia|]. exact (IH x l (proj2 H) I). Qed.
Lemma below_closest_cases es i j : well_indented (levels es) -> (closest (levels (below es)) i j <-> (exists i' j', i = S i' /\ j = S j' /\ closest (levels es) i' j') \/ i = 1 /\ j = 0 /\ es <> []).
Proof.
  intros W. destruct es as [|e es]; [cbn; split; [intros (l & A & _); destruct i; discriminate A|intros [(i' & j' & _ & _ & l & A & _)|(_ & _ & X)]; [destruct i'; discriminate A|congruence]]|].
  rewrite below_levels. split.
  - intros (l & A & B & L & N). destruct i as [|i]; [lia|]. cbn [nth_error] in A. rewrite nth_error_map in A. destruct (nth_error (levels (e :: es)) i) as [x|] eqn:Ex; [|discriminate A]. cbn in A. injection A as ->. destruct j as [|j].
    + right. cbn [nth_error] in B. injection B as <-. split; [|split; [reflexivity|discriminate]]. destruct i as [|i]; [reflexivity|exfalso]. cbn [levels map nth_error] in Ex. pose proof (indented_above _ _ _ _ W (nth_error_In _ _ Ex)). lia.
    + left. exists i, j. split; [reflexivity|]. split; [reflexivity|]. cbn [nth_error] in B. rewrite nth_error_map in B. destruct (nth_error (levels (e :: es)) j) as [y|] eqn:Ey; [|discriminate B]. cbn in B. injection B as <-.
      exists y. split; [exact Ex|]. split; [exact Ey|]. split; [lia|]. intros k K X. apply (N (S k)); [lia|]. cbn [nth_error]. rewrite nth_error_map, X. reflexivity.
  - intros [(i' & j' & -> & -> & l & A & B & L & N)|(-> & -> & _)].
    + exists (S l). cbn [nth_error]. rewrite !nth_error_map, A, B. split; [reflexivity|]. split; [reflexivity|]. split; [lia|]. intros k K X. destruct k as [|k]; [lia|]. cbn [nth_error] in X. rewrite nth_error_map in X.
      apply (N k); [lia|]. destruct (nth_error (levels (e :: es)) k) as [z|]; [|discriminate X]. cbn in X. injection X as ->. reflexivity.
    + exists (e_level e). cbn. split; [reflexivity|]. split; [reflexivity|]. split; [lia|]. intros k K. lia.
Qed.
Lemma below_tree es : tree_ok es -> ~ In (T "root") (labels es) -> tree_ok (below es).
Proof.
  intros [(e & r & -> & M & N) Nl W] Nr. constructor.
  - exists (Entry (e_level e) Root (T "root") None), (map deeper (e :: r)). split; [reflexivity|]. split; [reflexivity|]. intros x I. apply in_map_iff in I. destruct I as (y & <- & I). cbn [deeper e_mark]. destruct (e_mark y); discriminate.
  - rewrite below_labels; [|discriminate]. constructor; assumption.
  - rewrite below_levels. cbn [levels map well_indented indented]. split; [lia|]. apply indented_deeper. exact W.
Qed.
Lemma lines_deeper : forall l ns, group_lines (map deeper l) ns = group_lines l ns.
Proof. induction l as [|x l IH]; intros ns; [reflexivity|]. destruct ns as [|n ns]; [reflexivity|]. cbn [map group_lines]. rewrite IH. cbn [deeper e_mark]. destruct (e_mark x); reflexivity. Qed.
Lemma below_lines es : group_lines (below es) (labels (below es)) = group_lines es (labels es).
Proof. destruct es as [|e es]; [reflexivity|]. rewrite below_labels; [|discriminate]. exact (lines_deeper (e :: es) (labels (e :: es))). Qed.
Lemma below_marked es j k : marked (below es) j (Group k) <-> exists j', j = S j' /\ marked es j' (Group k).
Proof.
  destruct es as [|e es]; [split; [intros (x & E & _); destruct j; discriminate E|intros (j' & _ & x & E & _); destruct j'; discriminate E]|]. split.
  - intros (x & E & M). destruct j as [|j]; [injection E as <-; discriminate M|]. rewrite below_nth in E; [|discriminate]. destruct (nth_error (e :: es) j) as [y|] eqn:Ey; [|discriminate E]. injection E as <-. exists j. split; [reflexivity|]. exists y. split; [exact Ey|].
    cbn [deeper e_mark] in M. destruct (e_mark y); congruence.
  - intros (j' & -> & y & Ey & M). exists (deeper y). rewrite below_nth, Ey; [|discriminate]. split; [reflexivity|]. cbn [deeper e_mark]. rewrite M. reflexivity.
Qed.
Lemma below_labelled es i s : es <> [] -> (labelled (below es) i s <-> i = 0 /\ s = T "root" \/ exists i', i = S i' /\ labelled es i' s).
Proof.
  intros Ne. unfold labelled. rewrite (below_labels es Ne). destruct i as [|i]; cbn [nth_error].
  - split; [intros X; injection X as <-; auto|]. intros [(_ & ->)|(i' & X & _)]; [reflexivity|discriminate X].
  - split; [eauto|]. intros [(X & _)|(i' & X & L)]; [discriminate X|]. injection X as <-. exact L.
Qed.
Lemma below_child es j i s : es <> [] -> well_indented (levels es) -> (child (below es) j i s <-> (exists j' i', j = S j' /\ i = S i' /\ child es j' i' s) \/ j = 0 /\ i = 1 /\ labelled es 0 s).
Proof.
  intros Ne W. unfold child. rewrite (below_closest_cases es i j W), (below_labelled es i s Ne). split.
  - intros ([(i' & j' & -> & -> & C)|(-> & -> & _)] & [(X & _)|(i2 & X & L)]); try discriminate X; injection X as <-; [left; exists j', i'; auto|right; auto].
  - intros [(j' & i' & -> & -> & C & L)|(-> & -> & L)].
    + split; [left; exists i', j'; auto|right; eauto].
    + split; [right; auto|right; eauto].
Qed.
Lemma below_mates es s u : es <> [] -> well_indented (levels es) -> (group_mates (below es) s u <-> group_mates es s u).
Proof.
  intros Ne W. split.
  - intros (j & k & a & b & M & Ca & Cb & N). apply below_marked in M. destruct M as (j' & -> & M). apply (below_child es _ _ _ Ne W) in Ca. apply (below_child es _ _ _ Ne W) in Cb.
    destruct Ca as [(j1 & a' & X & -> & Ca)|(X & _)]; [|discriminate X]. injection X as <-. destruct Cb as [(j1 & b' & X & -> & Cb)|(X & _)]; [|discriminate X]. injection X as <-. exists j', k, a', b'. repeat (split; [assumption|]). congruence.
  - intros (j & k & a & b & M & Ca & Cb & N). exists (S j), k, (S a), (S b). split; [apply below_marked; eauto|]. split; [apply (below_child es _ _ _ Ne W); left; exists j, a; auto|]. split; [apply (below_child es _ _ _ Ne W); left; exists j, b; auto|]. congruence.
Qed.
Lemma below_said es cs e : es <> [] -> well_indented (levels es) -> (said (below es) cs e <-> said es cs e).
Proof. intros Ne W. unfold said. split; (intros [I|(s & u & -> & G)]; [left; exact I|right; exists s, u; split; [reflexivity|apply (below_mates es s u Ne W); exact G]]). Qed.
(** The new root is selected in addition. *)
Lemma below_configuration es cs sel : tree_ok es -> (stated_configuration (below es) cs sel <-> sel (T "root") = true /\ stated_configuration es cs sel).
Proof.
  intros [(e & r & Ees & M & N) Nl W]. assert (Ne : es <> []) by (rewrite Ees; discriminate). assert (L0 : exists s0, labelled es 0 s0). { unfold labelled. pose proof (labels_length es) as X. rewrite Ees in X |- *. destruct (labels (e :: r)) as [|s0 l]; [discriminate X|]. exists s0. reflexivity. }
  destruct L0 as (s0 & L0). assert (M0 : marked (below es) 0 Root) by (rewrite Ees; eexists; split; reflexivity).
  assert (Lb0 : labelled (below es) 0 (T "root")) by (apply (below_labelled es _ _ Ne); auto).
  assert (C0 : child (below es) 0 1 s0) by (apply (below_child es _ _ _ Ne W); auto).
  assert (Mo : forall i, marked (below es) (S i) Optional <-> marked es i Optional).
  { intros i. unfold marked. rewrite (below_nth es i Ne). destruct (nth_error es i) as [x|]; [|split; intros (z & E & _); discriminate E]. cbn [option_map]. split; intros (z & E & Mz); injection E as <-; (eexists; split; [reflexivity|]); cbn [deeper e_mark] in *; destruct (e_mark x); congruence. }
  assert (Mg : forall i k, marked es i k -> (forall g, k <> Group g) -> exists k', marked (below es) (S i) k' /\ forall g, k' <> Group g).
  { intros i k (x & Ex & <-) Ng. exists (e_mark (deeper x)). split; [exists (deeper x); rewrite (below_nth es i Ne), Ex; auto|]. intros g X. cbn [deeper e_mark] in X. apply (Ng g). destruct (e_mark x); congruence. }
  assert (Ch : forall j i s, child es j i s -> child (below es) (S j) (S i) s) by (intros j i s C; apply (below_child es _ _ _ Ne W); left; exists j, i; auto).
  assert (Lh : forall i s, labelled es i s -> labelled (below es) (S i) s) by (intros i s L; apply (below_labelled es _ _ Ne); right; eauto).
  split.
  - intros C. pose proof (sc_root _ _ _ C _ Lb0) as S0. split; [exact S0|]. constructor.
    + intros s L. assert (s = s0) as -> by (unfold labelled in *; congruence). apply (sc_mandatory _ _ _ C 1 0 s0 (T "root") Root C0 Lb0); [|exact M0|discriminate|exact S0]. intros X. apply Mo in X. destruct X as (x & Ex & Mx). rewrite Ees in Ex. injection Ex as <-. congruence.
    + intros i j s p Cc L. exact (sc_parent _ _ _ C (S i) (S j) s p (Ch _ _ _ Cc) (Lh _ _ L)).
    + intros i j s p k Cc L No Mk Ng. destruct (Mg j k Mk Ng) as (k' & Mk' & Ng'). apply (sc_mandatory _ _ _ C (S i) (S j) s p k' (Ch _ _ _ Cc) (Lh _ _ L)); [|exact Mk'|exact Ng']. intros X. apply Mo in X. contradiction.
    + intros j p Mk L Sp. destruct (sc_alternative _ _ _ C (S j) p ltac:(apply below_marked; eauto) (Lh _ _ L) Sp) as (i & s & Cc & Ss & U). apply (below_child es _ _ _ Ne W) in Cc. destruct Cc as [(j1 & i1 & X & -> & Cc)|(X & _)]; [|discriminate X]. injection X as <-.
      exists i1, s. split; [exact Cc|]. split; [exact Ss|]. intros i' s' C' S'. pose proof (U (S i') s' (Ch _ _ _ C') S') as X. congruence.
    + intros j p Mk L Sp. destruct (sc_or _ _ _ C (S j) p ltac:(apply below_marked; eauto) (Lh _ _ L) Sp) as (i & s & Cc & Ss). apply (below_child es _ _ _ Ne W) in Cc. destruct Cc as [(j1 & i1 & X & -> & Cc)|(X & _)]; [|discriminate X]. injection X as <-. eauto.
    + exact (sc_formulas _ _ _ C).
  - intros (S0 & C). constructor.
    + intros s L. apply (below_labelled es _ _ Ne) in L. destruct L as [(_ & ->)|(i' & X & _)]; [exact S0|discriminate X].
    + intros i j s p Cc L Ss. apply (below_child es _ _ _ Ne W) in Cc. apply (below_labelled es _ _ Ne) in L. destruct Cc as [(j1 & i1 & -> & -> & Cc)|(-> & -> & _)]; destruct L as [(X & ->)|(j2 & X & L)]; try discriminate X; [|exact S0]. injection X as <-. exact (sc_parent _ _ _ C i1 j1 s p Cc L Ss).
    + intros i j s p k Cc L No Mk Ng Sp. apply (below_child es _ _ _ Ne W) in Cc. apply (below_labelled es _ _ Ne) in L. destruct Cc as [(j1 & i1 & -> & -> & Cc)|(-> & -> & Ls)].
      * destruct L as [(X & _)|(j2 & X & L)]; [discriminate X|]. injection X as <-. destruct Mk as (x & Ex & Mx). rewrite (below_nth es j1 Ne) in Ex. destruct (nth_error es j1) as [y|] eqn:Ey; [|discriminate Ex]. injection Ex as <-.
        apply (sc_mandatory _ _ _ C i1 j1 s p (e_mark y) Cc L); [intros X; apply No, Mo; exact X|exists y; auto| |exact Sp]. intros g X. apply (Ng g). rewrite <- Mx. cbn [deeper e_mark]. rewrite X. reflexivity.
      * exact (sc_root _ _ _ C s Ls).
    + intros j p Mk L Sp. apply below_marked in Mk. destruct Mk as (j' & -> & Mk). apply (below_labelled es _ _ Ne) in L. destruct L as [(X & _)|(j2 & X & L)]; [discriminate X|]. injection X as <-. destruct (sc_alternative _ _ _ C j' p Mk L Sp) as (i & s & Cc & Ss & U).
      exists (S i), s. split; [exact (Ch _ _ _ Cc)|]. split; [exact Ss|]. intros i' s' C' S'. apply (below_child es _ _ _ Ne W) in C'. destruct C' as [(j1 & i1 & X & -> & C')|(X & _)]; [|discriminate X]. injection X as <-. rewrite (U i1 s' C' S'). reflexivity.
    + intros j p Mk L Sp. apply below_marked in Mk. destruct Mk as (j' & -> & Mk). apply (below_labelled es _ _ Ne) in L. destruct L as [(X & _)|(j2 & X & L)]; [discriminate X|]. injection X as <-. destruct (sc_or _ _ _ C j' p Mk L Sp) as (i & s & Cc & Ss).
      exists (S i), s. split; [exact (Ch _ _ _ Cc)|exact Ss].
    + exact (sc_formulas _ _ _ C).
Qed.
