(** Models of SXFM texts can be saved as XML, and are read back as they are indented. *)
From Coq Require Import List ZArith NArith Arith Bool Ascii String Permutation Lia.
From Verif Require Import Text TextProofs LlvmInt ConstraintModel ConstraintSpec ConstraintParserModel ConstraintRoundTrip SourceRangeModel FeatureTreeModel FeatureTreeSpec FeatureTreeProofs FeatureTransactionModel
  FeatureEditSpec FeatureEditProofs FeatureTransactionSpec FeatureTransactionFinal FeatureHistoryProofs FeatureCloneSpec FeatureCloneProofs FeatureBuildSpec FeatureBuildFinal SxfmModel SxfmSpec SxfmLineProofs SxfmTreeProofs SxfmTreeFinal SxfmFormulaSpec SxfmFormulaProofs SxfmBuildProofs SxfmFinal
  XmlModel XmlWriterModel XmlSpec XmlTripSpec ConfigurationModel SolverModel SolverSpec SolverLoadProofs SolverProofs ValidSpec ValidProofs CloneSameProofs DescribedSpec DescribedProofs SxfmConfigSpec SxfmConfigProofs SxfmXmlSpec.
Import ListNotations.
Local Open Scope string_scope.
Local Open Scope list_scope.
Local Open Scope nat_scope.

(** ** Formulas *)
Lemma expr_names : forall p w c, expr p w c -> forall s, In s (leaves c) -> In (ConstraintSpec.SName s) w.
Proof.
  fix IH 4. intros p w c E. destruct E as [p w c Hu|p o wl wr l r Lv El Er].
  - revert w c Hu. fix IHu 3. intros w c Hu. destruct Hu as [n|s|o w c Hu|w c He]; intros u I.
    + destruct I.
    + destruct I as [<-|[]]. left. reflexivity.
    + right. exact (IHu w c Hu u I).
    + right. apply in_or_app. left. exact (IH _ _ _ He u I).
  - intros u I. cbn [leaves] in I. apply in_app_or in I. apply in_or_app. destruct I as [I|I]; [left; exact (IH _ _ _ El u I)|right; right; exact (IH _ _ _ Er u I)].
Qed.
Lemma formula_expressible c : formula c -> (forall s, In s (leaves c) -> identifier s) -> expressible c.
Proof.
  intros F. induction F as [s|c F IH|l r Fl IHl Fr IHr|l r Fl IHl Fr IHr]; intros H; cbn [expressible].
  - apply H. left. reflexivity.
  - exact (IH H).
  - repeat split; try discriminate; [apply IHl|apply IHr]; intros s I; apply H; cbn [leaves]; apply in_or_app; auto.
  - repeat split; try discriminate; [apply IHl|apply IHr]; intros s I; apply H; cbn [leaves]; apply in_or_app; auto.
Qed.
Lemma states_expressible es l c : states es l c -> expressible c.
Proof.
  intros H. apply formula_expressible; [exact (states_formula es l c H)|]. destruct H as [label before x r after f c Nc Ol B A Lg Sp].
  intros s I. pose proof (expr_names _ _ _ Sp s I) as J. unfold formula_symbols in J.
  assert (forall z, In (ConstraintSpec.SName s) (literal_symbols f z) -> s = U (f (lit_word z))) as Q.
  { intros z K. unfold literal_symbols in K. apply in_app_or in K. destruct K as [K|[K|[]]]; [destruct (lit_negated z); [destruct K as [K|[]]; discriminate|destruct K]|]. injection K as ->. reflexivity. }
  apply in_app_or in J. destruct J as [J|J].
  - apply Q in J. subst s. exact (proj1 (proj2 (proj2 (lg_words _ _ _ _ Lg _ (or_introl eq_refl))))).
  - apply in_flat_map in J. destruct J as (z & Z & [J|J]); [discriminate|]. apply Q in J. subst s. apply (lg_words _ _ _ _ Lg (lit_word (snd z))). right. apply in_map_iff. exists z. auto.
Qed.
Lemma stated_expressible es ls cs : SxfmFormulaSpec.stated es ls cs -> forall c, In c cs -> expressible c.
Proof. intros H. induction H as [|l ls cs W H IH|l ls c cs S H IH]; intros x I; [destruct I|exact (IH x I)|]. destruct I as [<-|I]; [exact (states_expressible _ _ _ S)|exact (IH x I)]. Qed.

(** ** Labels *)
Lemma label_some es : forall k i s, nth_error (label k es) i = Some s -> s <> [].
Proof.
  induction es as [|e es IH]; intros k i s; cbn [label]; [destruct i; discriminate|]. destruct (e_name e) as [|c n] eqn:E.
  - destruct i as [|i]; cbn [nth_error]; [intros X; injection X as <-; discriminate|exact (IH _ i s)].
  - destruct i as [|i]; cbn [nth_error]; [intros X; injection X as <-; discriminate|exact (IH _ i s)].
Qed.

(** ** Models as indented *)
Section Indented.
Variables (es : list entry) (h : heap) (m : fmodel) (t : tree).
Hypothesis R : represents h m t.
Hypothesis To : tree_ok es.
Hypothesis Ai : as_indented es h m.

Lemma entry_at i s : labelled es i s -> exists e, nth_error es i = Some e.
Proof. intros L. destruct (nth_error es i) as [e|] eqn:E; [eauto|]. apply nth_error_None in E. pose proof (nth_below _ _ _ L) as X. rewrite labels_length in X. lia. Qed.
Lemma label_at i e : nth_error es i = Some e -> exists s, labelled es i s.
Proof. intros E. unfold labelled. destruct (nth_error (labels es) i) as [s|] eqn:X; [eauto|]. apply nth_error_None in X. rewrite labels_length in X. pose proof (nth_below _ _ _ E). lia. Qed.
Lemma label_one i j s : labelled es i s -> labelled es j s -> i = j.
Proof. intros A B. apply (proj1 (NoDup_nth_error (labels es)) (to_labels _ To)); [exact (nth_below _ _ _ A)|unfold labelled in *; congruence]. Qed.
Lemma there s : In s (labels es) <-> exists i, get_feature m s = Some i.
Proof.
  pose proof (ts_names _ _ (represents_tree_shaped _ _ _ R)) as Nd. split.
  - intros I. apply (Permutation_in _ (Permutation_sym (ai_names _ _ _ Ai))) in I. apply in_map_iff in I. destruct I as ((s' & i) & E & I). cbn in E. subst s'. exists i. apply (find_name_in _ _ _ Nd). exact I.
  - intros (i & G). apply (find_name_in _ _ _ Nd) in G. apply (Permutation_in _ (ai_names _ _ _ Ai)). apply in_map_iff. exists (s, i). auto.
Qed.
Lemma position s x : get_feature m s = Some x -> exists i e f, labelled es i s /\ nth_error es i = Some e /\ feature_at h x = Some f /\
  f_kind f = match e_mark e with Root => FRoot | _ => FBinary end /\ f_name f = s /\ f_optional f = optional (e_mark e).
Proof.
  intros G. destruct (In_nth_error _ _ (proj2 (there s) (ex_intro _ x G))) as (i & L). destruct (entry_at i s L) as (e & E). destruct (ai_features _ _ _ Ai i e s E L) as (y & f & Gy & F & K & N & O).
  assert (y = x) as -> by congruence. exists i, e, f. repeat (split; [assumption|]). assumption.
Qed.
Lemma root_position : exists r s, m_root m = Some r /\ labelled es 0 s /\ get_feature m s = Some r.
Proof. exact (ai_root _ _ _ Ai). Qed.
Lemma root_only i s x : labelled es i s -> get_feature m s = Some x -> (m_root m = Some x <-> i = 0).
Proof.
  intros L G. destruct root_position as (r & s0 & Er & L0 & G0). split.
  - intros E. assert (r = x) as -> by congruence. destruct (get_stored h m t R s x G) as (f & (_ & F) & N). rewrite <- N in L. rewrite (get_name h m t R s0 x f G0 F) in L. exact (label_one i 0 s0 L L0).
  - intros ->. unfold labelled in *. congruence.
Qed.
Lemma mark_root i e : nth_error es i = Some e -> (e_mark e = Root <-> i = 0).
Proof.
  intros E. destruct (to_root _ To) as (e0 & r & Er & M & N). rewrite Er in E. destruct i as [|i]; cbn [nth_error] in E.
  - injection E as <-. split; auto.
  - split; [|discriminate]. intros X. exfalso. exact (N e (nth_error_In _ _ E) X).
Qed.
Lemma below_closest a j s u x y : labelled es a s -> labelled es j u -> get_feature m s = Some x -> get_feature m u = Some y -> (feature_above h x y <-> closest (levels es) a j).
Proof.
  intros La Lj Gx Gy. split.
  - intros Ab. destruct (Nat.eq_dec a 0) as [->|Na].
    + exfalso. assert (m_root m = Some x) as Er by (apply (root_only 0 s x La Gx); reflexivity).
      destruct (ts_root _ _ (represents_tree_shaped _ _ _ R)) as (r & c & f & Er' & _ & C & P & _). assert (r = x) as -> by congruence.
      inversion Ab as [? c1 y1 cp C1 P1|? c1 y1 cp z C1 P1]; subst; rewrite C in C1; injection C1 as <-; congruence.
    + assert (0 < a < List.length es) as La' by (pose proof (nth_below _ _ _ La) as X; rewrite labels_length in X; lia).
      destruct (closest_exists es a (to_indented _ To) La') as (j' & C). assert (exists u' e', labelled es j' u' /\ nth_error es j' = Some e') as (u' & e' & Lj' & Ej').
      { destruct (nth_error es j') as [e'|] eqn:E'; [destruct (label_at j' e' E') as (u' & X); exists u', e'; auto|]. apply nth_error_None in E'. destruct C as (? & _ & _ & X & _). lia. }
      destruct (ai_parents _ _ _ Ai a j' s u' e' C La Lj' Ej') as (x' & y' & Gx' & Gy' & H). assert (x' = x) as -> by congruence. pose proof (hangs_above h m t R x y' _ u' H Gy') as Ab'.
      assert (y' = y) as -> by (eapply feature_above_unique; eassumption). destruct (get_stored h m t R u y Gy) as (f & (_ & F) & N). rewrite <- N in Lj. rewrite (get_name h m t R u' y f Gy' F) in Lj.
      assert (j = j') as -> by exact (label_one j j' u' Lj Lj'). exact C.
  - intros C. destruct (entry_at j u Lj) as (e & E). destruct (ai_parents _ _ _ Ai a j s u e C La Lj E) as (x' & y' & Gx' & Gy' & H). assert (x' = x) as -> by congruence. assert (y' = y) as -> by congruence.
    exact (hangs_above h m t R x y _ u H Gy).
Qed.
Lemma child_indexed j u y x : labelled es j u -> get_feature m u = Some y -> (child_in h m y x <-> exists a s, child es j a s /\ get_feature m s = Some x).
Proof.
  intros Lj Gy. split.
  - intros ((s & G) & Ab). destruct (position s x G) as (a & _ & _ & La & _). exists a, s. split; [|exact G]. split; [|exact La]. apply (below_closest a j s u x y); assumption.
  - intros (a & s & (C & La) & G). split; [eauto|]. apply (below_closest a j s u x y); assumption.
Qed.
Lemma line_marked j u k : labelled es j u -> (In (u, k) (group_lines es (labels es)) <-> marked es j (Group k)).
Proof.
  intros Lj. split.
  - intros I. destruct (entry_at j u Lj) as (e & E). exists e. split; [exact E|]. pose proof (group_at es (labels es) j e u (to_labels _ To) E Lj) as X.
    destruct (e_mark e) eqn:M; try (exfalso; apply X; apply in_map_iff; exists (u, k); auto; fail).
    pose proof (proj1 (group_names es (labels es) (to_labels _ To))) as Nd. clear - Nd I X. f_equal. revert Nd I X. generalize (group_lines es (labels es)). intros l Nd I X.
    induction l as [|[a b] l IH]; [destruct I|]. cbn [map fst] in Nd. apply NoDup_cons_iff in Nd. destruct Nd as (Ni & Nd).
    destruct I as [I|I], X as [X|X]; [congruence| | |exact (IH Nd I X)]; exfalso; apply Ni; apply in_map_iff; [injection I as -> ->|injection X as -> ->]; eexists; (split; [|eassumption]); reflexivity.
  - intros (e & E & M). pose proof (group_at es (labels es) j e u (to_labels _ To) E Lj) as X. rewrite M in X. exact X.
Qed.
Lemma grouped_marked j u y k : labelled es j u -> get_feature m u = Some y -> (FeatureCloneSpec.group_of h m y k <-> marked es j (Group k)).
Proof.
  intros Lj Gy. destruct (ai_groups _ _ _ Ai) as (gs & P & F).
  assert (In (u, k) gs <-> marked es j (Group k)) as Q.
  { rewrite <- (line_marked j u k Lj). split; intros I; [exact (Permutation_in _ P I)|exact (Permutation_in _ (Permutation_sym P) I)]. }
  rewrite <- Q. split.
  - intros (q & c & Iq & C & D & Pq). destruct (forall2_nth_l _ _ _ _ F Iq) as ((s, k') & I & c' & C' & D' & P'). cbn [fst snd] in D', P'. assert (c' = c) as -> by congruence. assert (k' = k) as -> by congruence.
    rewrite Pq in P'. symmetry in P'. destruct (get_stored h m t R s y P') as (f & (_ & Ff) & N). rewrite <- N in I. rewrite (get_name h m t R u y f Gy Ff) in I. exact I.
  - intros I. destruct (forall2_nth _ _ _ _ F I) as (q & Iq & c & C & D & Pq). cbn [fst snd] in D, Pq. exists q, c. split; [exact Iq|]. split; [exact C|]. split; [exact D|]. congruence.
Qed.
Lemma hangs_indexed a j s u x y e : closest (levels es) a j -> labelled es a s -> labelled es j u -> nth_error es j = Some e -> get_feature m s = Some x -> get_feature m u = Some y ->
  forall r, hangs h x y r <-> r = group_of (e_mark e).
Proof.
  intros C La Lj E Gx Gy r. destruct (ai_parents _ _ _ Ai a j s u e C La Lj E) as (x' & y' & Gx' & Gy' & H). assert (x' = x) as -> by congruence. assert (y' = y) as -> by congruence. split.
  - intros H'. destruct (get_stored h m t R s x Gx) as (f & Sf & N). destruct (get_stored h m t R u y Gy) as (g & Sg & _).
    destruct (hangs_below h m t R x f Sf) as (p & gp & r0 & _ & _ & _ & U).
    { intros K. exact (hangs_root h m t R x f y _ Sf K H). }
    destruct (U y g r H' (proj2 Sg)) as (_ & _ & ->). destruct (U y g _ H (proj2 Sg)) as (_ & _ & <-). reflexivity.
  - intros ->. exact H.
Qed.
Lemma together_mates s u x y : get_feature m s = Some x -> get_feature m u = Some y -> x <> y -> (together h x y <-> group_mates es s u).
Proof.
  intros Gx Gy N. rewrite (together_hangs h m t s u x y R Gx Gy). destruct (position s x Gx) as (a & _ & _ & La & _). destruct (position u y Gy) as (b & _ & _ & Lb & _). split.
  - intros (v & p & k & Gp & Hx & Hy). destruct (position v p Gp) as (j & e & f & Lj & Ej & _).
    assert (closest (levels es) a j) as Ca by (apply (below_closest a j s v x p La Lj Gx Gp); exact (hangs_above h m t R x p _ v Hx Gp)).
    assert (closest (levels es) b j) as Cb by (apply (below_closest b j u v y p Lb Lj Gy Gp); exact (hangs_above h m t R y p _ v Hy Gp)).
    exists j, k, a, b. split; [apply (grouped_marked j v p k Lj Gp); destruct (get_stored h m t R s x Gx) as (fx & Sx & _); exact (hangs_group_of h m t R x fx p k Sx Hx)|].
    split; [split; assumption|]. split; [split; assumption|]. intros ->. unfold labelled in *. congruence.
  - intros (j & k & a' & b' & (e & Ej & Mk) & (Ca & La') & (Cb & Lb') & Nab). rewrite (label_one a' a s La' La) in *. rewrite (label_one b' b u Lb' Lb) in *.
    destruct (label_at j e Ej) as (v & Lj). assert (exists p, get_feature m v = Some p) as (p & Gp) by (apply there; exact (nth_error_In _ _ Lj)).
    exists v, p, k. split; [exact Gp|]. split; [apply (hangs_indexed a j s v x p e Ca La Lj Ej Gx Gp)|apply (hangs_indexed b j u v y p e Cb Lb Lj Ej Gy Gp)]; rewrite Mk; reflexivity.
Qed.
Lemma spelled_pointing c : (forall s, In s (leaves c) -> In (T s) (labels es)) -> spelled h (cmap (fun s => pointing m (Own (T s))) c) c.
Proof.
  induction c as [o l IHl r IHr|o c IH|n|s]; intros H; cbn [cmap].
  - constructor; [apply IHl|apply IHr]; intros s I; apply H; cbn [leaves]; apply in_or_app; auto.
  - constructor. exact (IH H).
  - constructor.
  - constructor. unfold pointing. destruct (proj1 (there (T s)) (H s (or_introl eq_refl))) as (i & G). rewrite G. cbn [called_in]. destruct (get_stored h m t R _ i G) as (f & (_ & F) & N). eauto.
Qed.
End Indented.

(** ** Groups turned into alternatives *)
Lemma alternated_labels es : labels (alternated es) = labels es.
Proof.
  unfold labels. generalize 0 as k. induction es as [|e es IH]; intros k; [reflexivity|]. unfold alternated in *. cbn [map label].
  assert (e_name (alternated_entry e) = e_name e) as -> by (unfold alternated_entry; destruct (e_mark e); reflexivity). destruct (e_name e); rewrite IH; reflexivity.
Qed.
Lemma alternated_levels es : levels (alternated es) = levels es.
Proof. unfold levels, alternated. rewrite map_map. apply map_ext. intros e. unfold alternated_entry. destruct (e_mark e); reflexivity. Qed.
Lemma alternated_nth es i e : nth_error (alternated es) i = Some e -> exists e0, nth_error es i = Some e0 /\ e = alternated_entry e0.
Proof.
  intros E. destruct (nth_error es i) as [e0|] eqn:E0.
  - exists e0. split; [reflexivity|]. unfold alternated in E. rewrite (map_nth_error alternated_entry i es E0) in E. congruence.
  - exfalso. apply nth_error_None in E0. pose proof (nth_below _ _ _ E) as X. unfold alternated in X. rewrite map_length in X. lia.
Qed.
Lemma alternated_mark e : e_mark (alternated_entry e) = match e_mark e with Group _ => Group RAlternative | m => m end.
Proof. unfold alternated_entry. destruct (e_mark e) eqn:M; cbn [e_mark]; auto. Qed.
Lemma alternated_tree es : tree_ok es -> tree_ok (alternated es).
Proof.
  intros [(e & r & -> & M & N) Nl W]. constructor.
  - exists (alternated_entry e), (map alternated_entry r). split; [reflexivity|]. rewrite alternated_mark, M. split; [reflexivity|]. intros x I. apply in_map_iff in I. destruct I as (y & <- & I). rewrite alternated_mark. pose proof (N y I). destruct (e_mark y); congruence.
  - rewrite alternated_labels. exact Nl.
  - rewrite alternated_levels. exact W.
Qed.
Lemma alternated_lines es s k : In (s, k) (group_lines (alternated es) (labels (alternated es))) <-> k = RAlternative /\ exists k0, In (s, k0) (group_lines es (labels es)).
Proof.
  rewrite alternated_labels. generalize (labels es). induction es as [|e es IH]; intros [|n l]; try (cbn; split; [intros []|intros (_ & k0 & [])]).
  unfold alternated in *. cbn [map group_lines]. rewrite alternated_mark. specialize (IH l). destruct (e_mark e) as [| | | |kg]; try exact IH. cbn [In]. rewrite IH. split.
  - intros [X|(-> & k0 & I)]; [injection X as <- <-|]; (split; [reflexivity|]); eauto.
  - intros (-> & k0 & [X|I]); [injection X as <- <-; left; reflexivity|]. right. split; eauto.
Qed.
Lemma alternated_same es : only_alternatives es -> alternated es = es.
Proof.
  intros O. unfold alternated. rewrite <- (map_id es) at 2. apply map_ext_in. intros e I. unfold alternated_entry. destruct (e_mark e) as [| | | |[]] eqn:M; try reflexivity.
  - rewrite <- M. destruct e; reflexivity.
  - exfalso. destruct (In_nth_error _ _ I) as (j & E). apply (O j). exists e. auto.
Qed.
