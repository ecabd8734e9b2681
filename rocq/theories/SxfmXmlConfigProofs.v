(** The configurations of a model that is as indented and states formulas and the
    exclusions of group members. *)
From Coq Require Import List ZArith NArith Arith Bool Ascii String Permutation Lia.
From Verif Require Import Text TextProofs ConstraintModel ConstraintSpec FeatureTreeModel FeatureTreeSpec FeatureTreeProofs FeatureTransactionModel
  FeatureEditSpec FeatureEditProofs FeatureTransactionSpec FeatureHistoryProofs FeatureCloneSpec FeatureCloneProofs FeatureBuildSpec SxfmModel SxfmSpec SxfmTreeProofs SxfmFormulaSpec SxfmBuildProofs
  XmlModel XmlWriterModel XmlSpec XmlTripSpec ConfigurationModel SolverModel SolverSpec SolverLoadProofs ValidSpec ValidProofs ValidTripProofs CloneSameProofs DescribedSpec SxfmConfigSpec SxfmConfigProofs SxfmXmlSpec SxfmXmlProofs.
Import ListNotations.
Local Open Scope string_scope.
Local Open Scope list_scope.
Local Open Scope nat_scope.

Lemma alternated_marked es j k : marked (alternated es) j (Group k) <-> k = RAlternative /\ exists k0, marked es j (Group k0).
Proof.
  split.
  - intros (e & E & M). destruct (alternated_nth es j e E) as (e0 & E0 & ->). rewrite alternated_mark in M. destruct (e_mark e0) as [| | | |k0] eqn:M0; try discriminate M. injection M as <-. split; [reflexivity|]. exists k0, e0. auto.
  - intros (-> & k0 & e & E & M). exists (alternated_entry e). split; [exact (map_nth_error alternated_entry j es E)|]. rewrite alternated_mark, M. reflexivity.
Qed.
Lemma alternated_child es j i s : child (alternated es) j i s <-> child es j i s.
Proof. unfold child, labelled. rewrite alternated_labels, alternated_levels. reflexivity. Qed.
Lemma alternated_mates es s u : group_mates (alternated es) s u <-> group_mates es s u.
Proof.
  split.
  - intros (j & k & a & b & M & Ca & Cb & N). apply alternated_marked in M. destruct M as (_ & k0 & M). rewrite alternated_child in Ca, Cb. exists j, k0, a, b. auto.
  - intros (j & k & a & b & M & Ca & Cb & N). exists j, RAlternative, a, b. rewrite !alternated_child. split; [apply alternated_marked; eauto|auto].
Qed.
Lemma alternated_said es cs e : said (alternated es) cs e <-> said es cs e.
Proof. unfold said. split; (intros [I|(s & u & -> & G)]; [left; exact I|right; exists s, u; split; [reflexivity|apply alternated_mates; exact G]]). Qed.

Lemma spelled_value h a c e : spelled h c e -> formula e -> (forall i f, In (Ref i) (leaves c) -> feature_at h i = Some f -> numeric_kind (f_kind f) = false) ->
  forall v, value_of h false a c = Some v <-> exists b, v = Truth b /\ truth (a_bool a) e b /\ ~ negates e.
Proof.
  intros S F. revert c S. unfold value_of. induction F as [s|e F IH|l r Fl IHl Fr IHr|l r Fl IHl Fr IHr]; intros c S Nn v; inversion S as [o x y x' y' Sx Sy|o x x' Sx| |r0 s0 Ca]; subst; cbn [meaning leaves] in *.
  - assert (leaf_value h false a r0 = Some (Truth (a_bool a (T s)))) as ->.
    { destruct r0 as [u|i]; cbn [called_in] in Ca; cbn [leaf_value]; [subst u; reflexivity|destruct Ca as (f & Ff & <-); rewrite Ff, (Nn i f (or_introl eq_refl) Ff); reflexivity]. }
    split.
    + intros X. injection X as <-. exists (a_bool a (T s)). split; [reflexivity|]. split; [constructor|]. intros X. inversion X.
    + intros (b & -> & H & _). inversion H. reflexivity.
  - split.
    + intros X. destruct (meaning xorb (leaf_value h false a) (a_div0 a) x) as [[b|z]|] eqn:E; try discriminate X. apply (IH x Sx Nn) in E. destruct E as (b & E & _). discriminate E.
    + intros (b & _ & _ & H). exfalso. apply H. constructor.
  - assert (forall i f, In (Ref i) (leaves x) -> feature_at h i = Some f -> numeric_kind (f_kind f) = false) as Nx by (intros i f I; apply Nn, in_or_app; auto).
    assert (forall i f, In (Ref i) (leaves y) -> feature_at h i = Some f -> numeric_kind (f_kind f) = false) as Ny by (intros i f I; apply Nn, in_or_app; auto).
    split.
    + intros X. destruct (meaning xorb (leaf_value h false a) (a_div0 a) x) as [[b|z]|] eqn:E; destruct (meaning xorb (leaf_value h false a) (a_div0 a) y) as [[b'|z']|] eqn:E'; try discriminate X.
      apply (IHl x Sx Nx) in E. apply (IHr y Sy Ny) in E'. destruct E as (p & E & T1 & N1). destruct E' as (q & E' & T2 & N2). injection E as <-. injection E' as <-. injection X as <-.
        exists (b && b'). split; [reflexivity|]. split; [constructor; assumption|]. intros X. inversion X; contradiction.
    + intros (b & -> & H & N). inversion H as [| |l' r' p q L Rr|]. subst.
      rewrite (proj2 (IHl x Sx Nx (Truth p))), (proj2 (IHr y Sy Ny (Truth q))); [reflexivity| |]; (eexists; split; [reflexivity|]; split; [assumption|]); intros X; apply N; [apply negates_right|apply negates_left]; exact X.
  - assert (forall i f, In (Ref i) (leaves x) -> feature_at h i = Some f -> numeric_kind (f_kind f) = false) as Nx by (intros i f I; apply Nn, in_or_app; auto).
    assert (forall i f, In (Ref i) (leaves y) -> feature_at h i = Some f -> numeric_kind (f_kind f) = false) as Ny by (intros i f I; apply Nn, in_or_app; auto).
    split.
    + intros X. destruct (meaning xorb (leaf_value h false a) (a_div0 a) x) as [[b|z]|] eqn:E; destruct (meaning xorb (leaf_value h false a) (a_div0 a) y) as [[b'|z']|] eqn:E'; try discriminate X.
      apply (IHl x Sx Nx) in E. apply (IHr y Sy Ny) in E'. destruct E as (p & E & T1 & N1). destruct E' as (q & E' & T2 & N2). injection E as <-. injection E' as <-. injection X as <-.
        exists (b || b'). split; [reflexivity|]. split; [constructor; assumption|]. intros X. inversion X; contradiction.
    + intros (b & -> & H & N). inversion H as [| | |l' r' p q L Rr]. subst.
      rewrite (proj2 (IHl x Sx Nx (Truth p))), (proj2 (IHr y Sy Ny (Truth q))); [reflexivity| |]; (eexists; split; [reflexivity|]; split; [assumption|]); intros X; apply N; [apply negates_right|apply negates_left]; exact X.
Qed.

Section Indented.
Variables (es : list entry) (cs : list (cexpr string)) (h : heap) (m : fmodel) (t : tree).
Hypothesis R : represents h m t.
Hypothesis To : tree_ok es.
Hypothesis Ai : as_indented es h m.
Hypothesis Re : all_resolved m.
Hypothesis Fo : forall c, In c cs -> formula c.
Hypothesis Nn : m_nonboolean m = [].
Hypothesis Nx : m_mixed m = [].
Hypothesis Oa : only_alternatives es.
Hypothesis St : forall e, stated h (m_boolean m) e <-> said es cs e.

Lemma plain_kind i f : stored h m i f -> f_kind f = FRoot \/ f_kind f = FBinary.
Proof.
  intros Sf. destruct (position es h m t R Ai _ i (stored_get h m t R i f Sf)) as (_ & e & f' & _ & _ & F' & K & _). assert (f' = f) as -> by (pose proof (proj2 Sf); congruence). rewrite K. destruct (e_mark e); auto.
Qed.
Lemma group_indexed k n ns : group h m k n ns -> exists j, labelled es j n /\ marked es j (Group k) /\ forall s, In s ns <-> exists i, child es j i s.
Proof.
  intros G. destruct (members_hang_rep h m t R k n ns G) as (p & Gp & Gk & M). destruct (position es h m t R Ai n p Gp) as (j & e & _ & Lj & Ej & _). apply (grouped_marked es h m t R To Ai j n p k Lj Gp) in Gk.
  exists j. split; [exact Lj|]. split; [exact Gk|]. destruct Gk as (e' & E' & Me). assert (e' = e) as -> by congruence. intros s. rewrite M. split.
  - intros (i & Gi & H). destruct (position es h m t R Ai s i Gi) as (a & _ & _ & La & _). exists a. split; [|exact La]. apply (below_closest es h m t R To Ai a j s n i p La Lj Gi Gp). exact (hangs_above h m t R i p _ n H Gp).
  - intros (a & C & La). destruct (proj1 (there es h m t R Ai s) (nth_error_In _ _ La)) as (i & Gi). exists i. split; [exact Gi|]. apply (hangs_indexed es h m t R Ai a j s n i p e C La Lj Ej Gi Gp). rewrite Me. reflexivity.
Qed.
Lemma group_there k j n : labelled es j n -> marked es j (Group k) -> exists ns, group h m k n ns.
Proof.
  intros Lj Mk. destruct (proj1 (there es h m t R Ai n) (nth_error_In _ _ Lj)) as (p & Gp). apply (grouped_by h m t R p k n Gp). apply (grouped_marked es h m t R To Ai j n p k Lj Gp). exact Mk.
Qed.
Lemma member_refs c : In c (m_boolean m) -> forall i f, In (Ref i) (leaves (c_expr c)) -> feature_at h i = Some f -> numeric_kind (f_kind f) = false.
Proof.
  intros I i f J F. destruct (Re c (Ref i)) as (s & i' & X & G); [unfold all_constraints; apply in_or_app; auto|exact J|]. injection X as <-. destruct (get_stored h m t R s i G) as (f' & Sf & _). assert (f' = f) as -> by (pose proof (proj2 Sf); congruence).
  destruct (plain_kind i f Sf) as [-> | ->]; reflexivity.
Qed.
Lemma constraint_said c : In c (m_boolean m) -> exists e, spelled h (c_expr c) e /\ said es cs e.
Proof.
  intros I. destruct (spelled_exists h m t (c_expr c) R) as (e & S); [intros r J; apply (Re c r); [unfold all_constraints; apply in_or_app; auto|exact J]|]. exists e. split; [exact S|]. apply St. exists c. auto.
Qed.
Lemma pair_value a c s u : In c (m_boolean m) -> spelled h (c_expr c) (CBin BExcludes (CFeat (U s)) (CFeat (U u))) -> value_of h false a (c_expr c) = Some (Truth (negb (a_bool a s && a_bool a u))).
Proof.
  intros I S. pose proof (member_refs c I) as Mr. destruct (c_expr c); inversion S as [o1 x y x' y' Sx Sy| | |]; subst. inversion Sx as [| | |r0 s0 Ca]. inversion Sy as [| | |r1 s1 Cb]. subst.
  assert (forall r v, In r (leaves (CBin BExcludes (CFeat r0) (CFeat r1))) -> called_in h r (U v) -> leaf_value h false a r = Some (Truth (a_bool a v))) as Q.
  { intros r v J Cr. destruct r as [w|i]; cbn [called_in] in Cr; cbn [leaf_value]; [subst w; rewrite T_U; reflexivity|destruct Cr as (f & Ff & N); rewrite Ff, (Mr i f J Ff), N, T_U; reflexivity]. }
  unfold value_of. cbn [meaning]. rewrite (Q r0 s (or_introl eq_refl) Ca), (Q r1 u (or_intror (or_introl eq_refl)) Cb). reflexivity.
Qed.

Lemma indented_valid a : SolverSpec.valid h m a <-> stated_configuration es cs (a_bool a) /\ forall c, In c cs -> ~ negates c.
Proof.
  assert (forall i s, labelled es i s -> exists x f, get_feature m s = Some x /\ stored h m x f /\ f_name f = s) as Th.
  { intros i s L. destruct (proj1 (there es h m t R Ai s) (nth_error_In _ _ L)) as (x & G). destruct (get_stored h m t R s x G) as (f & Sf & N). exists x, f. auto. }
  assert (forall j i s, child es j i s -> i <> 0) as Pos by (intros j i s ((? & _ & _ & ? & _) & _); lia).
  split.
  - intros V. assert (forall c, In c cs -> truth (a_bool a) c true /\ ~ negates c) as Cs.
    { intros c I. destruct (proj2 (St c) (or_introl I)) as (x & Ix & S). pose proof (v_constraints _ _ _ V x ltac:(apply in_or_app; auto)) as Vx. apply (spelled_value h a _ c S (Fo c I) (member_refs x Ix)) in Vx. destruct Vx as (b & E & Tb & Ng). injection E as <-. auto. }
    split; [|intros c I; exact (proj2 (Cs c I))]. constructor.
    + intros s L. destruct (Th 0 s L) as (x & f & G & Sf & N). destruct (position es h m t R Ai s x G) as (i & e & f' & Li & Ei & F' & K & _). assert (f' = f) as -> by (pose proof (proj2 Sf); congruence).
      rewrite (label_one es To i 0 s Li L) in Ei. rewrite (proj2 (mark_root es To 0 e Ei) eq_refl) in K. rewrite <- N. exact (v_root _ _ _ V x f Sf K).
    + intros i j s p C Lj Sel. destruct (Th i s (proj2 C)) as (x & f & G & Sf & N). destruct (Th j p Lj) as (y & g & Gy & Sg & Ng). destruct (entry_at es j p Lj) as (e & Ej). destruct (ai_parents _ _ _ Ai i j s p e (proj1 C) (proj2 C) Lj Ej) as (x' & y' & Gx' & Gy' & H).
      assert (x' = x) as -> by congruence. assert (y' = y) as -> by congruence. destruct (position es h m t R Ai s x G) as (i' & e' & f' & Li & Ei & F' & K & _). assert (f' = f) as -> by (pose proof (proj2 Sf); congruence).
      assert (f_kind f = FBinary) as Kb by (rewrite (label_one es To i' i s Li (proj2 C)) in Ei; pose proof (mark_root es To i e' Ei) as Mr; pose proof (Pos j i s C); destruct (e_mark e'); try exact K; exfalso; tauto).
      rewrite <- Ng. apply (v_parent _ _ _ V x f y g _ Sf Kb H (proj2 Sg)). unfold selected. rewrite N. exact Sel.
    + intros i j s p k C Lj No Mj Ng0 Sel. destruct (Th i s (proj2 C)) as (x & f & G & Sf & N). destruct (Th j p Lj) as (y & g & Gy & Sg & Ng). destruct Mj as (e & Ej & Me). destruct (ai_parents _ _ _ Ai i j s p e (proj1 C) (proj2 C) Lj Ej) as (x' & y' & Gx' & Gy' & H).
      assert (x' = x) as -> by congruence. assert (y' = y) as -> by congruence. destruct (position es h m t R Ai s x G) as (i' & e' & f' & Li & Ei & F' & K & _ & O). assert (f' = f) as -> by (pose proof (proj2 Sf); congruence).
      rewrite (label_one es To i' i s Li (proj2 C)) in Ei. assert (f_kind f = FBinary) as Kb by (pose proof (mark_root es To i e' Ei) as Mr; pose proof (Pos j i s C); destruct (e_mark e'); try exact K; exfalso; tauto).
      assert (group_of (e_mark e) = None) as Gn by (rewrite Me; destruct k; try reflexivity; exfalso; eapply Ng0; reflexivity). rewrite Gn in H.
      rewrite <- N. apply (v_mandatory _ _ _ V x f y g Sf Kb); [rewrite O; destruct (e_mark e') eqn:M; try reflexivity; exfalso; apply No; exists e'; auto|exact H|exact (proj2 Sg)|]. unfold selected. rewrite Ng. exact Sel.
    + intros j p Mk Lj Sel. destruct (group_there RAlternative j p Lj Mk) as (ns & Gr). destruct (v_alternative _ _ _ V p ns Gr Sel) as (s & I & Ss & Un). destruct (group_indexed _ _ _ Gr) as (j' & Lj' & _ & Ms). rewrite (label_one es To j' j p Lj' Lj) in Ms.
      destruct (proj1 (Ms s) I) as (i & C). exists i, s. split; [exact C|]. split; [exact Ss|]. intros i' s' C' S'. pose proof (Un s' (proj2 (Ms s') (ex_intro _ i' C')) S'). subst s'. exact (label_one es To i' i s (proj2 C') (proj2 C)).
    + intros j p Mk. exfalso. exact (Oa j Mk).
    + intros c I. exact (proj1 (Cs c I)).
  - intros (C & Hn). constructor.
    + intros i f Sf K. destruct (position es h m t R Ai _ i (stored_get h m t R i f Sf)) as (a0 & e & f' & L & E & F' & K' & _). assert (f' = f) as -> by (pose proof (proj2 Sf); congruence). rewrite K in K'.
      apply (sc_root _ _ _ C). assert (e_mark e = Root) as Me by (destruct (e_mark e); congruence). apply (mark_root es To a0 e E) in Me. subst a0. exact L.
    + intros i f p g r Sf K H Fp Sel. destruct (position es h m t R Ai _ i (stored_get h m t R i f Sf)) as (a0 & e & f' & L & E & _). destruct (hangs_parent h m t R i p r f Sf H (ex_intro _ g Fp)) as (u & Gp).
      destruct (position es h m t R Ai u p Gp) as (j & _ & _ & Lj & _). rewrite (get_name h m t R u p g Gp Fp). apply (sc_parent _ _ _ C a0 j (f_name f) u); [|exact Lj|exact Sel]. split; [|exact L].
      apply (below_closest es h m t R To Ai a0 j _ u i p L Lj (stored_get h m t R i f Sf) Gp). exact (hangs_above h m t R i p r u H Gp).
    + intros i f p g Sf K O H Fp Sel. destruct (position es h m t R Ai _ i (stored_get h m t R i f Sf)) as (a0 & e & f' & L & E & F' & _ & _ & O'). assert (f' = f) as -> by (pose proof (proj2 Sf); congruence). destruct (hangs_parent h m t R i p None f Sf H (ex_intro _ g Fp)) as (u & Gp).
      destruct (position es h m t R Ai u p Gp) as (j & ej & _ & Lj & Ej & _). unfold selected in Sel. rewrite (get_name h m t R u p g Gp Fp) in Sel.
      assert (closest (levels es) a0 j) as Cl by (apply (below_closest es h m t R To Ai a0 j _ u i p L Lj (stored_get h m t R i f Sf) Gp); exact (hangs_above h m t R i p None u H Gp)).
      apply (sc_mandatory _ _ _ C a0 j (f_name f) u (e_mark ej)); [split; assumption|exact Lj| |exists ej; auto| |exact Sel].
      * intros (e' & E' & M). assert (e' = e) as -> by congruence. rewrite O, M in O'. discriminate O'.
      * intros k M. apply (hangs_indexed es h m t R Ai a0 j _ u i p ej Cl L Lj Ej (stored_get h m t R i f Sf) Gp) in H. rewrite M in H. discriminate H.
    + intros n ns Gr Sel. destruct (group_indexed _ _ _ Gr) as (j & Lj & Mk & Ms). destruct (sc_alternative _ _ _ C j n Mk Lj Sel) as (i & s & Ci & Ss & Un). exists s. split; [apply Ms; eauto|]. split; [exact Ss|].
      intros s' I' S'. apply Ms in I'. destruct I' as (i' & C'). pose proof (Un i' s' C' S'). subst i'. destruct Ci as (_ & L1). destruct C' as (_ & L2). unfold labelled in *. congruence.
    + intros n ns Gr. exfalso. destruct (group_indexed _ _ _ Gr) as (j & _ & Mk & _). exact (Oa j Mk).
    + intros i f v st Sf K. exfalso. destruct (plain_kind i f Sf); congruence.
    + rewrite Nn, app_nil_r. intros c I. destruct (constraint_said c I) as (e & S & [Ic|(s & u & -> & j & k & x & y & Mk & Cx & Cy & N)]).
      * apply (spelled_value h a _ e S (Fo e Ic) (member_refs c I)). exists true. split; [reflexivity|]. split; [exact (sc_formulas _ _ _ C e Ic)|exact (Hn e Ic)].
      * rewrite (pair_value a c s u I S). f_equal. f_equal. apply negb_true_iff, andb_false_iff. destruct (a_bool a s) eqn:Es; [|auto]. destruct (a_bool a u) eqn:Eu; [|auto]. exfalso.
        assert (k = RAlternative) as -> by (destruct k; [reflexivity|exfalso; exact (Oa j Mk)]). destruct (label_at es j (nth j es (Entry 0 Root [] None))) as (p & Lj); [destruct Mk as (ej & Ej & _); rewrite (nth_error_nth _ _ _ Ej); exact Ej|].
        destruct (sc_alternative _ _ _ C j p Mk Lj (sc_parent _ _ _ C x j s p Cx Lj Es)) as (i & v & _ & _ & Un). apply N. rewrite (Un x s Cx Es), (Un y u Cy Eu). reflexivity.
    + rewrite Nx. intros x [].
Qed.
Lemma indented_supported : inhabited_groups es -> (forall c, In c cs -> ~ negates c) -> supported h m /\ no_xor m.
Proof.
  intros Ih Hn. split.
  - constructor.
    + intros i f Sf K. destruct (plain_kind i f Sf); congruence.
    + intros i f p g r Sf K H Fp. destruct (hangs_parent h m t R i p r f Sf H (ex_intro _ g Fp)) as (u & Gp). destruct (get_stored h m t R u p Gp) as (g' & Sg & _). assert (g' = g) as -> by (pose proof (proj2 Sg); congruence). destruct (plain_kind p g Sg) as [-> | ->]; reflexivity.
    + intros n ns Gr ->. destruct (group_indexed _ _ _ Gr) as (j & _ & Mk & Ms). destruct (Ih j Mk) as (i & s & C). apply (proj2 (Ms s)). eauto.
    + intros i f v st Sf K. exfalso. destruct (plain_kind i f Sf); congruence.
    + rewrite Nn, app_nil_r. intros c I a. destruct (constraint_said c I) as (e & S & [Ic|(s & u & -> & _)]).
      * destruct (formula_truth (a_bool a) e (Fo e Ic)) as (b & Tb). exists b. apply (spelled_value h a _ e S (Fo e Ic) (member_refs c I)). exists b. auto.
      * eexists. exact (pair_value a c s u I S).
    + rewrite Nx. intros x [].
  - unfold no_xor. rewrite Nn, Nx. cbn [map]. rewrite !app_nil_r. intros x I. apply in_map_iff in I. destruct I as (c & <- & I). destruct (constraint_said c I) as (e & S & Q).
    assert (xor_free e) as Xf. { destruct Q as [Ic|(s & u & -> & _)]; [|cbn; repeat split; discriminate]. specialize (Fo e Ic). clear - Fo. induction Fo; cbn [xor_free]; auto; (split; [discriminate|auto]). }
    clear - S Xf. induction S; cbn [xor_free] in *; tauto.
Qed.
End Indented.
