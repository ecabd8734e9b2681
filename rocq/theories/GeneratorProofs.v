(** The configuration generator writes what the document describes. *)
From Coq Require Import List ZArith NArith Arith Bool Ascii String Permutation Sorted Lia.
From Verif Require Import Text TextProofs ConstraintModel ConstraintSpec FeatureTreeModel FeatureTreeSpec FeatureTreeProofs FeatureOrderProofs FeatureTransactionModel FeatureTransactionSpec FeatureEditSpec FeatureEditProofs
  FeatureHistoryProofs FeatureBuildSpec FeatureCloneSpec FeatureCloneProofs SxfmModel XmlModel XmlSpec XmlTripSpec XmlReadProofs XmlFinal ConfigurationModel ConfigurationSpec SolverModel SolverSpec SolverProofs SolverLoadProofs SolverFinal
  SampleModel SampleSpec SampleProofs ValidSpec ValidProofs DescribedSpec DescribedProofs DescribedFinal GeneratorModel GeneratorSpec.
Import ListNotations.

Lemma collected_fun (P : text -> text -> Prop) l xs ys : (forall s x y, P s x -> P s y -> x = y) -> collected P l xs -> collected P l ys -> xs = ys.
Proof.
  intros F C. revert ys. induction C as [|s l x xs H C IH|s l xs H C IH]; intros ys D; inversion D as [|? ? y zs H' D'|? ? zs H' D']; subst; auto.
  - f_equal; [exact (F s _ _ H H')|auto].
  - exfalso. exact (H' x H).
  - exfalso. exact (H y H').
Qed.
Section Names.
Variables (cs : list bcall) (d : decl) (h : heap) (m : fmodel) (t : tree).
Hypothesis R : represents h m t.
Hypothesis AD : as_described cs d h m.
Hypothesis DE : describes cs d.
Definition name_of (i : nid) : text := match name_at h i with Some s => s | None => [] end.
Lemma name_of_stored i g : stored h m i g -> name_of i = f_name g.
Proof. intros Sg. unfold name_of. rewrite (stored_name h m i g Sg). reflexivity. Qed.
Lemma sub_stored u g : subtree u t -> rdata u = NFeature g -> stored h m (rid u) g.
Proof. intros U D. apply (stored_sub h m t R). eauto. Qed.

(** The declared feature at a node. *)
Definition declared_at (u : tree) (f : feature) : Prop := In f (snd d) /\ subtree u t /\ exists g, rdata u = NFeature g /\ same_data f g.
Lemma near_declared n g ts v : subtree (Node n (NFeature g) ts) t -> In v (near ts) -> exists f, declared_at v f /\ below cs d (f_name g) f.
Proof.
  intros U I. pose proof (subtree_trans _ _ _ (near_subtree n (NFeature g) ts v I) U) as Vt. pose proof (near_feature ts v I) as Fv. destruct (rdata v) as [gv|] eqn:Dv; [|discriminate].
  pose proof (sub_stored v gv Vt Dv) as St. destruct (holds_sub h None t _ (rep_holds _ _ _ R) U) as (q & H).
  pose proof (parent_feature_near h q n (NFeature g) ts v (rep_ok _ _ _ R) H (subtree_nodup _ _ U (rep_ids _ _ _ R)) eq_refl I) as P.
  destruct (from cs d h m t R AD _ _ St) as [(Er & _)|(f & If & S)].
  - exfalso. rewrite (rep_root _ _ _ R) in Er. injection Er as Er. rewrite <- Er, (parent_feature_root h t (rep_holds _ _ _ R)) in P. discriminate.
  - exists f. split; [split; [exact If|split; [exact Vt|exists gv; auto]]|]. split; [exact If|].
    destruct (hangs_below h m t R _ _ St) as (p & gp & r & Hg & Sp & Pp & _). { rewrite (proj1 S). exact (not_root cs d DE f If). }
    rewrite P in Pp. injection Pp as <-. destruct (hanging cs d h m t R AD DE f _ _ _ _ _ If St S Hg (proj2 Sp)) as (_ & N & _). unfold parent_of in N. rewrite <- N.
    pose proof (proj2 (sub_stored _ g U eq_refl)) as F. cbn [rid] in F. destruct Sp as (_ & Fp). congruence.
Qed.
Lemma near_found n g ts f : subtree (Node n (NFeature g) ts) t -> below cs d (f_name g) f -> exists v, In v (near ts) /\ declared_at v f.
Proof.
  intros U (If & B). destruct (made cs d h m t R AD f If) as (i & gi & Si & S). destruct (hangs_there cs d h m t R AD f i gi If Si S) as (p & gp & Sp & Np & Hg).
  unfold parent_of in Np. rewrite B in Np. pose proof (sub_stored _ g U eq_refl) as Sn. cbn [rid] in Sn. pose proof (stored_get h m t R p gp Sp) as Gp. rewrite Np, (stored_get h m t R n g Sn) in Gp. injection Gp as <-.
  assert (K : f_kind gi <> FRoot) by (rewrite (proj1 S); exact (not_root cs d DE f If)). destruct (hangs_below h m t R i gi Si K) as (p & g' & r & _ & _ & Pp & Un). destruct (Un n gp _ Hg (proj2 Sp)) as (E & _). subst p. clear Un.
  apply (stored_sub h m t R) in Si. destruct Si as (u & Ut & <- & Du). destruct (rep_owner h m t u R Ut) as (w & W & Fw & Iw & Pw); [rewrite Du; reflexivity| |].
  - intros E. rewrite E, (parent_feature_root h t (rep_holds _ _ _ R)) in Pp. discriminate.
  - rewrite Pp in Pw. injection Pw as Ew. assert (w = Node n (NFeature g) ts) as -> by (apply (subtree_unique t); [apply (rep_ids _ _ _ R)|exact W|exact U|exact (eq_sym Ew)]).
    exists u. split; [exact Iw|]. split; [exact If|]. split; [exact Ut|]. exists gi. auto.
Qed.
Lemma declared_rid u v f : declared_at u f -> declared_at v f -> rid u = rid v.
Proof.
  intros (_ & U & g & D & S) (_ & V & g' & D' & S'). pose proof (stored_get h m t R _ _ (sub_stored u g U D)) as G. pose proof (stored_get h m t R _ _ (sub_stored v g' V D')) as G'.
  destruct S as (_ & N & _). destruct S' as (_ & N' & _). rewrite N in G. rewrite N' in G'. congruence.
Qed.
Lemma near_rids ts : NoDup (flat_map ids ts) -> NoDup (map rid (near ts)).
Proof.
  intros D. pose proof (near_nodup ts D) as X. clear - X. induction (near ts) as [|a l IH]; [constructor|].
  cbn [flat_map map] in *. destruct a as [an ad ats]. cbn [ids app rid] in *. apply NoDup_cons_iff in X. destruct X as [X Y]. constructor.
  - intros J. apply X. apply in_or_app. right. apply in_map_iff in J. destruct J as (v & E & J). apply in_flat_map. exists v. split; [exact J|]. rewrite <- E. destruct v; left; reflexivity.
  - apply IH. clear -Y. induction (flat_map ids ats) as [|b r IH]; [exact Y|]. cbn [app] in Y. apply NoDup_cons_iff in Y. apply IH. exact (proj2 Y).
Qed.
Lemma declared_nodup us fs : Forall2 declared_at us fs -> NoDup (map rid us) -> NoDup (map f_name fs).
Proof.
  intros F. induction F as [|u f us fs Df F IH]; intros N; [constructor|]. cbn in N. inversion N as [|? ? Nx Nl]; subst. cbn [map]. constructor; [|exact (IH Nl)].
  intros J. apply Nx. apply in_map_iff in J. destruct J as (g & E & J). destruct (paired_r _ _ _ _ F J) as (v & Iv & Dg). apply (same_feature cs d h m t R AD) in E; [|exact (proj1 Dg)|exact (proj1 Df)]. subst g.
  rewrite (declared_rid u v f Df Dg). apply in_map. exact Iv.
Qed.
Lemma declared_lname u f : declared_at u f -> lname u = lower (f_name f).
Proof. intros (_ & _ & g & D & _ & N & _). destruct u as [n e ts]. cbn in D. subst e. cbn. rewrite N. reflexivity. Qed.
Lemma declared_sorted us fs : Forall2 declared_at us fs -> StronglySorted name_le us -> StronglySorted comes fs.
Proof.
  intros F. induction F as [|u f us fs Df F IH]; intros S; [constructor|]. apply StronglySorted_inv in S. destruct S as (S & A). constructor; [exact (IH S)|].
  rewrite Forall_forall in *. intros g J. destruct (paired_r _ _ _ _ F J) as (v & Iv & Dg). specialize (A v Iv). unfold name_le in A. unfold comes. rewrite <- (declared_lname u f Df), <- (declared_lname v g Dg). exact A.
Qed.
Lemma all_declared us : (forall u, In u us -> exists f, declared_at u f) -> exists fs, Forall2 declared_at us fs.
Proof.
  induction us as [|u us IH]; intros A; [exists []; constructor|]. destruct (A u (or_introl eq_refl)) as (f & Df). destruct IH as (fs & F); [intros v J; apply A; right; exact J|]. exists (f :: fs). constructor; assumption.
Qed.
Lemma listing_of u l : preorder u l -> forall g, subtree u t -> rdata u = NFeature g -> listing cs d (f_name g) (map name_of l).
Proof.
  intros P. induction P as [n e ts us l Pm So Ps IH| |u us l k P1 IH1 P2 IH2] using preorder_mut with
    (P0 := fun us l _ => forall fs, Forall2 declared_at us fs -> listings cs d fs (map name_of l)).
  - intros g U E. cbn [rdata] in E. subst e. cbn [map]. pose proof (sub_stored _ g U eq_refl) as Sg. cbn [rid] in Sg. rewrite (name_of_stored n g Sg).
    destruct (all_declared us) as (fs & F). { intros v J. apply (Permutation_in _ Pm) in J. destruct (near_declared n g ts v U J) as (f & Df & _). eauto. }
    apply listing_at with (fs := fs).
    + apply (declared_nodup us fs F). eapply Permutation_NoDup; [apply Permutation_map; symmetry; exact Pm|]. apply near_rids. pose proof (subtree_nodup _ _ U (rep_ids _ _ _ R)) as D. cbn [ids] in D. inversion D; assumption.
    + intros f. split.
      * intros J. destruct (paired_r _ _ _ _ F J) as (v & Iv & Df). apply (Permutation_in _ Pm) in Iv. destruct (near_declared n g ts v U Iv) as (f' & Df' & B). assert (f' = f) as <-; [|exact B].
        apply (same_feature cs d h m t R AD); [exact (proj1 Df')|exact (proj1 Df)|]. destruct Df as (_ & _ & g1 & D1 & _ & N1 & _), Df' as (_ & _ & g2 & D2 & _ & N2 & _). congruence.
      * intros B. destruct (near_found n g ts f U B) as (v & Iv & Df). apply (Permutation_in _ (Permutation_sym Pm)) in Iv. destruct (paired_l _ _ _ _ F Iv) as (f' & If' & Df'). assert (f' = f) as <-; [|exact If'].
        apply (same_feature cs d h m t R AD); [exact (proj1 Df')|exact (proj1 Df)|]. destruct Df as (_ & _ & g1 & D1 & _ & N1 & _), Df' as (_ & _ & g2 & D2 & _ & N2 & _). congruence.
    + exact (declared_sorted us fs F So).
    + exact (IH fs F).
  - intros fs F. inversion F. constructor.
  - intros fs F. inversion F as [|? f ? fs' Df F']; subst. rewrite map_app. constructor; [|exact (IH2 fs' F')]. destruct Df as (_ & U & g & D & _ & N & _). rewrite <- N. exact (IH1 g U D).
Qed.
Lemma listing_top l : preorder t l -> listing cs d (fst d) (map name_of l).
Proof.
  intros P. destruct (rep_top_data R) as (f & Df & _). destruct (ad_root _ _ _ _ AD) as (r & f' & Er & _ & Fr & S). rewrite (rep_root _ _ _ R) in Er. injection Er as <-.
  pose proof (sub_stored t f (sub_refl t) Df) as (_ & Ft). rewrite Ft in Fr. injection Fr as <-. pose proof (listing_of t l P f (sub_refl t) Df) as L. destruct S as (_ & N & _). cbn in N. rewrite N in L. exact L.
Qed.
End Names.
