(** Entries and drawings of described models. *)
From Coq Require Import List ZArith NArith Arith Bool Ascii String Permutation Lia.
From Verif Require Import Text TextProofs ConstraintModel ConstraintSpec ConstraintHeapSpec SourceRangeModel FeatureTreeModel FeatureTreeSpec FeatureTreeProofs FeatureOrderProofs FeatureTransactionModel FeatureTransactionSpec FeatureEditSpec FeatureEditProofs
  FeatureGroupProofs FeatureHistoryProofs FeatureBuildSpec FeatureCloneSpec FeatureCloneProofs SxfmModel XmlModel XmlSpec XmlReadProofs XmlFinal XmlTripWrite SolverSpec SolverLoadProofs ValidProofs DescribedSpec DescribedProofs DescribedFinal GeneratorProofs XmlTextSpec
  RegisterSpec RegisterProofs RegisterFinal RegisterDrawProofs GraphvizModel GraphvizSpec DumpSpec DumpFinal ViewerSpec ViewerProofs.
Import ListNotations.
Local Open Scope list_scope.

Lemma paired_choice {A B C} (P : A -> B -> Prop) (Q : C -> A -> Prop) (S : C -> B -> Prop) xs ys :
  Forall2 P xs ys -> (forall x y, In x xs -> P x y -> exists z, Q z x /\ S z y) -> exists zs, Forall2 Q zs xs /\ Forall2 S zs ys.
Proof.
  induction 1 as [|x y xs ys H F IH]; intros K; [exists []; split; constructor|]. destruct (K x y (or_introl eq_refl) H) as (z & Qz & Sz). destruct IH as (zs & A0 & B0); [intros a b I; apply K; right; exact I|].
  exists (z :: zs). split; constructor; assumption.
Qed.
Lemma paired_nodup {A C} (g : A -> nat) (Q : C -> A -> Prop) xs zs : (forall z x y, Q z x -> Q z y -> g x = g y) -> Forall2 Q zs xs -> NoDup (map g xs) -> NoDup zs.
Proof.
  intros K F. induction F as [|z x zs xs H F IH]; intros N; [constructor|]. cbn [map] in N. inversion N as [|? ? Nx Nl]; subst. constructor; [|exact (IH Nl)].
  intros I. destruct (paired_l _ _ _ _ F I) as (y & Iy & Qy). apply Nx. rewrite (K z x y H Qy). apply in_map. exact Iy.
Qed.

Section Shown.
Variables (cs cs0 : list bcall) (d : decl) (h : heap) (m : fmodel) (t : tree).
Hypothesis R : represents h m t.
Hypothesis AD : as_described cs d h m.
Hypothesis DE : describes cs d.
Hypothesis Ed : forall s, last_edge cs s (fst d) = last_edge cs0 s (fst d).
Hypothesis Co : constraints_of cs = constraints_of cs0.
Hypothesis Gr : forall s k, requested cs s k <-> found cs0 d s k.

Lemma below_same s f : below cs d s f <-> below cs0 d s f.
Proof. unfold below. rewrite Ed. reflexivity. Qed.
Lemma ungrouped_same s : (forall k, ~ requested cs s k) <-> ~ alternatives cs0 d s.
Proof. split; [intros N A; apply (N RAlternative), Gr; split; [reflexivity|exact A]|]. intros N k Q. apply Gr in Q. exact (N (proj2 Q)). Qed.
Lemma grouped_same s : requested cs s RAlternative <-> alternatives cs0 d s.
Proof. rewrite Gr. unfold found. intuition. Qed.

(** ** Entries *)
Lemma kid_names u g : subtree u t -> rdata u = NFeature g ->
  NoDup (flat_map (fun k => match rdata k with NFeature g => [f_name g] | NRelationship _ => [] end) (kids u)).
Proof.
  intros U D. assert (S : forall k, In k (kids u) -> subtree k t) by (intros k I; destruct u as [n du ts]; exact (subtree_trans _ _ _ (subtree_kid n du ts k I) U)).
  assert (N : NoDup (map rid (kids u))). { pose proof (subtree_nodup _ _ U (rep_ids _ _ _ R)) as X. destruct u as [n du ts]. cbn [ids kids] in *. inversion X as [|? ? _ X2]; subst. exact (rids_nodup ts X2). }
  clear U D. induction (kids u) as [|a l IH]; [constructor|]. cbn [flat_map]. cbn [map] in N. inversion N as [|? ? Na Nl]; subst. specialize (IH (fun k I => S k (or_intror I)) Nl).
  destruct (rdata a) as [ga|] eqn:Da; [|exact IH]. cbn [app]. constructor; [|exact IH]. intros I. apply in_flat_map in I. destruct I as (b & Ib & I). destruct (rdata b) as [gb|] eqn:Db; [|contradiction]. destruct I as [E|[]].
  apply Na. pose proof (stored_get h m t R _ _ (sub_stored h m t R a ga (S a (or_introl eq_refl)) Da)) as G. pose proof (stored_get h m t R _ _ (sub_stored h m t R b gb (S b (or_intror Ib)) Db)) as G'. rewrite E, G in G'. injection G' as ->. apply in_map. exact Ib.
Qed.
Lemma entry_tells u e : subtree u t -> is_feature (rdata u) = true -> states t u e -> exists f, placed d t u f /\ tells cs0 d f e.
Proof.
  intros U F [(g & D & En & Eo & El & Ev) Sr Sp Sc]. destruct (node_placed cs d h m t R AD u g U D) as (f & P & S). exists f. split; [exact P|]. destruct S as (Sk & Sn & Sout & Sl & So).
  constructor.
  - congruence.
  - congruence.
  - congruence.
  - rewrite Ev, Sk. reflexivity.
  - intros E. apply Sr. rewrite (placed_top cs d h m t R AD u f P E). reflexivity.
  - intros If. pose proof (parent_taken cs d h m t R AD f If) as Tk. destruct (proj1 (declared_in cs d h m t R AD _) Tk) as (p & Gp). destruct (get_stored h m t R _ p Gp) as (gp & Sgp & Np). apply (stored_sub h m t R) in Sgp. destruct Sgp as (v & V & _ & Dv).
    assert (Bl : below cs d (f_name gp) f) by (split; [exact If|symmetry; exact Np]). destruct v as [n dv ts]. cbn [rdata] in Dv. subst dv. destruct (near_found cs d h m t R AD DE n gp ts f V Bl) as (w & Iw & Dw).
    assert (w = u) as -> by (apply (subtree_unique t); [apply (rep_ids _ _ _ R)|exact (proj1 (proj2 Dw))|exact U|exact (placed_rid d h m t R _ _ _ (declared_placed d t w f Dw) P)]).
    assert (rid u <> rid t) as Nu. { intros E. assert (u = t) as -> by (apply (subtree_unique t); [apply (rep_ids _ _ _ R)|exact U|constructor|exact E]). pose proof (root_placed cs d h m t R AD) as (_ & _ & g' & D' & S'). rewrite D in D'. injection D' as <-.
      apply (root_apart cs d h m t R AD f If). rewrite <- Sn. exact (proj1 (proj2 S')). }
    apply (proj2 (Sp _ Nu)). exists (Node n (NFeature gp) ts), gp. split; [exact V|]. split; [reflexivity|]. split; [exact Iw|]. unfold parent_of in *. rewrite <- Ed. symmetry. exact Np.
  - intros s. rewrite Sc, in_flat_map. split.
    + intros (k & Ik & I). destruct (rdata k) as [gk|] eqn:Dk; [|contradiction]. destruct I as [<-|[]]. destruct (feature_kid cs d h m t R AD DE u g k gk U D Ik Dk) as (f' & P' & B & N). rewrite Sn in B, N.
      split; [|apply ungrouped_same; exact N]. exists f'. split; [apply below_same; exact B|]. destruct P' as (_ & _ & gk' & Dk' & S'). rewrite Dk in Dk'. injection Dk' as <-. symmetry. exact (proj1 (proj2 S')).
    + intros ((f' & B & <-) & N). apply below_same in B. pose proof (proj2 (ungrouped_same _) N) as N'. clear N. rename N' into N. rewrite <- Sn in B, N. destruct (found_kid cs d h m t R AD DE u g f' U D B N) as (k & Ik & _ & _ & gk & Dk & S'). exists k. split; [exact Ik|]. rewrite Dk. left. exact (proj1 (proj2 S')).
  - rewrite Sc. exact (kid_names u g U D).
Qed.
Theorem entries_tell es : lists t es -> tells_all cs0 d es.
Proof.
  intros (us & N & M & F). destruct (paired_choice _ (fun f u => placed d t u f) (tells cs0 d) us es F) as (fs & A & B).
  { intros u e I S. destruct (proj1 (M u) I) as (U & Fe). exact (entry_tells u e U Fe S). }
  exists fs. split; [|exact B]. apply NoDup_Permutation.
  - refine (paired_nodup rid _ us fs _ A N). intros f u v. apply (placed_rid d h m t R).
  - apply (NoDup_map_inv f_name). exact (names_distinct cs d h m t R AD).
  - intros f. split.
    + intros I. destruct (paired_l _ _ _ _ A I) as (u & _ & P). exact (proj1 P).
    + intros I. destruct (feature_placed cs d h m t R AD f I) as (u & P). assert (Iu : In u us). { apply M. split; [exact (proj1 (proj2 P))|]. destruct P as (_ & _ & g & D & _). rewrite D. reflexivity. }
      destruct (paired_r _ _ _ _ A Iu) as (f' & If & P'). assert (f' = f) as <-; [|exact If]. apply (described_names cs d h m t R AD); [exact (proj1 P')|exact I|]. destruct P as (_ & _ & g & D & S). destruct P' as (_ & _ & g' & D' & S').
      rewrite D in D'. injection D' as <-. destruct S as (_ & E & _). destruct S' as (_ & E' & _). congruence.
Qed.
End Shown.
