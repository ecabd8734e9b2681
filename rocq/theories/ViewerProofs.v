(** The viewer shows what the document describes. *)
From Coq Require Import List ZArith NArith Arith Bool Ascii String Permutation Lia.
From Verif Require Import Text TextProofs ConstraintModel ConstraintSpec ConstraintHeapSpec SourceRangeModel FeatureTreeModel FeatureTreeSpec FeatureTreeProofs FeatureOrderProofs FeatureTransactionModel FeatureTransactionSpec FeatureEditSpec FeatureEditProofs
  FeatureGroupProofs FeatureHistoryProofs FeatureBuildSpec FeatureCloneSpec FeatureCloneProofs SxfmModel XmlModel XmlSpec XmlReadProofs XmlFinal XmlTripWrite SolverSpec SolverLoadProofs ValidProofs DescribedSpec DescribedProofs DescribedFinal GeneratorProofs XmlTextSpec
  RegisterSpec RegisterProofs RegisterFinal RegisterDrawProofs GraphvizModel GraphvizSpec DumpSpec DumpFinal ViewerSpec.
Import ListNotations.
Local Open Scope list_scope.

Section Tree.
Variables (cs : list bcall) (d : decl) (h : heap) (m : fmodel) (t : tree).
Hypothesis R : represents h m t.
Hypothesis AD : as_described cs d h m.
Hypothesis DE : describes cs d.

(** The described feature at a node. *)
Definition placed (u : tree) (f : feature) : Prop := In f (described d) /\ subtree u t /\ exists g, rdata u = NFeature g /\ same_data f g.
Lemma declared_placed u f : declared_at d t u f -> placed u f.
Proof. intros (I & U & g & D & S). split; [right; exact I|]. split; [exact U|]. exists g. auto. Qed.
Lemma placed_rid u v f : placed u f -> placed v f -> rid u = rid v.
Proof.
  intros (_ & U & g & D & S) (_ & V & g' & D' & S'). pose proof (stored_get h m t R _ _ (sub_stored h m t R u g U D)) as G. pose proof (stored_get h m t R _ _ (sub_stored h m t R v g' V D')) as G'.
  destruct S as (_ & N & _). destruct S' as (_ & N' & _). rewrite N in G. rewrite N' in G'. congruence.
Qed.
Lemma described_names f g : In f (described d) -> In g (described d) -> f_name f = f_name g -> f = g.
Proof.
  intros [<-|I] [<-|J] E; [reflexivity|exfalso; exact (root_apart cs d h m t R AD g J (eq_sym E))|exfalso; exact (root_apart cs d h m t R AD f I E)|exact (same_feature cs d h m t R AD f g I J E)].
Qed.
Lemma root_placed : placed t (root_feature (fst d)).
Proof.
  split; [left; reflexivity|]. split; [constructor|]. destruct (ad_root _ _ _ _ AD) as (r & f & Er & Gr & Fr & S). rewrite (rep_root _ _ _ R) in Er. injection Er as <-. exists f. split; [|exact S].
  unfold feature_at in Fr. rewrite (rep_top R) in Fr. cbn in Fr. destruct (rdata t); [injection Fr as ->; reflexivity|discriminate].
Qed.
Lemma feature_placed f : In f (described d) -> exists u, placed u f.
Proof.
  intros [<-|I]; [exists t; exact root_placed|]. destruct (made cs d h m t R AD f I) as (i & g & Sg & S). apply (stored_sub h m t R) in Sg. destruct Sg as (u & U & _ & D). exists u. split; [right; exact I|]. split; [exact U|]. exists g. auto.
Qed.
Lemma node_placed u g : subtree u t -> rdata u = NFeature g -> exists f, placed u f /\ same_data f g.
Proof.
  intros U D. destruct (from cs d h m t R AD _ _ (sub_stored h m t R u g U D)) as [(Er & _)|(f & I & S)].
  - rewrite (rep_root _ _ _ R) in Er. injection Er as Er. assert (u = t) as -> by (apply (subtree_unique t); [apply (rep_ids _ _ _ R)|exact U|constructor|congruence]).
    destruct root_placed as (A & B & g' & D' & S'). rewrite D in D'. injection D' as <-. exists (root_feature (fst d)). split; [|exact S']. split; [exact A|]. split; [exact B|]. exists g. auto.
  - exists f. split; [|exact S]. split; [right; exact I|]. split; [exact U|]. exists g. auto.
Qed.
Lemma placed_top u f : placed u f -> f_name f = fst d -> u = t.
Proof.
  intros P E. assert (f = root_feature (fst d)) as -> by (apply described_names; [exact (proj1 P)|left; reflexivity|exact E]). apply (subtree_unique t); [apply (rep_ids _ _ _ R)|exact (proj1 (proj2 P))|constructor|]. exact (placed_rid _ _ _ P root_placed).
Qed.

(** What is directly below a feature. *)
Lemma feature_kid u g k gk : subtree u t -> rdata u = NFeature g -> In k (kids u) -> rdata k = NFeature gk ->
  exists f, placed k f /\ below cs d (f_name g) f /\ forall kd, ~ requested cs (f_name g) kd.
Proof.
  intros U D I Dk. pose proof (near_kid k (kids u) I) as Nk. rewrite Dk in Nk. specialize (Nk eq_refl). destruct u as [n du ts]. cbn [rdata kids] in *. subst du.
  destruct (near_declared cs d h m t R AD DE n g ts k U Nk) as (f & Df & B). exists f. split; [exact (declared_placed k f Df)|]. split; [exact B|]. intros kd Rq.
  destruct Df as (If & Kt & gk' & Dk' & S). rewrite Dk in Dk'. injection Dk' as <-. pose proof (sub_stored h m t R k gk Kt Dk) as Sk.
  assert (Hg : hangs h (rid k) n None) by (eexists; split; [exact (rep_kid R _ k U I)|reflexivity]). pose proof (sub_stored h m t R _ g U eq_refl) as Su. cbn [rid] in Su.
  destruct (hanging cs d h m t R AD DE f (rid k) gk n g None If Sk S Hg (proj2 Su)) as (_ & N & E). rewrite <- N in E. apply (request_found cs d DE) in Rq. congruence.
Qed.
Lemma group_kid u g q k : subtree u t -> rdata u = NFeature g -> In q (kids u) -> rdata q = NRelationship k -> requested cs (f_name g) k.
Proof.
  intros U D I Dq. apply (group_requested cs d h m t R AD (rid u) g k (sub_stored h m t R u g U D)). exists (rid q). eexists. split; [|split; [exact (rep_kid R u q U I)|split; [exact Dq|reflexivity]]].
  eapply Permutation_in; [apply Permutation_sym; exact (rep_groups _ _ _ R)|]. apply groups_subtree. exists q, k. split; [|auto]. destruct u as [n du ts]. cbn [kids] in I. exact (subtree_trans _ _ _ (subtree_kid n du ts q I) U).
Qed.
Lemma requested_kid u g k : subtree u t -> rdata u = NFeature g -> requested cs (f_name g) k -> exists q, In q (kids u) /\ rdata q = NRelationship k.
Proof.
  intros U D Rq. apply (group_requested cs d h m t R AD (rid u) g k (sub_stored h m t R u g U D)) in Rq. destruct Rq as (i & c & Ii & C & Dc & Pc).
  apply (Permutation_in _ (rep_groups _ _ _ R)) in Ii. apply groups_subtree in Ii. destruct Ii as (q & k' & Q & <- & Dq). destruct (rep_cell R q Q) as (o & Cq). rewrite C in Cq. injection Cq as ->. cbn in Dc, Pc.
  destruct (parent_subtree h m t R q (rid u) _ Q C Pc) as (v & V & Ev & Iq). assert (v = u) as -> by (apply (subtree_unique t); [apply (rep_ids _ _ _ R)|exact V|exact U|exact Ev]). exists q. split; [exact Iq|congruence].
Qed.
Lemma one_group u g q q' k k' : subtree u t -> rdata u = NFeature g -> In q (kids u) -> rdata q = NRelationship k -> In q' (kids u) -> rdata q' = NRelationship k' -> q = q'.
Proof.
  intros U D I Dq I' Dq'. pose proof (grouped_sub u t U (rep_shape _ _ _ R)) as G. inversion G as [n f ts L F E|n kk ts L F E]; subst; [|discriminate]. cbn [kids] in *.
  assert (A : In q (own_groups ts)) by (apply filter_In; split; [exact I|rewrite Dq; reflexivity]). assert (B : In q' (own_groups ts)) by (apply filter_In; split; [exact I'|rewrite Dq'; reflexivity]).
  destruct (own_groups ts) as [|a [|b r]]; [contradiction| |cbn in L; lia]. destruct A as [<-|[]]. destruct B as [<-|[]]. reflexivity.
Qed.
Lemma group_members u g q k v : subtree u t -> rdata u = NFeature g -> In q (kids u) -> rdata q = NRelationship k ->
  (In v (kids q) <-> In v (near (kids u))).
Proof.
  intros U D I Dq. pose proof (grouped_sub u t U (rep_shape _ _ _ R)) as G. inversion G as [n f ts L F E|n kk ts L F E]; subst; [|discriminate]. cbn [kids rdata] in *.
  assert (Nq : near (kids q) = kids q). { rewrite Forall_forall in F. specialize (F q I). inversion F as [n' f' ts' L' F' E'|n' k' ts' L' F' E']; subst; [discriminate|]. cbn [kids]. apply near_features. exact L'. }
  assert (Tq : tops is_feature q = kids q). { rewrite <- Nq. clear Nq. destruct q as [nq dq tq]. cbn [rdata kids] in *. subst dq. reflexivity. }
  split.
  - intros Iv. apply in_flat_map. exists q. split; [exact I|]. rewrite Tq. exact Iv.
  - intros Iv. apply in_flat_map in Iv. destruct Iv as (k0 & Ik & Iv). destruct (rdata k0) as [g0|kd] eqn:D0.
    + exfalso. destruct (feature_kid _ f k0 g0 U eq_refl Ik D0) as (_ & _ & _ & Nr). exact (Nr k (group_kid _ f q k U eq_refl I Dq)).
    + assert (q = k0) as <- by (exact (one_group _ f q k0 k kd U eq_refl I Dq Ik D0)). rewrite Tq in Iv. exact Iv.
Qed.
Lemma found_kid u g f : subtree u t -> rdata u = NFeature g -> below cs d (f_name g) f -> (forall k, ~ requested cs (f_name g) k) -> exists v, In v (kids u) /\ placed v f.
Proof.
  intros U D B N. destruct u as [n du ts]. cbn [rdata kids] in *. subst du. destruct (near_found cs d h m t R AD DE n g ts f U B) as (v & Iv & Dv). exists v. split; [|exact (declared_placed v f Dv)].
  apply in_flat_map in Iv. destruct Iv as (k0 & Ik & Iv). destruct k0 as [n0 [g0|kd] t0]; cbn [tops is_feature] in Iv; [destruct Iv as [<-|[]]; exact Ik|]. exfalso. exact (N kd (group_kid (Node n (NFeature g) ts) g _ kd U eq_refl Ik eq_refl)).
Qed.
Lemma found_member u g f q k : subtree u t -> rdata u = NFeature g -> below cs d (f_name g) f -> In q (kids u) -> rdata q = NRelationship k -> exists v, In v (kids q) /\ placed v f.
Proof.
  intros U D B I Dq. destruct u as [n du ts] eqn:Eu. cbn [rdata kids] in *. subst du. destruct (near_found cs d h m t R AD DE n g ts f U B) as (v & Iv & Dv). exists v. split; [|exact (declared_placed v f Dv)].
  apply (group_members (Node n (NFeature g) ts) g q k v U eq_refl I Dq). exact Iv.
Qed.
Lemma member_kid u g q k v : subtree u t -> rdata u = NFeature g -> In q (kids u) -> rdata q = NRelationship k -> In v (kids q) -> exists f, placed v f /\ below cs d (f_name g) f.
Proof.
  intros U D I Dq Iv. apply (group_members u g q k v U D I Dq) in Iv. destruct u as [n du ts]. cbn [rdata kids] in *. subst du. destruct (near_declared cs d h m t R AD DE n g ts v U Iv) as (f & Df & B). exists f. split; [exact (declared_placed v f Df)|exact B].
Qed.
End Tree.
