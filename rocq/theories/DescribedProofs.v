(** A model that is as described has the described valid configurations. *)
From Coq Require Import List ZArith Arith Bool Ascii String Permutation Lia.
From Verif Require Import Text TextProofs ConstraintModel ConstraintSpec FeatureTreeModel FeatureTreeSpec FeatureTreeProofs FeatureTransactionModel FeatureTransactionSpec FeatureEditSpec FeatureEditProofs
  FeatureHistoryProofs FeatureBuildSpec FeatureCloneSpec FeatureCloneProofs SxfmModel XmlModel XmlSpec XmlTripSpec ConfigurationModel SolverModel SolverSpec SolverLoadProofs ValidSpec ValidProofs DescribedSpec.
Import ListNotations.

Lemma paired_l {A B} (P : A -> B -> Prop) l l' x : Forall2 P l l' -> In x l -> exists y, In y l' /\ P x y.
Proof. intros F. induction F as [|a b l l' X F IH]; intros I; [destruct I|]. destruct I as [<-|I]; [exists b; split; [left; reflexivity|exact X]|]. destruct (IH I) as (y & J & Y). exists y. split; [right; exact J|exact Y]. Qed.
Lemma paired_r {A B} (P : A -> B -> Prop) l l' y : Forall2 P l l' -> In y l' -> exists x, In x l /\ P x y.
Proof. intros F. induction F as [|a b l l' X F IH]; intros I; [destruct I|]. destruct I as [<-|I]; [exists a; split; [left; reflexivity|exact X]|]. destruct (IH I) as (x & J & Y). exists x. split; [right; exact J|exact Y]. Qed.

Section Described.
Variables (cs : list bcall) (d : decl) (h : heap) (m : fmodel) (t : tree).
Hypothesis R : represents h m t.
Hypothesis AD : as_described cs d h m.
Hypothesis DE : describes cs d.

Lemma names_distinct : NoDup (fst d :: map f_name (snd d)).
Proof. eapply Permutation_NoDup; [exact (ad_names _ _ _ _ AD)|]. exact (ts_names _ _ (represents_tree_shaped _ _ _ R)). Qed.
Lemma same_feature f g : In f (snd d) -> In g (snd d) -> f_name f = f_name g -> f = g.
Proof.
  pose proof names_distinct as N. inversion N as [|x l _ N2]; subst. clear N. induction (snd d) as [|x l IH]; cbn; [intros []|]. cbn in N2. inversion N2 as [|? ? Nx Nl]; subst.
  intros [<-|I] [<-|J] E; [reflexivity| | |exact (IH Nl I J E)]; exfalso; apply Nx; [rewrite E|rewrite <- E]; apply in_map; assumption.
Qed.
Lemma root_apart f : In f (snd d) -> f_name f <> fst d.
Proof. intros I E. pose proof names_distinct as N. inversion N as [|x l Nx _]; subst. apply Nx. rewrite <- E. apply in_map. exact I. Qed.
Lemma declared_in s : taken d s <-> exists i, get_feature m s = Some i.
Proof.
  split.
  - intros [->|I]; [destruct (ad_root _ _ _ _ AD) as (r & f & _ & G & _); eauto|]. apply in_map_iff in I. destruct I as (f & <- & I). destruct (ad_data _ _ _ _ AD f I) as (i & g & G & _). eauto.
  - intros (i & G). unfold get_feature in G. apply (find_name_in _ _ _ (ts_names _ _ (represents_tree_shaped _ _ _ R))) in G. apply (in_map fst) in G. cbn in G.
    apply (Permutation_in _ (ad_names _ _ _ _ AD)) in G. destruct G as [<-|G]; [left; reflexivity|right; exact G].
Qed.
(** Features of the model and of the description. *)
Lemma made f : In f (snd d) -> exists i g, stored h m i g /\ same_data f g.
Proof.
  intros I. destruct (ad_data _ _ _ _ AD f I) as (i & g & G & F & S). exists i, g. split; [|exact S]. apply (stored_is h m t R). split; [|exact F]. rewrite (proj1 (proj2 S)). exact G.
Qed.
Lemma from i g : stored h m i g -> (m_root m = Some i /\ f_kind g = FRoot /\ f_name g = fst d) \/ exists f, In f (snd d) /\ same_data f g.
Proof.
  intros Sg. apply (stored_is h m t R) in Sg. destruct Sg as (G & F). destruct (proj2 (declared_in (f_name g)) (ex_intro _ i G)) as [E|I].
  - left. destruct (ad_root _ _ _ _ AD) as (r & f & Er & Gr & Fr & S). rewrite <- E in Gr. assert (r = i) as -> by congruence. assert (f = g) as -> by congruence. destruct S as (K & _). auto.
  - right. apply in_map_iff in I. destruct I as (f & N & I). exists f. split; [exact I|]. destruct (ad_data _ _ _ _ AD f I) as (i2 & g2 & G2 & F2 & S). rewrite N in G2. assert (i2 = i) as -> by congruence. assert (g2 = g) as -> by congruence. exact S.
Qed.
Lemma not_root f : In f (snd d) -> f_kind f <> FRoot.
Proof.
  intros I K. assert (X : In f [] \/ In (BFeature f) cs) by (generalize (de_declares _ _ DE); intros D; clear - D I; change ([] : list feature) with (snd (default_root, [] : list feature)); induction D; cbn in *; auto;
    [destruct (IHD I) as [J|J]; [apply in_app_or in J; destruct J as [J|[<-|[]]]; auto|auto]|destruct (IHD I); auto|destruct (IHD I); auto|destruct (IHD I); auto]).
  destruct X as [[]|X]. exact (de_ordinary _ _ DE _ X K).
Qed.
Lemma numeric_stored i g : stored h m i g -> (numeric_kind (f_kind g) = true <-> numeric_name d (f_name g)).
Proof.
  intros Sg. split.
  - intros K. destruct (from i g Sg) as [(_ & Kr & _)|(f & I & S)]; [rewrite Kr in K; discriminate|]. destruct S as (K1 & N1 & _). exists f. rewrite <- K1, N1. auto.
  - intros (f & I & N & K). destruct (from i g Sg) as [(_ & _ & Nr)|(f2 & I2 & K2 & N2 & _)].
    + exfalso. apply (root_apart f I). congruence.
    + assert (f2 = f) as -> by (apply same_feature; congruence). congruence.
Qed.
(** The parent of a feature. *)
Lemma parent_taken f : In f (snd d) -> taken d (parent_of cs d (f_name f)).
Proof. intros I. destruct (ad_parents _ _ _ _ AD f I) as (i & p & _ & Gp & _). apply declared_in. exists p. exact Gp. Qed.
Lemma hanging f i g p gp r : In f (snd d) -> stored h m i g -> same_data f g -> hangs h i p r -> feature_at h p = Some gp ->
  stored h m p gp /\ f_name gp = parent_of cs d (f_name f) /\ r = request_for (requests cs) (parent_of cs d (f_name f)).
Proof.
  intros I Sg S H F. destruct (ad_parents _ _ _ _ AD f I) as (i2 & p2 & G2 & Gp2 & H2). fold (parent_of cs d (f_name f)) in Gp2, H2.
  pose proof (stored_get h m t R i g Sg) as G. rewrite (proj1 (proj2 S)) in G. assert (i2 = i) as -> by congruence.
  destruct (get_stored h m t R _ _ Gp2) as (g2 & Sp2 & N2). destruct (hangs_below h m t R i g Sg) as (p0 & g0 & r0 & _ & _ & _ & U); [rewrite (proj1 S); exact (not_root f I)|].
  destruct (U p gp r H F) as (-> & -> & ->). destruct (U p2 g2 _ H2 (proj2 Sp2)) as (-> & -> & <-). auto.
Qed.
Lemma hangs_there f i g : In f (snd d) -> stored h m i g -> same_data f g -> exists p gp, stored h m p gp /\ f_name gp = parent_of cs d (f_name f) /\
  hangs h i p (request_for (requests cs) (parent_of cs d (f_name f))).
Proof.
  intros I Sg S. destruct (ad_parents _ _ _ _ AD f I) as (i2 & p & G2 & Gp & H). pose proof (stored_get h m t R i g Sg) as G. rewrite (proj1 (proj2 S)) in G. assert (i2 = i) as -> by congruence.
  destruct (get_stored h m t R _ _ Gp) as (gp & Sp & N). exists p, gp. auto.
Qed.
(** Groups. *)
Lemma group_requested p gp k : stored h m p gp -> (group_of h m p k <-> requested cs (f_name gp) k).
Proof.
  intros Sp. pose proof (stored_get h m t R p gp Sp) as G. pose proof (ad_groups _ _ _ _ AD) as F. unfold requested. split.
  - intros (q & c & Q & C & D & P). clear - F Q C D P G Sp R. induction F as [|x [s k'] l l' X F IH]; [destruct Q|]. destruct Q as [<-|Q]; [|right; exact (IH Q)].
    destruct X as (c2 & C2 & D2 & P2). rewrite C in C2. injection C2 as <-. cbn in D2, P2. rewrite D in D2. injection D2 as <-. rewrite P in P2. symmetry in P2. left. f_equal. rewrite <- (get_name h m t R s p gp P2 (proj2 Sp)). reflexivity.
  - intros I. unfold group_of. clear - F I G. induction F as [|x [s k'] l l' X F IH]; [destruct I|]. destruct I as [E|I].
    + injection E as -> ->. destruct X as (c & C & D & P). cbn in D, P. exists x, c. split; [left; reflexivity|]. repeat split; auto. congruence.
    + destruct (IH I) as (q & c & Q & X2). exists q, c. split; [right; exact Q|exact X2].
Qed.
Lemma request_found s k : request_for (requests cs) s = Some k <-> requested cs s k.
Proof.
  split; [apply request_for_in|]. intros I. destruct (request_for (requests cs) s) as [k'|] eqn:E; [|exfalso; exact (request_for_none _ _ k E I)]. apply request_for_in in E.
  f_equal. pose proof (de_groups _ _ DE) as N. unfold requested in I. clear - N I E. induction (requests cs) as [|[s0 k0] l IH]; [destruct I|]. cbn in N. inversion N as [|? ? Nx Nl]; subst.
  destruct I as [I|I], E as [E|E]; [congruence| | |exact (IH I E Nl)]; exfalso; apply Nx; [injection I as -> ->; exact (in_map fst _ _ E)|injection E as -> ->; exact (in_map fst _ _ I)].
Qed.
Lemma neat_described : neat h m.
Proof.
  split.
  - intros p q q' c c' Q Q' C C' P P'. pose proof (ad_groups _ _ _ _ AD) as F. pose proof (de_groups _ _ DE) as N.
    assert (K : forall x y, Forall2 (fun q r => exists c, h_cells h q = Some c /\ n_data c = NRelationship (snd r) /\ n_parent c = get_feature m (fst r)) x y -> forall q c, In q x -> h_cells h q = Some c -> n_parent c = Some p -> exists s k, In (s, k) y /\ get_feature m s = Some p).
    { intros x y F0. induction F0 as [|a [s k] l l' X F0 IH]; intros q0 c0 Q0 C0 P0; [destruct Q0|]. destruct Q0 as [<-|Q0].
      - destruct X as (c2 & C2 & _ & P2). rewrite C0 in C2. injection C2 as <-. exists s, k. split; [left; reflexivity|]. cbn in P2. congruence.
      - destruct (IH q0 c0 Q0 C0 P0) as (s1 & k1 & I1 & G1). exists s1, k1. split; [right; exact I1|exact G1]. }
    revert Q Q' N. induction F as [|x [s k] l l' X F IH]; intros Q Q' N; [destruct Q|]. cbn in N. inversion N as [|? ? Nx Nl]; subst.
    assert (Hd : forall q0 c0, In q0 l -> h_cells h q0 = Some c0 -> n_parent c0 = Some p -> (exists cx, h_cells h x = Some cx /\ n_parent cx = Some p) -> False).
    { intros q0 c0 Q0 C0 P0 (cx & Cx & Px). destruct (K l l' F q0 c0 Q0 C0 P0) as (s1 & k1 & I1 & G1). destruct X as (c2 & C2 & _ & P2). rewrite Cx in C2. injection C2 as <-. cbn in P2. rewrite Px in P2.
      destruct (get_stored h m t R _ _ G1) as (g1 & (_ & F1) & N1). symmetry in P2. pose proof (get_name h m t R _ _ _ P2 F1) as N2. apply Nx. rewrite <- N2, N1. exact (in_map fst _ _ I1). }
    destruct Q as [<-|Q], Q' as [<-|Q']; [reflexivity| | |exact (IH Q Q' Nl)]; exfalso; [exact (Hd q' c' Q' C' P' (ex_intro _ c (conj C P)))|exact (Hd q c Q C P (ex_intro _ c' (conj C' P')))].
  - intros p k s i Gr G H. destruct (group_parent h m t R k p Gr) as (gp & Sp). apply (group_requested p gp k Sp) in Gr. destruct (get_stored h m t R s i G) as (g & Sg & <-).
    destruct (from i g Sg) as [(_ & K & _)|(f & I & S)]; [exact (hangs_root h m t R i g p None Sg K H)|]. destruct (hanging f i g p gp None I Sg S H (proj2 Sp)) as (_ & N & E). rewrite N in Gr. apply request_found in Gr. congruence.
Qed.
Lemma group_described k n ns : group h m k n ns -> requested cs n k /\ forall s, In s ns <-> exists f, below cs d n f /\ f_name f = s.
Proof.
  intros Gr. destruct (members_hang h m t R k n ns neat_described Gr) as (p & Gp & Gk & M). destruct (get_stored h m t R n p Gp) as (gp & Sp & <-). apply (group_requested p gp k Sp) in Gk. split; [exact Gk|].
  intros s. rewrite M. split.
  - intros (i & G & H). destruct (get_stored h m t R s i G) as (g & Sg & <-). destruct (from i g Sg) as [(_ & K & _)|(f & I & S)]; [exfalso; exact (hangs_root h m t R i g p _ Sg K H)|].
    destruct (hanging f i g p gp _ I Sg S H (proj2 Sp)) as (_ & N & _). exists f. split; [split; [exact I|symmetry; exact N]|]. symmetry. exact (proj1 (proj2 S)).
  - intros (f & (I & E) & <-). destruct (made f I) as (i & g & Sg & S). exists i. pose proof (stored_get h m t R i g Sg) as G. rewrite (proj1 (proj2 S)) in G. split; [exact G|].
    destruct (hangs_there f i g I Sg S) as (p2 & g2 & Sp2 & N2 & H). unfold parent_of in N2, H. rewrite E in N2, H. assert (p2 = p) as -> by (apply (stored_names h m t R p2 p g2 gp Sp2 Sp N2)).
    apply request_found in Gk. rewrite Gk in H. exact H.
Qed.
Lemma requested_group s k : requested cs s k -> exists ns, group h m k s ns.
Proof.
  intros Rq. assert (Tk : taken d s). { unfold requested, requests in Rq. apply in_flat_map in Rq. destruct Rq as (c & I & J). destruct c; cbn in J; try contradiction. destruct J as [E|[]]. injection E as -> ->. exact (de_relations _ _ DE _ I). }
  apply declared_in in Tk. destruct Tk as (p & Gp). destruct (get_stored h m t R s p Gp) as (gp & Sp & <-). apply (grouped_by h m t R p k _ Gp). apply (group_requested p gp k Sp). exact Rq.
Qed.

(** Constraints. *)
Lemma leaf_means mixed a s v : taken d s -> (leaf_value h mixed a (pointing m (Own s)) = Some v <-> name_value d mixed a s v).
Proof.
  intros Tk. apply declared_in in Tk. destruct Tk as (i & G). destruct (get_stored h m t R s i G) as (g & Sg & N). cbn [pointing]. rewrite G. cbn [leaf_value]. rewrite (proj2 Sg), N.
  pose proof (numeric_stored i g Sg) as Nm. rewrite N in Nm. destruct (numeric_kind (f_kind g)).
  - split; [intros E; injection E as <-; apply nv_number; tauto|]. intros X. inversion X; subst; tauto.
  - assert (~ numeric_name d s) as Nn by (intros X; apply Nm in X; discriminate). destruct mixed; (split; [intros E; injection E as <-; constructor; auto|intros X; inversion X; subst; first [contradiction|discriminate|reflexivity]]).
Qed.
Lemma value_means mixed a e : mentions_declared d e -> forall v, value_of h mixed a (cmap (pointing m) e) = Some v <-> has_value d mixed a e v.
Proof.
  unfold value_of. induction e as [o l IHl r IHr|o e IH|n|x]; intros Md v; cbn [cmap meaning].
  - assert (Ml : mentions_declared d l) by (intros x I; apply Md; cbn; apply in_or_app; auto). assert (Mr : mentions_declared d r) by (intros x I; apply Md; cbn; apply in_or_app; auto).
    specialize (IHl Ml). specialize (IHr Mr). split.
    + intros E. destruct (meaning xorb (leaf_value h mixed a) (a_div0 a) (cmap (pointing m) l)) as [[x|x]|] eqn:El; [| |discriminate];
        (destruct (meaning xorb (leaf_value h mixed a) (a_div0 a) (cmap (pointing m) r)) as [[y|y]|] eqn:Er; try discriminate).
      * eapply hv_truths; [apply IHl; reflexivity|apply IHr; reflexivity|exact E].
      * eapply hv_numbers; [apply IHl; reflexivity|apply IHr; reflexivity|exact E].
    + intros X. inversion X as [| | | |? ? ? x y ? Hl Hr E|? ? ? x y ? Hl Hr E]; subst; apply IHl in Hl; apply IHr in Hr; rewrite Hl, Hr; exact E.
  - specialize (IH Md). destruct o; split.
    + intros E. destruct (meaning xorb (leaf_value h mixed a) (a_div0 a) (cmap (pointing m) e)) as [[x|x]|] eqn:Ee; try discriminate. injection E as <-. constructor. apply IH. reflexivity.
    + intros X. inversion X; subst. match goal with H : has_value _ _ _ e _ |- _ => apply IH in H; rewrite H end. reflexivity.
    + intros E. destruct (meaning xorb (leaf_value h mixed a) (a_div0 a) (cmap (pointing m) e)) as [[x|x]|] eqn:Ee; try discriminate. injection E as <-. constructor. apply IH. reflexivity.
    + intros X. inversion X; subst. match goal with H : has_value _ _ _ e _ |- _ => apply IH in H; rewrite H end. reflexivity.
  - split; [intros E; injection E as <-; constructor|intros X; inversion X; reflexivity].
  - destruct (Md x (or_introl eq_refl)) as (s & -> & Tk). split; [intros E; constructor; apply leaf_means; assumption|]. intros X. inversion X; subst. apply leaf_means; assumption.
Qed.
Lemma declared_constraint k e : In (k, e) (constraints_of cs) -> mentions_declared d e.
Proof. intros I. unfold constraints_of in I. apply in_flat_map in I. destruct I as (c & I & J). destruct c; cbn in J; try contradiction. destruct J as [E|[]]. injection E as -> ->. exact (de_relations _ _ DE _ I). Qed.
Lemma plain_from c : In c (m_boolean m ++ m_nonboolean m) -> exists k e, In (k, e) (constraints_of cs) /\ (k = KBoolean \/ k = KNonBoolean) /\ c_expr c = cmap (pointing m) e.
Proof.
  intros I. apply in_app_or in I. destruct I as [I|I].
  - destruct (paired_r _ _ _ _ (ad_boolean _ _ _ _ AD) I) as (e & Ie & L). apply in_flat_map in Ie. destruct Ie as ([k e'] & I1 & I2). destruct k; cbn in I2; try contradiction. destruct I2 as [->|[]]. exists KBoolean, e. auto.
  - destruct (paired_r _ _ _ _ (ad_nonboolean _ _ _ _ AD) I) as (e & Ie & L). apply in_flat_map in Ie. destruct Ie as ([k e'] & I1 & I2). destruct k; cbn in I2; try contradiction. destruct I2 as [->|[]]. exists KNonBoolean, e. auto.
Qed.
Lemma plain_made k e : In (k, e) (constraints_of cs) -> k = KBoolean \/ k = KNonBoolean -> exists c, In c (m_boolean m ++ m_nonboolean m) /\ c_expr c = cmap (pointing m) e.
Proof.
  intros I [-> | ->].
  - destruct (paired_l _ _ _ e (ad_boolean _ _ _ _ AD)) as (c & Ic & L); [apply in_flat_map; exists (KBoolean, e); split; [exact I|left; reflexivity]|]. exists c. split; [apply in_or_app; auto|exact L].
  - destruct (paired_l _ _ _ e (ad_nonboolean _ _ _ _ AD)) as (c & Ic & L); [apply in_flat_map; exists (KNonBoolean, e); split; [exact I|left; reflexivity]|]. exists c. split; [apply in_or_app; auto|exact L].
Qed.
Lemma mixed_from x : In x (m_mixed m) -> exists e, In (KMixed (x_req x) (x_kind x), e) (constraints_of cs) /\ c_expr (x_con x) = cmap (pointing m) e.
Proof.
  intros I. destruct (paired_r _ _ _ _ (ad_mixed _ _ _ _ AD) I) as ([[r k] e] & Ie & L & E1 & E2). apply in_flat_map in Ie. destruct Ie as ([k' e'] & I1 & I2). destruct k'; cbn in I2; try contradiction. destruct I2 as [E|[]].
  injection E as -> -> ->. cbn in E1, E2. subst. exists e. auto.
Qed.
Lemma mixed_made r k e : In (KMixed r k, e) (constraints_of cs) -> exists x, In x (m_mixed m) /\ x_req x = r /\ x_kind x = k /\ c_expr (x_con x) = cmap (pointing m) e.
Proof.
  intros I. destruct (paired_l _ _ _ ((r, k), e) (ad_mixed _ _ _ _ AD)) as (x & Ix & L & E1 & E2); [apply in_flat_map; exists (KMixed r k, e); split; [exact I|left; reflexivity]|]. exists x. auto.
Qed.
Lemma leaves_pointing e : leaves (cmap (pointing m) e) = map (pointing m) (leaves e).
Proof. induction e as [o l IHl r IHr|o e IH|n|x]; cbn [cmap leaves]; auto. rewrite map_app. congruence. Qed.
Lemma unselected_means a e : mentions_declared d e -> (exists x n, In x (leaves (cmap (pointing m) e)) /\ mentions h x false n /\ a_bool a n = false) <->
  exists s, In (Own s) (leaves e) /\ ~ numeric_name d s /\ a_bool a s = false.
Proof.
  intros Md. rewrite leaves_pointing. split.
  - intros (x & n & I & M & A). apply in_map_iff in I. destruct I as (y & <- & I). destruct (Md y I) as (s & -> & Tk). apply declared_in in Tk. destruct Tk as (i & G). cbn [pointing] in M. rewrite G in M. destruct M as (g & F & K & ->).
    destruct (get_stored h m t R s i G) as (g2 & Sg & N). assert (g2 = g) as -> by (destruct Sg; congruence). exists s. split; [exact I|]. split; [|congruence]. intros Nn. rewrite <- N in Nn. apply (numeric_stored i g Sg) in Nn. congruence.
  - intros (s & I & Nn & A). destruct (Md _ I) as (s' & E & Tk). injection E as <-. apply declared_in in Tk. destruct Tk as (i & G). destruct (get_stored h m t R s i G) as (g & Sg & N).
    exists (Ref i), s. split; [apply in_map_iff; exists (Own s); cbn [pointing]; rewrite G; auto|]. split; [|exact A]. exists g. split; [exact (proj2 Sg)|]. split; [|symmetry; exact N]. destruct (numeric_kind (f_kind g)) eqn:K; [|reflexivity].
    exfalso. apply Nn. rewrite <- N. apply (numeric_stored i g Sg). exact K.
Qed.
Lemma mixed_means a e k r : mentions_declared d e -> (mixed_holds h a (cmap (pointing m) e) k r <->
  has_value d true a e (Truth (match k with ExprPos => true | ExprNeg => false end)) \/ (r = ReqAll /\ exists s, In (Own s) (leaves e) /\ ~ numeric_name d s /\ a_bool a s = false)).
Proof.
  intros Md. unfold mixed_holds. rewrite (value_means true a e Md). split; (intros [H|(E & H)]; [left; exact H|right]); (split; [exact E|]); apply (unselected_means a e Md); exact H.
Qed.

Lemma described_valid a : SolverSpec.valid h m a <-> configures cs d (requested cs) a.
Proof.
  split.
  - intros V. constructor.
    + destruct (ad_root _ _ _ _ AD) as (r & f & _ & G & F & K & N & _). cbn in N. rewrite <- N. apply (v_root _ _ _ V r f); [apply (stored_is h m t R); rewrite N; auto|exact K].
    + intros f I K Sel. destruct (made f I) as (i & g & Sg & S). destruct (hangs_there f i g I Sg S) as (p & gp & Sp & <- & H). pose proof S as (K1 & N1 & _). eapply (v_parent _ _ _ V i g p gp _ Sg); [congruence|exact H|exact (proj2 Sp)|rewrite N1; exact Sel].
    + intros f I K O Ng Sel. destruct (made f I) as (i & g & Sg & S). destruct (hangs_there f i g I Sg S) as (p & gp & Sp & N & H). pose proof S as (K1 & N1 & _ & _ & O1). rewrite <- N1.
      apply (v_mandatory _ _ _ V i g p gp Sg); [congruence|congruence| |exact (proj2 Sp)|rewrite N; exact Sel].
      destruct (request_for (requests cs) (parent_of cs d (f_name f))) as [k|] eqn:E; [exfalso; apply (Ng k); apply request_found; exact E|exact H].
    + intros s Gr Sel. destruct (requested_group s _ Gr) as (ns & Gn). destruct (group_described _ _ _ Gn) as (_ & M). destruct (v_alternative _ _ _ V s ns Gn Sel) as (u & Iu & Su & U). apply M in Iu. destruct Iu as (f & B & <-).
      exists f. split; [exact B|]. split; [exact Su|]. intros g Bg Sg. apply U; [apply M; eauto|exact Sg].
    + intros s Gr Sel. destruct (requested_group s _ Gr) as (ns & Gn). destruct (group_described _ _ _ Gn) as (_ & M). destruct (v_or _ _ _ V s ns Gn Sel) as (u & Iu & Su). apply M in Iu. destruct Iu as (f & B & <-). eauto.
    + intros f v g I K. destruct (made f I) as (i & g2 & Sg & K1 & N1 & _). rewrite <- N1. apply (v_values _ _ _ V i g2 v g Sg). congruence.
    + intros k e I Kk. destruct (plain_made k e I Kk) as (c & Ic & L). apply (value_means false a e (declared_constraint k e I)). rewrite <- L. exact (v_constraints _ _ _ V c Ic).
    + intros r k e I. destruct (mixed_made r k e I) as (x & Ix & <- & <- & L). apply (mixed_means a e _ _ (declared_constraint _ e I)). rewrite <- L. exact (v_mixed _ _ _ V x Ix).
  - intros C. constructor.
    + intros i g Sg K. destruct (from i g Sg) as [(_ & _ & ->)|(f & I & S)]; [exact (co_root _ _ _ _ C)|]. exfalso. apply (not_root f I). rewrite <- (proj1 S). exact K.
    + intros i g p gp r Sg K H F Sel. destruct (from i g Sg) as [(_ & Kr & _)|(f & I & S)]; [congruence|]. destruct (hanging f i g p gp r I Sg S H F) as (_ & -> & _). destruct S as (K1 & N1 & _). apply (co_parent _ _ _ _ C f I); congruence.
    + intros i g p gp Sg K O H F Sel. destruct (from i g Sg) as [(_ & Kr & _)|(f & I & S)]; [congruence|]. destruct (hanging f i g p gp _ I Sg S H F) as (_ & N & E). destruct S as (K1 & N1 & _ & _ & O1). rewrite N1.
      apply (co_mandatory _ _ _ _ C f I); [congruence|congruence| |congruence]. intros k Rq. apply request_found in Rq. congruence.
    + intros n ns Gn Sel. destruct (group_described _ _ _ Gn) as (Rq & M). destruct (co_alternative _ _ _ _ C n Rq Sel) as (f & B & Sf & U). exists (f_name f). split; [apply M; eauto|]. split; [exact Sf|].
      intros s Is Ss. apply M in Is. destruct Is as (g & Bg & <-). exact (U g Bg Ss).
    + intros n ns Gn Sel. destruct (group_described _ _ _ Gn) as (Rq & M). destruct (co_or _ _ _ _ C n Rq Sel) as (f & B & Sf). exists (f_name f). split; [apply M; eauto|exact Sf].
    + intros i g v st Sg K. destruct (from i g Sg) as [(_ & Kr & _)|(f & I & K1 & N1 & _)]; [congruence|]. rewrite N1. apply (co_values _ _ _ _ C f v st I). congruence.
    + intros c Ic. destruct (plain_from c Ic) as (k & e & I & Kk & L). rewrite L. apply (value_means false a e (declared_constraint k e I)). exact (co_constraints _ _ _ _ C k e I Kk).
    + intros x Ix. destruct (mixed_from x Ix) as (e & I & L). rewrite L. apply (mixed_means a e _ _ (declared_constraint _ e I)). exact (co_mixed _ _ _ _ C _ _ e I).
Qed.
Lemma xor_pointing e : xor_free (cmap (pointing m) e) <-> xor_free e.
Proof. induction e as [o l IHl r IHr|o e IH|n|x]; cbn [cmap xor_free]; tauto. Qed.
Lemma settled_supported : settled cs d (requested cs) -> supported h m /\ no_xor m.
Proof.
  intros S. split; [constructor|].
  - intros i g Sg. destruct (from i g Sg) as [(_ & Kr & _)|(f & I & K1 & _)]; [congruence|]. rewrite K1. exact (se_kinds _ _ _ S f I).
  - intros i g p gp r Sg K H F. destruct (from i g Sg) as [(_ & Kr & _)|(f & I & Sd)]; [congruence|]. destruct (hanging f i g p gp r I Sg Sd H F) as (Sp & N & _). destruct (numeric_kind (f_kind gp)) eqn:Kp; [|reflexivity].
    exfalso. apply (se_parents _ _ _ S f I); [rewrite <- (proj1 Sd); exact K|]. rewrite <- N. apply (numeric_stored p gp Sp). exact Kp.
  - intros n ns Gn ->. destruct (group_described _ _ _ Gn) as (Rq & M). destruct (se_alternatives _ _ _ S n Rq) as (f & B). destruct (proj2 (M (f_name f))); eauto.
  - intros i g v st Sg K. destruct (from i g Sg) as [(_ & Kr & _)|(f & I & K1 & _)]; [congruence|]. apply (se_ranges _ _ _ S f v st I). congruence.
  - intros c Ic a. destruct (plain_from c Ic) as (k & e & I & Kk & L). destruct (se_constraints _ _ _ S k e a I Kk) as (b & H). exists b. rewrite L. apply (value_means false a e (declared_constraint k e I)). exact H.
  - intros x Ix a. destruct (mixed_from x Ix) as (e & I & L). destruct (se_mixed _ _ _ S _ _ e a I) as (b & H). exists b. rewrite L. apply (value_means true a e (declared_constraint _ e I)). exact H.
  - intros e Ie. apply in_map_iff in Ie. destruct Ie as (c & <- & Ic). rewrite app_assoc in Ic. apply in_app_or in Ic. destruct Ic as [Ic|Ic].
    + destruct (plain_from c Ic) as (k & e & I & _ & L). rewrite L. apply xor_pointing. exact (se_no_xor _ _ _ S k e I).
    + apply in_map_iff in Ic. destruct Ic as (x & <- & Ix). destruct (mixed_from x Ix) as (e & I & L). rewrite L. apply xor_pointing. exact (se_no_xor _ _ _ S _ e I).
Qed.
End Described.
