(** The valid configurations before and after each modification. *)
From Coq Require Import List ZArith Arith Bool Ascii String Permutation Lia.
From Verif Require Import Text TextProofs ConstraintModel ConstraintSpec SourceRangeModel ConfigurationModel FeatureTreeModel FeatureTreeSpec FeatureTreeProofs FeatureTransactionModel FeatureTransactionSpec FeatureEditSpec FeatureEditProofs FeatureOpsProofs FeatureDataProofs FeatureBuildSpec
  FeatureHistoryProofs FeatureTransactionFinal SolverModel SolverSpec SolverLoadProofs GeneratorProofs XmlTripWrite XmlModel XmlSpec EditValidSpec EditValidProofs EditValidOps.
Import ListNotations.
Local Open Scope list_scope.

Lemma feature_is d f : d = NFeature f -> is_feature d = true.
Proof. intros ->. reflexivity. Qed.

(** ** Adding features *)
Lemma add_feature_valid ord h m t f p q g h' m' a :
  represents h m t -> all_resolved m -> f_kind f <> FRoot -> stored h m q g -> (p = Some q \/ p = None /\ m_root m = Some q) ->
  exec ord (OAddFeature f p) (h, m) = Some ((h', m'), None) ->
  (SolverSpec.valid h' m' a <-> SolverSpec.valid h m a /\ needs a g f /\ follows a g f /\ has_value a f).
Proof.
  intros R A K Sq P E. pose proof (rep_ids _ _ _ R) as N. apply (stored_sub h m t R) in Sq. destruct Sq as (s & S1 & <- & D).
  assert (G : get_feature m (f_name f) = None). { destruct (get_feature m (f_name f)) as [i|] eqn:G; [|reflexivity]. rewrite (exec_add_feature_present ord h m f p i G) in E. discriminate. }
  assert (P' : p = Some (rid s) \/ p = None /\ s = t). { destruct P as [->|(-> & Rt)]; [auto|right]. split; [reflexivity|]. rewrite (rep_root _ _ _ R) in Rt. injection Rt as Rt. apply (subtree_unique t); [exact N|exact S1|constructor|congruence]. }
  destruct (add_feature_exact ord h m t f p s R K G S1 (feature_is _ _ D) P') as (h1 & m1 & E1 & R1 & _ & _ & _ & (_ & _ & _ & B1 & B2 & B3) & _). rewrite E1 in E. injection E as <- <-.
  rewrite (valid_rules h m t R), (valid_rules h1 m1 _ R1).
  destruct (edit_rules a s (feature_is _ _ D) t N S1) as (Q & Q1 & Q2). rewrite (Q2 (add_kid (Node (h_next h) (NFeature f) [])) eq_refl), (rules_add a s g (h_next h) f D K), Q1.
  rewrite <- (constraints_kept h h1 m m1 t _ a R R1 A B1 B2 B3); [tauto|]. intros c i f' _ _ C. apply (carries_edit _ _ _ s); [exact N|exact S1|reflexivity|apply carries_add|exact C].
Qed.

Lemma agree_with_bool ns a n b : ~ In n ns -> agree_on ns a (with_bool a n b).
Proof. intros X s I. cbn. destruct (text_eqb s n) eqn:E; [apply text_eqb_eq in E; subst; contradiction|auto]. Qed.
Lemma with_bool_same a n b : a_bool (with_bool a n b) n = b.
Proof. cbn. replace (text_eqb n n) with true by (symmetry; apply text_eqb_eq; reflexivity). reflexivity. Qed.
Lemma with_bool_other a n b s : s <> n -> a_bool (with_bool a n b) s = a_bool a s.
Proof. intros X. cbn. destruct (text_eqb s n) eqn:E; [apply text_eqb_eq in E; contradiction|reflexivity]. Qed.

Lemma add_binary_extends ord h m t f p q g h' m' a b :
  represents h m t -> all_resolved m -> f_kind f = FBinary -> stored h m q g -> (p = Some q \/ p = None /\ m_root m = Some q) ->
  exec ord (OAddFeature f p) (h, m) = Some ((h', m'), None) -> SolverSpec.valid h m a ->
  (SolverSpec.valid h' m' (with_bool a (f_name f) b) <-> if b then selected a (f_name g) else f_optional f = true \/ ~ selected a (f_name g)).
Proof.
  intros R A K Sq P E V. assert (Kr : f_kind f <> FRoot) by congruence.
  assert (G : get_feature m (f_name f) = None). { destruct (get_feature m (f_name f)) as [i|] eqn:G; [|reflexivity]. rewrite (exec_add_feature_present ord h m f p i G) in E. discriminate. }
  rewrite (add_feature_valid ord h m t f p q g h' m' _ R A Kr Sq P E). pose proof (proj1 (rep_find_none R _) G) as Nn.
  assert (V' : SolverSpec.valid h m (with_bool a (f_name f) b)) by (apply (valid_agree h m t a); [exact R|exact A|exact (agree_with_bool _ a _ b Nn)|reflexivity|exact V]).
  apply (stored_sub h m t R) in Sq. destruct Sq as (s & S1 & _ & D). assert (Ng : f_name g <> f_name f) by (intros X; apply Nn; rewrite <- X; exact (name_in s t g S1 D)).
  unfold needs, follows, selected. rewrite with_bool_same, (with_bool_other a _ b _ Ng). split.
  - intros (_ & X1 & X2 & _). destruct b; [exact (X1 K eq_refl)|]. destruct (f_optional f); [auto|right]. intros Y. specialize (X2 K eq_refl Y). discriminate.
  - intros X. split; [exact V'|]. split; [|split].
    + intros _ Y. subst b. exact X.
    + intros _ O Y. destruct b; [reflexivity|]. exfalso. destruct X as [X|X]; [congruence|exact (X Y)].
    + intros v st Kn. congruence.
Qed.

(** ** Removing features *)
Lemma remove_kept ord (recursive : bool) h m t r u s f h' m' a :
  is_order ord -> represents h m t -> all_resolved m -> resolve m r = Some (rid s) -> subtree u t -> In s (kids u) -> rdata s = NFeature f -> unmentioned m (ids s) ->
  exec ord (ORemoveFeature r recursive) (h, m) = Some ((h', m'), None) ->
  represents h' m' (edit (rid u) (drop_kid (rid s)) t) /\ (constraints_hold h m a <-> constraints_hold h' m' a).
Proof.
  intros O R A Er U I D M E. pose proof (rep_ids _ _ _ R) as N. assert (S1 : subtree s t) by exact (kid_sub t u s U I).
  assert (Ne : rid s <> rid t). { intros X. assert (s = t) as -> by (apply (subtree_unique t); [exact N|exact S1|constructor|exact X]). pose proof (subtree_nodup u t U N) as Nu. destruct u as [n d ts]. cbn [ids kids] in *. apply NoDup_cons_iff in Nu. apply (proj1 Nu). apply in_flat_map. exists t. split; [exact I|]. eapply subtree_ids; [exact U|left; reflexivity]. }
  assert (C : recursive = true \/ near (kids s) = []). { destruct recursive; [auto|right]. destruct (near (kids s)) as [|x l] eqn:Nr; [reflexivity|]. rewrite (FeatureRemoveProofs.exec_remove_inner ord O h m t r s R Er S1) in E; [discriminate|congruence]. }
  destruct (remove_exact ord O recursive h m t r s R Er S1 (feature_is _ _ D) Ne C) as (h1 & m1 & E1 & R1 & (_ & _ & _ & B1 & B2 & B3) & _). rewrite E1 in E. injection E as <- <-. rewrite (prune_edit t u s N U I) in R1. split; [exact R1|].
  apply (constraints_kept h h1 m m1 t _ a R R1 A B1 B2 B3). intros c i f' C1 C2 Cf. apply (carries_edit _ _ _ u); [exact N|exact U|reflexivity| |exact Cf]. apply carries_drop; [exact (subtree_nodup u t U N)|exact I|exact (M c i C1 C2)].
Qed.
Lemma remove_feature_valid ord (recursive : bool) h m t r u s f g h' m' a :
  is_order ord -> represents h m t -> all_resolved m -> resolve m r = Some (rid s) -> subtree u t -> rdata u = NFeature g -> In s (kids u) -> rdata s = NFeature f -> unmentioned m (ids s) ->
  exec ord (ORemoveFeature r recursive) (h, m) = Some ((h', m'), None) ->
  (SolverSpec.valid h m a <-> SolverSpec.valid h' m' a /\ needs a g f /\ follows a g f /\ rules a s).
Proof.
  intros O R A Er U Du I D M E. pose proof (rep_ids _ _ _ R) as N. destruct (remove_kept ord recursive h m t r u s f h' m' a O R A Er U I D M E) as (R' & C).
  rewrite (valid_rules h m t R), (valid_rules h' m' _ R'), C. destruct (edit_rules a u (feature_is _ _ Du) t N U) as (Q & Q1 & Q2). rewrite Q1, (Q2 (drop_kid (rid s)) eq_refl), (rules_drop a u g s f (subtree_nodup u t U N) Du I D). tauto.
Qed.

(** An edit below a node is an edit of that node. *)
Lemma edit_inner p g v t : NoDup (ids t) -> subtree v t -> In p (ids v) -> edit p g t = edit (rid v) (edit p g) t.
Proof.
  induction t as [n d ts IH] using tree_ind'. rewrite Forall_forall in IH. intros N V I. destruct (Nat.eq_dec n (rid v)) as [En|Nn].
  - rewrite (edit_top (rid v)) by exact En. reflexivity.
  - assert (Np : n <> p). { intros ->. cbn [ids] in N. apply NoDup_cons_iff in N. apply (proj1 N). inversion V as [|? ? ? k Ik Vk]; [subst; exfalso; apply Nn; reflexivity|]. apply in_flat_map. exists k. split; [exact Ik|]. eapply subtree_ids; eauto. }
    cbn [edit]. destruct (Nat.eqb_spec n p); [contradiction|]. destruct (Nat.eqb_spec n (rid v)); [contradiction|]. f_equal. apply map_ext_in. intros k Ik.
    assert (Nk : NoDup (ids k)) by (cbn [ids] in N; apply NoDup_cons_iff in N; eapply nodup_flat_map_in; [exact (proj2 N)|exact Ik]).
    destruct (in_dec Nat.eq_dec (rid v) (ids k)) as [X|X].
    + destruct (ids_subtree _ _ X) as (w & W & Ew). assert (w = v) as -> by (apply (subtree_unique (Node n d ts)); [exact N|eapply sub_kid; eauto|exact V|exact Ew]). exact (IH k Ik Nk W I).
    + rewrite (edit_absent (rid v)) by exact X. apply edit_absent. intros Y. apply X. inversion V as [|? ? ? k' Ik' Vk']; [subst; exfalso; apply Nn; reflexivity|subst].
      destruct (Nat.eq_dec (rid k') (rid k)) as [Ek|Ek].
      * assert (k' = k) as <- by (apply (subtree_unique (Node n d ts)); [exact N|apply subtree_kid; exact Ik'|apply subtree_kid; exact Ik|exact Ek]). eapply subtree_ids; [exact Vk'|apply rid_in_ids].
      * exfalso. cbn [ids] in N. apply NoDup_cons_iff in N. eapply (kids_disjoint ts); [exact (proj2 N)|exact Ik'|exact Ik|exact Ek| |exact Y]. eapply subtree_ids; eauto.
Qed.
Lemma names_of_drop l s r x : In x (names_of (l ++ r)) -> In x (names_of (l ++ s :: r)).
Proof. unfold names_of. rewrite !flat_map_app. cbn [flat_map]. intros I. apply in_app_or in I. apply in_or_app. destruct I; [auto|right; apply in_or_app; auto]. Qed.
Lemma names_of_mid l s r f x : rdata s = NFeature f -> In x (names_of (l ++ s :: r)) -> x = f_name f \/ In x (names_of (l ++ r)).
Proof. intros D. unfold names_of. rewrite !flat_map_app. cbn [flat_map]. rewrite D. intros I. apply in_app_or in I. destruct I as [I|[<-|I]]; [right; apply in_or_app; auto|auto|right; apply in_or_app; auto]. Qed.
Lemma chosen_drop a k g l s r f : rdata s = NFeature f -> ~ selected a (f_name f) -> chosen a k g (names_of (l ++ s :: r)) -> chosen a k g (names_of (l ++ r)).
Proof.
  intros D X C E. specialize (C E). destruct k.
  - destruct C as (x & I & Sx & Un). exists x. destruct (names_of_mid l s r f x D I) as [->|I']; [contradiction|]. split; [exact I'|]. split; [exact Sx|]. intros y Iy. apply Un. exact (names_of_drop l s r y Iy).
  - destruct C as (x & I & Sx). exists x. destruct (names_of_mid l s r f x D I) as [->|I']; [contradiction|auto].
Qed.
Lemma remove_member_valid ord (recursive : bool) h m t r u s f h' m' a :
  is_order ord -> represents h m t -> all_resolved m -> resolve m r = Some (rid s) -> subtree u t -> In s (kids u) -> rdata s = NFeature f -> unmentioned m (ids s) ->
  exec ord (ORemoveFeature r recursive) (h, m) = Some ((h', m'), None) -> ~ selected a (f_name f) -> SolverSpec.valid h m a -> SolverSpec.valid h' m' a.
Proof.
  intros O R A Er U I D M E X V. destruct (rdata u) as [g|k] eqn:Du; [exact (proj1 (proj1 (remove_feature_valid ord recursive h m t r u s f g h' m' a O R A Er U Du I D M E) V))|].
  pose proof (rep_ids _ _ _ R) as N. destruct (remove_kept ord recursive h m t r u s f h' m' a O R A Er U I D M E) as (R' & C).
  apply (valid_rules h m t R) in V. apply (valid_rules h' m' _ R'). rewrite <- C. destruct V as (V & Cs). split; [|exact Cs].
  destruct (group_parent_feature h m t R u k U Du) as (v & g & V1 & Iu & Dv). pose proof (subtree_nodup v t V1 N) as Nv.
  rewrite (edit_inner (rid u) (drop_kid (rid s)) v t N V1) by (destruct v as [n d ts]; right; exact (rid_in_kids u ts Iu)).
  destruct (edit_rules a v (feature_is _ _ Dv) t N V1) as (Q & Q1 & Q2). apply Q1 in V. destruct V as (Vq & Vv).
  destruct v as [n d ts]. cbn [rdata kids rid] in *. subst d. destruct (in_split _ _ Iu) as (l1 & l2 & ->).
  assert (Fn : n <> rid u) by (intros ->; cbn [ids] in Nv; apply NoDup_cons_iff in Nv; apply (proj1 Nv); apply rid_in_kids; exact Iu).
  assert (Out : forall k', In k' (l1 ++ l2) -> ~ In (rid u) (ids k')).
  { intros k' Ik Y. cbn [ids] in Nv. apply NoDup_cons_iff in Nv. destruct Nv as (_ & Nv). rewrite flat_map_app in Nv. cbn [flat_map] in Nv. apply nodup_app in Nv. destruct Nv as (_ & Nv & N1). apply nodup_app in Nv. destruct Nv as (_ & _ & N2).
    apply in_app_or in Ik. destruct Ik as [Ik|Ik]; [apply (N1 (rid u)); [apply in_flat_map; eauto|apply in_or_app; left; apply rid_in_ids]|apply (N2 (rid u)); [apply rid_in_ids|apply in_flat_map; eauto]]. }
  assert (Ed : edit (rid u) (drop_kid (rid s)) (Node n (NFeature g) (l1 ++ u :: l2)) = Node n (NFeature g) (l1 ++ drop_kid (rid s) u :: l2)).
  { cbn [edit]. destruct (Nat.eqb_spec n (rid u)); [contradiction|]. f_equal. rewrite map_app. cbn [map]. rewrite (edit_top (rid u)) by reflexivity. f_equal; [|f_equal].
    - rewrite <- (map_id l1) at 2. apply map_ext_in. intros k' Ik. apply edit_absent, Out, in_or_app. auto.
    - rewrite <- (map_id l2) at 2. apply map_ext_in. intros k' Ik. apply edit_absent, Out, in_or_app. auto. }
  pose proof (Q2 (edit (rid u) (drop_kid (rid s)))) as G. rewrite Ed in G. apply (G eq_refl). clear G. split; [exact Vq|].
  assert (Nu : NoDup (ids u)) by exact (subtree_nodup u t U N). destruct (kids_split u s Nu I) as (b1 & b2 & K1 & K2 & _).
  apply rules_node in Vv. destruct Vv as (Va & Vk). apply rules_at_feature in Va. destruct Va as (Va & Vb). apply rules_node. split.
  - apply rules_at_feature. split; [exact Va|]. intros k' Ik. apply in_app_or in Ik. destruct Ik as [Ik|[<-|Ik]]; [apply Vb, in_or_app; auto| |apply Vb, in_or_app; right; right; exact Ik].
    pose proof (Vb u Iu) as Y. cbn [drop_kid with_kids rdata] in *. rewrite Du in *. rewrite K2. rewrite K1 in Y. destruct Y as (Y1 & Y2). split.
    + intros w e Iw. apply Y1. apply in_app_or in Iw. apply in_or_app. destruct Iw; [auto|right; right; auto].
    + exact (chosen_drop a k g b1 s b2 f D X Y2).
  - intros k' Ik. apply in_app_or in Ik. destruct Ik as [Ik|[<-|Ik]]; [apply Vk, in_or_app; auto| |apply Vk, in_or_app; right; right; exact Ik].
    pose proof (Vk u Iu) as Y. unfold drop_kid, with_kids in *. cbn [kids] in K2. rewrite K2, Du. destruct u as [nu du tu]. cbn [rdata kids rid] in *. subst du tu. apply rules_node in Y. apply rules_node. split; [exact Logic.I|].
    intros w Iw. apply (proj2 Y). apply in_app_or in Iw. apply in_or_app. destruct Iw; [auto|right; right; auto].
Qed.

(** ** Moving features *)
Lemma move_feature_valid ord h m t rp rc u s f g p gp h' m' a :
  represents h m t -> all_resolved m -> resolve m rp = Some p -> stored h m p gp -> resolve m rc = Some (rid s) -> subtree u t -> rdata u = NFeature g -> In s (kids u) -> rdata s = NFeature f -> ~ reaches h p (rid s) ->
  exec ord (OAddChild rp rc) (h, m) = Some ((h', m'), None) ->
  ((SolverSpec.valid h' m' a /\ needs a g f /\ follows a g f) <-> (SolverSpec.valid h m a /\ needs a gp f /\ follows a gp f)).
Proof.
  intros R A Ep Sp Ec U Du I D X E. pose proof (rep_ids _ _ _ R) as N. assert (S1 : subtree s t) by exact (kid_sub t u s U I). apply (stored_sub h m t R) in Sp. destruct Sp as (q & Q & <- & Dq).
  assert (Iq : In (rid q) (ids t)) by (eapply subtree_ids; [exact Q|apply rid_in_ids]).
  destruct (exec_add_child_ok ord h m t rp rc (rid q) s R Ep Ec Iq S1 (feature_is _ _ D) X) as (h1 & E1 & R1 & _). rewrite E1 in E. injection E as <- <-. rewrite (prune_edit t u s N U I) in R1. set (t1 := edit (rid u) (drop_kid (rid s)) t) in *.
  destruct (drop_frame t u s N U I) as (_ & Pi & _). fold t1 in Pi. pose proof (Permutation_NoDup Pi N) as N'. apply nodup_app in N'. destruct N' as (N1 & Ns & Nd).
  assert (Xq : ~ In (rid q) (ids s)) by (intros Y; apply X; destruct (holds_sub h None t s (rep_holds _ _ _ R) S1) as (o & Hs); exact (subtree_reaches h o s s (rid q) Hs (sub_refl s) Y)).
  assert (Cr : forall i f', ~ In i (ids s) -> carries t i f' -> carries t1 i f'). { intros i f' Y C. apply (carries_edit _ _ _ u); [exact N|exact U|reflexivity| |exact C]. apply carries_drop; [exact (subtree_nodup u t U N)|exact I|exact Y]. }
  destruct (Cr (rid q) gp Xq (ex_intro _ q (conj Q (conj eq_refl Dq)))) as (q1 & Q1 & Eq & Dq1).
  rewrite (valid_rules h m t R), (valid_rules h1 m _ R1).
  assert (K : constraints_hold h m a <-> constraints_hold h1 m a).
  { apply (constraints_kept h h1 m m t _ a R R1 A eq_refl eq_refl eq_refl). intros c i f' _ _ C. destruct (in_dec Nat.eq_dec i (ids s)) as [Y|Y].
    - assert (Cs : carries s i f'). { destruct C as (w & W & Ew & Dw). destruct (ids_subtree i s Y) as (w' & W' & Ew'). assert (w = w') as -> by (apply (subtree_unique t); [exact N|exact W|exact (subtree_trans _ _ _ W' S1)|congruence]). exists w'. auto. }
      assert (Z : carries (add_kid s q1) i f'). { destruct q1 as [n d ts]. unfold add_kid, with_kids. apply (carries_kid _ _ _ s); [apply in_or_app; right; left; reflexivity|exact Cs]. }
      assert (Sb : subtree (add_kid s q1) (edit (rid q) (add_kid s) t1)). { destruct (subtree_edited (rid q) (add_kid s) q1 t1 q1 N1 Q1 Eq Q1) as [(k & Ik & Uk)|Y1].
        - exfalso. pose proof (subtree_nodup q1 t1 Q1 N1) as Nq. destruct q1 as [n d ts]. cbn [ids kids] in *. apply NoDup_cons_iff in Nq. apply (proj1 Nq). apply in_flat_map. exists k. split; [exact Ik|]. eapply subtree_ids; [exact Uk|left; reflexivity].
        - rewrite (edit_top (rid q)) in Y1 by exact Eq. exact Y1. }
      destruct Z as (z & Zs & Ez & Dz). exists z. split; [exact (subtree_trans _ _ _ Zs Sb)|auto].
    - apply (carries_edit _ _ _ q1); [exact N1|exact Q1|exact Eq|apply carries_add|exact (Cr i f' Y C)]. }
  rewrite K. destruct (edit_rules a u (feature_is _ _ Du) t N U) as (P1 & P2 & P3). destruct (edit_rules a q1 (feature_is _ _ Dq1) t1 N1 Q1) as (P4 & P5 & P6).
  rewrite <- Eq, (P6 (add_kid s) eq_refl), (rules_add_tree a q1 gp s f Dq1 D). rewrite P2, (rules_drop a u g s f (subtree_nodup u t U N) Du I D). pose proof (P3 (drop_kid (rid s)) eq_refl) as P7. fold t1 in P7. rewrite P5 in P7. tauto.
Qed.

(** ** Grouping children *)
Lemma names_of_perm us vs : Permutation us vs -> forall x, In x (names_of us) -> In x (names_of vs).
Proof. intros P x I. unfold names_of in *. apply in_flat_map in I. destruct I as (u & Iu & Ix). apply in_flat_map. exists u. split; [eapply Permutation_in; eauto|exact Ix]. Qed.
Lemma chosen_perm a k g us vs : Permutation us vs -> chosen a k g (names_of us) -> chosen a k g (names_of vs).
Proof.
  intros P C E. specialize (C E). destruct k.
  - destruct C as (x & I & Sx & Un). exists x. split; [exact (names_of_perm us vs P x I)|]. split; [exact Sx|]. intros y Iy. apply Un. exact (names_of_perm vs us (Permutation_sym P) y Iy).
  - destruct C as (x & I & Sx). exists x. split; [exact (names_of_perm us vs P x I)|exact Sx].
Qed.
Lemma no_groups ts k : own_groups ts = [] -> In k ts -> exists f, rdata k = NFeature f.
Proof. intros O I. destruct (rdata k) as [f|r] eqn:D; [eauto|]. exfalso. assert (Y : In k (own_groups ts)) by (apply filter_In; split; [exact I|rewrite D; reflexivity]). rewrite O in Y. exact Y. Qed.
Lemma rules_group a n k us s g : rdata s = NFeature g -> own_groups (kids s) = [] -> Permutation us (kids s) ->
  ((rules a (with_kids [Node n (NRelationship k) us] s) /\ forall v f, In v (kids s) -> rdata v = NFeature f -> follows a g f) <-> (rules a s /\ chosen a k g (names_of (kids s)))).
Proof.
  intros D O P. destruct s as [i d ts]. cbn [rdata kids] in *. subst d. unfold with_kids. cbn [rid rdata]. rewrite !rules_node, !rules_at_feature.
  assert (P1 : forall v, In v us -> In v ts) by (intros v; apply Permutation_in; exact P). assert (P2 : forall v, In v ts -> In v us) by (intros v; apply Permutation_in, Permutation_sym; exact P). split.
  - intros (((A & A3) & B) & F). pose proof (A3 _ (or_introl eq_refl)) as X. cbn [rdata kids] in X. destruct X as (X1 & X2). pose proof (B _ (or_introl eq_refl)) as Y. apply rules_node in Y. split; [|exact (chosen_perm a k g us ts P X2)]. split; [split; [exact A|]|intros v Iv; exact (proj2 Y v (P2 v Iv))].
    intros v Iv. destruct (no_groups ts v O Iv) as (f & Df). rewrite Df. split; [exact (X1 v f (P2 v Iv) Df)|exact (F v f Iv Df)].
  - intros (((A & A3) & B) & C). split; [split; [split; [exact A|]|]|].
    + intros v [<-|[]]. cbn [rdata kids]. split; [|exact (chosen_perm a k g ts us (Permutation_sym P) C)]. intros w f Iw Df. pose proof (A3 w (P1 w Iw)) as X. rewrite Df in X. exact (proj1 X).
    + intros v [<-|[]]. apply rules_node. split; [exact I|]. intros w Iw. exact (B w (P1 w Iw)).
    + intros v f Iv Df. pose proof (A3 v Iv) as X. rewrite Df in X. exact (proj2 X).
Qed.
Lemma group_valid ord h m t k r s g h' m' a :
  is_order ord -> represents h m t -> all_resolved m -> resolve m r = Some (rid s) -> subtree s t -> rdata s = NFeature g -> own_groups (kids s) = [] ->
  exec ord (OAddRelationship k r) (h, m) = Some ((h', m'), None) ->
  ((SolverSpec.valid h' m' a /\ forall v f, In v (kids s) -> rdata v = NFeature f -> follows a g f) <-> (SolverSpec.valid h m a /\ chosen a k g (names_of (kids s)))).
Proof.
  intros O R A Er S1 D Og E. pose proof (rep_ids _ _ _ R) as N. destruct (group_ungroup ord O h m t k r s R Er S1 (feature_is _ _ D) Og) as (h1 & m1 & us & E1 & P & R1 & _ & (_ & _ & _ & B1 & B2 & B3) & _). rewrite E1 in E. injection E as <- <-.
  rewrite (valid_rules h m t R), (valid_rules h1 m1 _ R1), <- (constraints_kept h h1 m m1 t _ a R R1 A B1 B2 B3).
  - destruct (edit_rules a s (feature_is _ _ D) t N S1) as (Q & Q1 & Q2). rewrite Q1, (Q2 (with_kids [Node (h_next h) (NRelationship k) us]) eq_refl). pose proof (rules_group a (h_next h) k us s g D Og P). tauto.
  - intros c i f' _ _ C. apply (carries_edit _ _ _ s); [exact N|exact S1|reflexivity|apply carries_group; exact P|exact C].
Qed.
Lemma rules_perm a us s : Permutation us (kids s) -> rules a s -> rules a (with_kids us s).
Proof.
  intros P. destruct s as [n d ts]. unfold with_kids. cbn [rid rdata kids] in *. rewrite !rules_node. intros (A & B). split; [|intros k I; apply B; eapply Permutation_in; eauto].
  destruct d as [f|]; [|exact I]. apply rules_at_feature in A. apply rules_at_feature. split; [exact (proj1 A)|]. intros k I. apply (proj2 A). eapply Permutation_in; eauto.
Qed.
Lemma ungroup_valid ord h m t k r s g h1 m1 h2 m2 a :
  is_order ord -> represents h m t -> all_resolved m -> resolve m r = Some (rid s) -> subtree s t -> rdata s = NFeature g -> own_groups (kids s) = [] ->
  exec ord (OAddRelationship k r) (h, m) = Some ((h1, m1), None) -> exec ord (ORemoveRelationship r) (h1, m1) = Some ((h2, m2), None) ->
  (SolverSpec.valid h2 m2 a <-> SolverSpec.valid h m a).
Proof.
  intros O R A Er S1 D Og E1 E2. pose proof (rep_ids _ _ _ R) as N. destruct (group_ungroup ord O h m t k r s R Er S1 (feature_is _ _ D) Og) as (h1' & m1' & us & E1' & P & _ & _ & _ & h2' & m2' & us2 & E2' & P2 & R2 & ->).
  rewrite E1' in E1. injection E1 as <- <-. rewrite E2' in E2. injection E2 as <- <-.
  rewrite (valid_rules h m t R), (valid_rules h2' m _ R2), <- (constraints_kept h h2' m m t _ a R R2 A eq_refl eq_refl eq_refl).
  - destruct (edit_rules a s (feature_is _ _ D) t N S1) as (Q & Q1 & Q2). rewrite Q1, (Q2 (with_kids us2) eq_refl).
    assert (rules a (with_kids us2 s) <-> rules a s); [|tauto]. split; [|apply rules_perm; exact P2]. intros X. assert (Y : s = with_kids (kids s) (with_kids us2 s)) by (destruct s; reflexivity). rewrite Y. apply rules_perm; [destruct s; exact (Permutation_sym P2)|exact X].
  - intros c i f' _ _ C. apply (carries_edit _ _ _ s); [exact N|exact S1|reflexivity| |exact C]. intros Cs. destruct s as [n d ts]. unfold with_kids. cbn [rid rdata kids] in *. apply carries_node in Cs. destruct Cs as [(<- & ->)|(k' & Ik & Cs)]; [apply carries_top|]. apply (carries_kid _ _ _ k'); [eapply Permutation_in; [apply Permutation_sym; exact P2|exact Ik]|exact Cs].
Qed.

(** ** Another root *)
Lemma set_root_valid ord h m t s g h' m' a :
  represents h m t -> all_resolved m -> rdata t = NFeature g -> get_feature m s = None -> unmentioned m [rid t] ->
  exec ord (OSetRoot s) (h, m) = Some ((h', m'), None) ->
  (SolverSpec.valid h' m' a <-> selected a s /\ SolverSpec.valid h m (with_bool a (f_name g) true)).
Proof.
  intros R A D G M E. pose proof (rep_ids _ _ _ R) as N. destruct (set_root_exact ord h m t s R G) as (h1 & m1 & E1 & R1 & (_ & _ & _ & B1 & B2 & B3) & _). rewrite E1 in E. injection E as <- <-.
  set (b := with_bool a (f_name g) true). pose proof (proj1 (rep_find_none R s) G) as Ns.
  assert (Cr : forall c i f', In c (all_constraints m) -> In (Ref i) (leaves (c_expr c)) -> carries t i f' -> carries (Node (h_next h) (NFeature (root_feature s)) (kids t)) i f').
  { intros c i f' C1 C2 C. destruct t as [n d ts]. apply carries_node in C. destruct C as [(<- & _)|(k & Ik & C)]; [exfalso; apply (M c n C1 C2); left; reflexivity|]. exact (carries_kid _ _ _ k i f' Ik C). }
  assert (Kb : constraints_hold h m a <-> constraints_hold h m b).
  { assert (Lf : forall mixed c r, In c (all_constraints m) -> In r (leaves (c_expr c)) -> leaf_value h mixed a r = leaf_value h mixed b r).
    { intros mixed c r C L. destruct (resolved_carries h m t c r R A C L) as (i & f & -> & Cf). cbn [leaf_value]. rewrite (carries_feature_at h m t i f R Cf). assert (f_name f <> f_name g) as Nf.
      { intros X. destruct Cf as (u & U & <- & Du). apply (M c (rid u) C L). left. pose proof (proj2 (rep_find R (f_name f) (rid u))) as Y1. specialize (Y1 (proj2 (named_subtree _ _ _) (ex_intro _ u (ex_intro _ f (conj U (conj eq_refl (conj Du eq_refl))))))).
        pose proof (proj2 (rep_find R (f_name g) (rid t))) as Y2. specialize (Y2 (proj2 (named_subtree _ _ _) (ex_intro _ t (ex_intro _ g (conj (sub_refl t) (conj eq_refl (conj D eq_refl))))))). rewrite X in Y1. congruence. }
      unfold b. rewrite (with_bool_other a _ true _ Nf). reflexivity. }
    assert (Mt : forall c r n, In c (all_constraints m) -> In r (leaves (c_expr c)) -> SolverSpec.mentions h r false n -> a_bool a n = a_bool b n).
    { intros c r n C L Mn. pose proof (Lf false c r C L) as Y. destruct (resolved_carries h m t c r R A C L) as (i & f & -> & Cf). destruct Mn as (f' & Ef & Kf & ->). cbn [leaf_value] in Y. rewrite Ef, <- Kf in Y. injection Y as Y. exact Y. }
    assert (Vl : forall mixed c, In c (all_constraints m) -> value_of h mixed a (c_expr c) = value_of h mixed b (c_expr c)) by (intros mixed c C; unfold value_of; exact (meaning_ext _ (leaf_value h mixed b) _ _ (fun r => Lf mixed c r C))).
    split; intros (V1 & V2); (split; [intros c C|intros x X]).
    - rewrite <- (Vl false c (in_plain_constraint m c C)). exact (V1 c C).
    - destruct (V2 x X) as [Y|(Er & r & n & Ir & Mn & Bn)]; [left; rewrite <- (Vl true _ (in_mixed_constraint m x X)); exact Y|right]. split; [exact Er|]. exists r, n. split; [exact Ir|]. split; [exact Mn|]. rewrite <- (Mt _ r n (in_mixed_constraint m x X) Ir Mn). exact Bn.
    - rewrite (Vl false c (in_plain_constraint m c C)). exact (V1 c C).
    - destruct (V2 x X) as [Y|(Er & r & n & Ir & Mn & Bn)]; [left; rewrite (Vl true _ (in_mixed_constraint m x X)); exact Y|right]. split; [exact Er|]. exists r, n. split; [exact Ir|]. split; [exact Mn|]. rewrite (Mt _ r n (in_mixed_constraint m x X) Ir Mn). exact Bn. }
  rewrite (valid_rules h m t R), (valid_rules h1 m1 _ R1), <- (constraints_kept h h1 m m1 t _ a R R1 A B1 B2 B3 Cr), Kb.
  assert (Kg : f_kind g = FRoot) by (destruct (rep_top_data R) as (g' & Dg & K); congruence).
  pose proof (rep_names _ _ _ R) as Nn. destruct t as [n d ts]. cbn [rdata kids rid] in *. subst d. cbn [named map] in Nn, Ns. cbn [map app fst] in Nn, Ns. apply NoDup_cons_iff in Nn. destruct Nn as (Nn & _).
  assert (Ab : forall k, In k ts -> agree_on (map fst (named k)) a b).
  { intros k Ik. apply agree_with_bool. intros X. apply Nn. apply in_map_iff in X. destruct X as (x & Ex & Ix). apply in_map_iff. exists x. split; [exact Ex|]. apply in_flat_map. eauto. }
  assert (Ba : forall k, In k ts -> agree_on (map fst (named k)) b a) by (intros k Ik x Ix; destruct (Ab k Ik x Ix); auto).
  assert (Bn : forall k e, In k ts -> rdata k = NFeature e -> a_bool b (f_name e) = a_bool a (f_name e)) by (intros k e Ik De; symmetry; apply (proj1 (Ab k Ik _ (name_in k k e (sub_refl k) De)))).
  assert (Bv : forall k v e, In k ts -> In v (kids k) -> rdata v = NFeature e -> a_bool b (f_name e) = a_bool a (f_name e)).
  { intros k v e Ik Iv De. symmetry. apply (proj1 (Ab k Ik _ (name_in v k e ltac:(destruct k; apply subtree_kid; exact Iv) De))). }
  assert (Bs : forall k x, In k ts -> In x (names_of (kids k)) -> a_bool b x = a_bool a x).
  { intros k x Ik Ix. unfold names_of in Ix. apply in_flat_map in Ix. destruct Ix as (v & Iv & Ix). destruct (rdata v) as [e|] eqn:De; [|destruct Ix]. destruct Ix as [<-|[]]. exact (Bv k v e Ik Iv De). }
  assert (Sg : a_bool b (f_name g) = true) by apply with_bool_same.
  rewrite !rules_node, !rules_at_feature.
  assert (Kids : selected a s -> forall k, In k ts -> (match rdata k with NFeature e => needs a (root_feature s) e /\ follows a (root_feature s) e
      | NRelationship r => (forall v e, In v (kids k) -> rdata v = NFeature e -> needs a (root_feature s) e) /\ chosen a r (root_feature s) (names_of (kids k)) end <->
    match rdata k with NFeature e => needs b g e /\ follows b g e | NRelationship r => (forall v e, In v (kids k) -> rdata v = NFeature e -> needs b g e) /\ chosen b r g (names_of (kids k)) end)).
  { intros Ss k Ik. unfold selected in Ss. destruct (rdata k) as [e|r] eqn:De.
    - unfold needs, follows, selected. rewrite Sg, (Bn k e Ik De). cbn [root_feature new_feature f_name]. rewrite Ss. tauto.
    - assert (Nd : (forall v e, In v (kids k) -> rdata v = NFeature e -> needs a (root_feature s) e) <-> (forall v e, In v (kids k) -> rdata v = NFeature e -> needs b g e)) by (split; intros _ v e _ _; unfold needs, selected; cbn [root_feature new_feature f_name]; rewrite ?Sg, ?Ss; auto).
      assert (Ch : chosen a r (root_feature s) (names_of (kids k)) <-> chosen b r g (names_of (kids k))); [|tauto]. unfold chosen, selected. cbn [root_feature new_feature f_name]. rewrite Sg, Ss. destruct r.
      + split; intros C _; destruct (C eq_refl) as (x & Ix & Sx & Un); exists x; (split; [exact Ix|]); (split; [rewrite <- Sx; (exact (Bs k x Ik Ix) || (symmetry; exact (Bs k x Ik Ix)))|]); intros y Iy Sy; apply Un; try exact Iy; rewrite <- Sy; (exact (Bs k y Ik Iy) || (symmetry; exact (Bs k y Ik Iy))).
      + split; intros C _; destruct (C eq_refl) as (x & Ix & Sx); exists x; (split; [exact Ix|]); rewrite <- Sx; (exact (Bs k x Ik Ix) || (symmetry; exact (Bs k x Ik Ix))). }
  split.
  - intros ((((V1 & V2) & V3) & V4) & Cs). specialize (V1 eq_refl). cbn [root_feature new_feature f_name] in V1. split; [exact V1|]. split; [|exact Cs]. split; [split; [split; [intros _; exact Sg|intros v st X; congruence]|intros k Ik; apply (Kids V1 k Ik); exact (V3 k Ik)]|].
    intros k Ik. exact (rules_agree a b k (Ab k Ik) (V4 k Ik)).
  - intros (Ss & (((V1 & V2) & V3) & V4) & Cs). split; [|exact Cs]. split; [split; [split; [intros _; exact Ss|intros v st X; discriminate X]|intros k Ik; apply (Kids Ss k Ik); exact (V3 k Ik)]|].
    intros k Ik. exact (rules_agree b a k (Ba k Ik) (V4 k Ik)).
Qed.
