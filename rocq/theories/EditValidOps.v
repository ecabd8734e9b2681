(** How the modifications change the valid configurations. *)
From Coq Require Import List ZArith Arith Bool Ascii String Permutation Lia.
From Verif Require Import Text TextProofs ConstraintModel ConstraintSpec SourceRangeModel ConfigurationModel FeatureTreeModel FeatureTreeSpec FeatureTreeProofs FeatureTransactionModel FeatureTransactionSpec FeatureEditSpec FeatureEditProofs FeatureOpsProofs FeatureDataProofs FeatureBuildSpec
  FeatureHistoryProofs FeatureTransactionFinal SolverModel SolverSpec SolverLoadProofs GeneratorProofs XmlTripWrite XmlModel XmlSpec EditValidSpec EditValidProofs.
Import ListNotations.
Local Open Scope list_scope.

(** ** Features of edited trees *)
Definition carries (t : tree) (i : nid) (f : feature) : Prop := exists u, subtree u t /\ rid u = i /\ rdata u = NFeature f.
Lemma carries_kid n d ts k i f : In k ts -> carries k i f -> carries (Node n d ts) i f.
Proof. intros I (u & U & E & D). exists u. split; [eapply sub_kid; eauto|auto]. Qed.
Lemma carries_top n f ts : carries (Node n (NFeature f) ts) n f.
Proof. eexists. split; [constructor|auto]. Qed.
Lemma carries_node n d ts i f : carries (Node n d ts) i f -> (n = i /\ d = NFeature f) \/ exists k, In k ts /\ carries k i f.
Proof. intros (u & U & E & D). inversion U as [|? ? ? k Ik Uk]; subst; [left; split; [reflexivity|exact D]|]. right. exists k. split; [exact Ik|]. exists u. auto. Qed.
Lemma carries_edit p g t s i f : NoDup (ids t) -> subtree s t -> rid s = p -> (carries s i f -> carries (g s) i f) -> carries t i f -> carries (edit p g t) i f.
Proof.
  induction t as [n d ts IH] using tree_ind'. rewrite Forall_forall in IH. intros N S0 Es H C. cbn [edit]. destruct (Nat.eqb_spec n p) as [->|Nn].
  - pose proof (subtree_top s p d ts N S0 Es) as E. rewrite <- E in C |- *. exact (H C).
  - apply carries_node in C. destruct C as [(<- & ->)|(k & Ik & C)]; [apply carries_top|]. apply (carries_kid n d _ (edit p g k)); [apply in_map; exact Ik|].
    assert (Nk : NoDup (ids k)) by (cbn [ids] in N; apply NoDup_cons_iff in N; eapply nodup_flat_map_in; [exact (proj2 N)|exact Ik]).
    destruct (in_dec Nat.eq_dec p (ids k)) as [X|X]; [|rewrite edit_absent; assumption]. destruct (ids_subtree p k X) as (v & V & Ev). assert (v = s) as -> by (apply (subtree_unique (Node n d ts)); [exact N|eapply sub_kid; eauto|exact S0|congruence]).
    exact (IH k Ik Nk V Ev H C).
Qed.
Lemma carries_add s k i f : carries s i f -> carries (add_kid k s) i f.
Proof. destruct s as [n d ts]. unfold add_kid, with_kids. cbn [rid rdata kids]. intros C. apply carries_node in C. destruct C as [(<- & ->)|(k' & Ik & C)]; [apply carries_top|]. apply (carries_kid n d _ k'); [apply in_or_app; left; exact Ik|exact C]. Qed.
Lemma carries_drop u s i f : NoDup (ids u) -> In s (kids u) -> ~ In i (ids s) -> carries u i f -> carries (drop_kid (rid s) u) i f.
Proof.
  intros N I X C. destruct (kids_split u s N I) as (l & r & E1 & E2 & _). unfold drop_kid, with_kids in *. cbn [kids] in E2. rewrite E2. destruct u as [n d ts]. cbn [kids rid rdata] in *. subst ts.
  apply carries_node in C. destruct C as [(<- & ->)|(k & Ik & C)]; [apply carries_top|]. apply (carries_kid n d _ k); [|exact C]. apply in_or_app. apply in_app_or in Ik. destruct Ik as [Ik|[->|Ik]]; [left; exact Ik| |right; exact Ik].
  exfalso. apply X. destruct C as (v & V & <- & _). eapply subtree_ids; [exact V|apply rid_in_ids].
Qed.
Lemma carries_group n k us s i f : Permutation us (kids s) -> carries s i f -> carries (with_kids [Node n (NRelationship k) us] s) i f.
Proof.
  destruct s as [n0 d ts]. unfold with_kids. cbn [rid rdata kids]. intros P C. apply carries_node in C. destruct C as [(<- & ->)|(k' & Ik & C)]; [apply carries_top|].
  eapply carries_kid; [left; reflexivity|]. eapply carries_kid; [|exact C]. eapply Permutation_in; [apply Permutation_sym; exact P|exact Ik].
Qed.
Lemma carries_feature_at h m t i f : represents h m t -> carries t i f -> feature_at h i = Some f.
Proof. intros R (u & U & <- & D). exact (rep_feature_at h m t u f R U D). Qed.
Lemma resolved_carries h m t c r : represents h m t -> all_resolved m -> In c (all_constraints m) -> In r (leaves (c_expr c)) -> exists i f, r = Ref i /\ carries t i f.
Proof.
  intros R A C L. destruct (A c r C L) as (s & i & -> & G). exists i. apply (rep_find R) in G. apply named_subtree in G. destruct G as (v & f & V & Ei & Ef & _). exists f. split; [reflexivity|]. exists v. auto.
Qed.

(** ** Constraints *)
Lemma meaning_ext leaf leaf' d e : (forall r, In r (leaves e) -> leaf r = leaf' r) -> meaning xorb leaf d e = meaning xorb leaf' d e.
Proof.
  induction e as [o l IHl r IHr|o e IH|n|x]; cbn [leaves meaning]; intros H.
  - rewrite IHl, IHr; [reflexivity| |]; intros y Y; apply H, in_or_app; auto.
  - rewrite IH by exact H. reflexivity.
  - reflexivity.
  - apply H. left. reflexivity.
Qed.
(** Both heaps have the same feature, up to constraints and locations. *)
Definition looks (h h' : heap) (r : cref) : Prop :=
  match r with Own _ => True | Ref i => exists f f', feature_at h i = Some f /\ feature_at h' i = Some f' /\ f_kind f' = f_kind f /\ f_name f' = f_name f end.
Lemma looks_leaf h h' mixed a r : looks h h' r -> leaf_value h mixed a r = leaf_value h' mixed a r.
Proof. destruct r as [s|i]; [reflexivity|]. intros (f & f' & E & E' & K & N). unfold leaf_value. rewrite E, E', K, N. reflexivity. Qed.
Lemma looks_value h h' mixed a e : (forall r, In r (leaves e) -> looks h h' r) -> value_of h mixed a e = value_of h' mixed a e.
Proof. intros H. apply meaning_ext. intros r I. apply looks_leaf. exact (H r I). Qed.
Lemma looks_mentions h h' r b n : looks h h' r -> SolverSpec.mentions h r b n -> SolverSpec.mentions h' r b n.
Proof. destruct r as [s|i]; [trivial|]. intros (f & f' & E & E' & K & N) (g & Eg & -> & ->). rewrite E in Eg. injection Eg as <-. exists f'. rewrite K, N. auto. Qed.
Lemma looks_sym h h' r : looks h h' r -> looks h' h r.
Proof. destruct r as [s|i]; [trivial|]. intros (f & f' & E & E' & K & N). exists f', f. auto. Qed.
Lemma looks_mixed_one h h' a e k q : (forall r, In r (leaves e) -> looks h h' r) -> mixed_holds h a e k q -> mixed_holds h' a e k q.
Proof.
  intros H [V|(E & r & n & I & M & B)]; [left; rewrite <- (looks_value h h' true a e H); exact V|]. right. split; [exact E|]. exists r, n. split; [exact I|]. split; [exact (looks_mentions _ _ _ _ _ (H r I) M)|exact B].
Qed.
Lemma looks_mixed h h' a e k q : (forall r, In r (leaves e) -> looks h h' r) -> (mixed_holds h a e k q <-> mixed_holds h' a e k q).
Proof. intros H. split; apply looks_mixed_one; intros r I; [exact (H r I)|apply looks_sym, H; exact I]. Qed.
Lemma in_mixed_constraint m x : In x (m_mixed m) -> In (x_con x) (all_constraints m).
Proof. intros I. unfold all_constraints. apply in_or_app. right. apply in_or_app. right. apply in_map. exact I. Qed.
Lemma in_plain_constraint m c : In c (m_boolean m ++ m_nonboolean m) -> In c (all_constraints m).
Proof. intros I. unfold all_constraints. rewrite app_assoc. apply in_or_app. left. exact I. Qed.
Lemma constraints_same h h' m m' a : m_boolean m' = m_boolean m -> m_nonboolean m' = m_nonboolean m -> m_mixed m' = m_mixed m ->
  (forall c r, In c (all_constraints m) -> In r (leaves (c_expr c)) -> looks h h' r) -> (constraints_hold h m a <-> constraints_hold h' m' a).
Proof.
  intros E1 E2 E3 H. unfold constraints_hold. rewrite E1, E2, E3. split; intros (A & B); (split; [intros c I|intros x I]).
  - rewrite <- (looks_value h h' false a _ (fun r J => H c r (in_plain_constraint m c I) J)). exact (A c I).
  - apply (looks_mixed h h' a _ _ _ (fun r J => H _ r (in_mixed_constraint m x I) J)). exact (B x I).
  - rewrite (looks_value h h' false a _ (fun r J => H c r (in_plain_constraint m c I) J)). exact (A c I).
  - apply (looks_mixed h h' a _ _ _ (fun r J => H _ r (in_mixed_constraint m x I) J)). exact (B x I).
Qed.
Lemma constraints_kept h h' m m' t t' a : represents h m t -> represents h' m' t' -> all_resolved m -> m_boolean m' = m_boolean m -> m_nonboolean m' = m_nonboolean m -> m_mixed m' = m_mixed m ->
  (forall c i f, In c (all_constraints m) -> In (Ref i) (leaves (c_expr c)) -> carries t i f -> carries t' i f) -> (constraints_hold h m a <-> constraints_hold h' m' a).
Proof.
  intros R R' A E1 E2 E3 H. apply constraints_same; [exact E1|exact E2|exact E3|]. intros c r C L. destruct (resolved_carries h m t c r R A C L) as (i & f & -> & Cf). exists f, f. split; [exact (carries_feature_at h m t i f R Cf)|]. split; [|auto].
  apply (carries_feature_at h' m' t' i f R'). eapply H; eauto.
Qed.

(** ** Rules *)
Lemma rules_at_feature a n f ts : rules_at a (Node n (NFeature f) ts) <->
  ((f_kind f = FRoot -> selected a (f_name f)) /\ has_value a f) /\ forall k, In k ts -> match rdata k with NFeature g => needs a f g /\ follows a f g
    | NRelationship r => (forall v g, In v (kids k) -> rdata v = NFeature g -> needs a f g) /\ chosen a r f (names_of (kids k)) end.
Proof. unfold rules_at. cbn [rdata kids]. tauto. Qed.
Lemma rules_add a s g n f : rdata s = NFeature g -> f_kind f <> FRoot ->
  (rules a (add_kid (Node n (NFeature f) []) s) <-> rules a s /\ needs a g f /\ follows a g f /\ has_value a f).
Proof.
  intros D K. destruct s as [i d ts]. cbn in D. subst d. unfold add_kid, with_kids. cbn [rid rdata kids]. rewrite !rules_node, !rules_at_feature. split.
  - intros (((A1 & A2) & A3) & B). assert (L : In (Node n (NFeature f) []) (ts ++ [Node n (NFeature f) []])) by (apply in_or_app; right; left; reflexivity).
    pose proof (A3 _ L) as X. cbn [rdata] in X. pose proof (B _ L _ (sub_refl _)) as Y. apply rules_at_feature in Y. split; [split; [split; [auto|intros k I; apply A3, in_or_app; auto]|intros k I; apply B, in_or_app; auto]|]. destruct X, Y as ((_ & Y) & _). auto.
  - intros (((A & A3) & B) & X1 & X2 & X3). split; [split; [exact A|]|]; intros k I; apply in_app_or in I; destruct I as [I|[<-|[]]]; [exact (A3 k I)|cbn [rdata]; auto|exact (B k I)|].
    apply rules_node. split; [apply rules_at_feature; split; [split; [intros E; contradiction|exact X3]|intros k []]|intros k []].
Qed.
Lemma rules_link a n g l s r f : rdata s = NFeature f ->
  (rules a (Node n (NFeature g) (l ++ s :: r)) <-> rules a (Node n (NFeature g) (l ++ r)) /\ needs a g f /\ follows a g f /\ rules a s).
Proof.
  intros D. rewrite !rules_node, !rules_at_feature. assert (L : In s (l ++ s :: r)) by (apply in_or_app; right; left; reflexivity). assert (Sub : forall k, In k (l ++ r) -> In k (l ++ s :: r)) by (intros k I; apply in_app_or in I; apply in_or_app; destruct I; [auto|right; right; auto]). split.
  - intros ((A & A3) & B). pose proof (A3 s L) as X. rewrite D in X. split; [|destruct X; split; [auto|split; [auto|exact (B s L)]]]. split; [split; [exact A|]|]; intros k I; [exact (A3 k (Sub k I))|exact (B k (Sub k I))].
  - intros (((A & A3) & B) & X1 & X2 & X3). split; [split; [exact A|]|]; intros k I; apply in_app_or in I; destruct I as [I|[<-|I]];
      [apply A3, in_or_app; auto|rewrite D; auto|apply A3, in_or_app; auto|apply B, in_or_app; auto|exact X3|apply B, in_or_app; auto].
Qed.
Lemma rules_drop a u g s f : NoDup (ids u) -> rdata u = NFeature g -> In s (kids u) -> rdata s = NFeature f ->
  (rules a u <-> rules a (drop_kid (rid s) u) /\ needs a g f /\ follows a g f /\ rules a s).
Proof.
  intros N D I Ds. destruct (kids_split u s N I) as (l & r & E1 & E2 & _). unfold drop_kid, with_kids in *. cbn [kids] in E2. rewrite E2. destruct u as [n d ts]. cbn [kids rid rdata] in *. subst d ts. exact (rules_link a n g l s r f Ds).
Qed.
Lemma rules_add_tree a p g s f : rdata p = NFeature g -> rdata s = NFeature f -> (rules a (add_kid s p) <-> rules a p /\ needs a g f /\ follows a g f /\ rules a s).
Proof. intros D Ds. destruct p as [n d ts]. cbn in D. subst d. unfold add_kid, with_kids. cbn [rid rdata kids]. rewrite (rules_link a n g ts s [] f Ds), app_nil_r. tauto. Qed.

(** The rules only speak about the names of features. *)
Lemma needs_agree a b g f : a_bool a (f_name f) = a_bool b (f_name f) -> a_bool a (f_name g) = a_bool b (f_name g) -> needs a g f -> needs b g f.
Proof. unfold needs, selected. intros -> ->. auto. Qed.
Definition agree_on (ns : list text) (a b : assignment) : Prop := forall n, In n ns -> a_bool a n = a_bool b n /\ a_int a n = a_int b n.
Lemma name_in u t f : subtree u t -> rdata u = NFeature f -> In (f_name f) (map fst (named t)).
Proof. intros U D. apply (in_map fst _ (f_name f, rid u)). apply named_subtree. exists u, f. auto. Qed.
Lemma rules_agree a b t : agree_on (map fst (named t)) a b -> rules a t -> rules b t.
Proof.
  intros A Ru u U. specialize (Ru u U). destruct u as [n d ts]. destruct d as [f|]; [|exact I]. apply rules_at_feature in Ru. apply rules_at_feature. destruct Ru as ((R1 & R2) & R3).
  assert (Nf : In (f_name f) (map fst (named t))) by exact (name_in _ t f U eq_refl). destruct (A _ Nf) as (Ab & Ai).
  assert (K : forall k, In k ts -> subtree k t) by (intros k Ik; exact (subtree_trans _ _ _ (subtree_kid n (NFeature f) ts k Ik) U)).
  split; [split|].
  - intros E. unfold selected in *. rewrite <- Ab. exact (R1 E).
  - intros v st E. rewrite <- Ai. exact (R2 v st E).
  - intros k Ik. specialize (R3 k Ik). specialize (K k Ik). destruct (rdata k) as [g|r] eqn:Dk.
    + destruct (A _ (name_in k t g K Dk)) as (Gb & _). unfold needs, follows, selected in *. rewrite <- Ab, <- Gb. exact R3.
    + assert (M : forall v g, In v (kids k) -> rdata v = NFeature g -> a_bool a (f_name g) = a_bool b (f_name g)).
      { intros v g Iv Dv. destruct k as [n' d' vs]. exact (proj1 (A _ (name_in v t g (subtree_trans _ _ _ (subtree_kid n' d' vs v Iv) K) Dv))). }
      destruct R3 as (R3 & R4). split; [intros v g Iv Dv; exact (needs_agree a b f g (M v g Iv Dv) Ab (R3 v g Iv Dv))|].
      assert (Mn : forall s, In s (names_of (kids k)) -> a_bool a s = a_bool b s).
      { intros s Is. unfold names_of in Is. apply in_flat_map in Is. destruct Is as (v & Iv & Is). destruct (rdata v) as [g|] eqn:Dv; [|destruct Is]. destruct Is as [<-|[]]. exact (M v g Iv Dv). }
      unfold chosen, selected in *. rewrite <- Ab. intros E. specialize (R4 E). destruct r.
      * destruct R4 as (s & Is & Es & Un). exists s. split; [exact Is|]. split; [rewrite <- (Mn s Is); exact Es|]. intros s' Is' Es'. apply Un; [exact Is'|rewrite (Mn s' Is'); exact Es'].
      * destruct R4 as (s & Is & Es). exists s. split; [exact Is|]. rewrite <- (Mn s Is). exact Es.
Qed.

Lemma meaning_div leaf d d' e : (forall z, d z = d' z) -> meaning xorb leaf d e = meaning xorb leaf d' e.
Proof.
  intros E. induction e as [o l IHl r IHr|o e IH|n|x]; cbn [meaning]; [|rewrite IH; reflexivity|reflexivity|reflexivity]. rewrite IHl, IHr. destruct (meaning xorb leaf d' l) as [[]|]; [reflexivity| |reflexivity]. destruct (meaning xorb leaf d' r) as [[]|]; [reflexivity| |reflexivity].
  destruct o; try reflexivity. cbn. unfold quotient. rewrite E. reflexivity.
Qed.
(** Assignments that agree on the features of the model and on division by zero. *)
Lemma valid_agree h m t a b : represents h m t -> all_resolved m -> agree_on (map fst (named t)) a b -> (forall z, a_div0 a z = a_div0 b z) ->
  SolverSpec.valid h m a -> SolverSpec.valid h m b.
Proof.
  intros R A Ag Dv V. apply (valid_rules h m t R) in V. apply (valid_rules h m t R). destruct V as (V & V1 & V2). split; [exact (rules_agree a b t Ag V)|].
  assert (Lf : forall mixed c r, In c (all_constraints m) -> In r (leaves (c_expr c)) -> leaf_value h mixed a r = leaf_value h mixed b r).
  { intros mixed c r C L. destruct (resolved_carries h m t c r R A C L) as (i & f & -> & Cf). cbn [leaf_value]. rewrite (carries_feature_at h m t i f R Cf). destruct Cf as (u & U & _ & D). destruct (Ag _ (name_in u t f U D)) as (E1 & E2). rewrite E1, E2. reflexivity. }
  assert (Vl : forall mixed c, In c (all_constraints m) -> value_of h mixed a (c_expr c) = value_of h mixed b (c_expr c)).
  { intros mixed c C. unfold value_of. rewrite (meaning_ext _ (leaf_value h mixed b) _ _ (fun r => Lf mixed c r C)). apply meaning_div. exact Dv. }
  split.
  - intros c C. rewrite <- (Vl false c (in_plain_constraint m c C)). exact (V1 c C).
  - intros x X. destruct (V2 x X) as [Y|(E & r & n & Ir & M & B)]; [left; rewrite <- (Vl true _ (in_mixed_constraint m x X)); exact Y|right]. split; [exact E|]. exists r, n. split; [exact Ir|]. split; [exact M|].
    destruct (resolved_carries h m t _ r R A (in_mixed_constraint m x X) Ir) as (i & f & -> & Cf). destruct M as (f' & Ef & _ & ->). rewrite (carries_feature_at h m t i f R Cf) in Ef. injection Ef as <-. destruct Cf as (u & U & _ & D). rewrite <- (proj1 (Ag _ (name_in u t f U D))). exact B.
Qed.
