(** Careful modifications are defined and keep models in good condition. *)
From Coq Require Import List ZArith Arith Bool Ascii String Permutation Lia.
From Verif Require Import Text TextProofs ConstraintModel ConstraintSpec SourceRangeModel SourceRangeSpec SourceRangeProofs FeatureTreeModel FeatureTreeSpec FeatureTreeProofs FeatureTreeFinal FeatureTransactionModel FeatureTransactionSpec
  FeatureEditSpec FeatureEditProofs FeatureOpsProofs FeatureRemoveProofs FeatureGroupProofs FeatureDataProofs FeatureRootProofs FeatureHistoryProofs FeatureTransactionFinal FeatureRecursiveProofs XmlModel XmlSpec RegisterSpec RegisterProofs RegisterFinal SafeSpec.
Import ListNotations.
Local Open Scope nat_scope.

Lemma remove_location_defined ls l : remove_location ls l <> None <-> exists x, In x ls /\ same_range x l.
Proof.
  induction ls as [|x ls IH]; cbn [remove_location]; [split; [congruence|intros (x & [] & _)]|]. destruct (range_eqb x l) eqn:E.
  - split; [|discriminate]. intros _. exists x. split; [left; reflexivity|]. apply range_eqb_spec. exact E.
  - transitivity (remove_location ls l <> None); [destruct (remove_location ls l); cbn; split; congruence|]. rewrite IH. split; intros (y & I & S'); [exists y; split; [right; exact I|exact S']|].
    destruct I as [<-|I]; [|exists y; auto]. apply range_eqb_spec in S'. congruence.
Qed.

Section Steps.
Variable ord : list nid -> list nid.
Hypothesis ord_ok : is_order ord.
Variables (h : heap) (m : fmodel) (t : tree).
Hypothesis R : represents h m t.

Lemma below_near s : subtree s t -> (has_feature_below h (rid s) <-> near (kids s) <> []).
Proof.
  intros S1. destruct (holds_sub h None t s (rep_holds _ _ _ R) S1) as (q & Hs). pose proof (subtree_nodup s t S1 (rep_ids _ _ _ R)) as Ds. destruct s as [n d ts]. cbn [rid kids].
  pose proof (get_children_tree ord is_feature h q n d ts (rep_ok _ _ _ R) Hs Ds) as E. destruct (children_are_nearest ord is_feature h None n _ ord_ok E) as (_ & K). fold (near ts) in K. split.
  - intros (k & x & N) Z. rewrite Z in K. cbn [map] in K. rewrite (ord_nil ord ord_ok) in K. apply (K x). exists k. auto.
  - intros N. destruct (near ts) as [|u l] eqn:Eu; [congruence|]. destruct (proj1 (K (rid u))) as (k & X & _); [apply (Permutation_in _ (Permutation_sym (ord_ok _))); left; reflexivity|]. exists k, (rid u). exact X.
Qed.
Lemma goes_near b s : subtree s t -> (goes h b (rid s) <-> b = true \/ near (kids s) = []).
Proof.
  intros S1. unfold goes. rewrite (below_near s S1). destruct (near (kids s)) as [|u l]; split; intros [X|X]; auto; try discriminate X. destruct X. discriminate.
Qed.
Lemma root_top i : m_root m = Some i <-> i = rid t.
Proof. rewrite (rep_root _ _ _ R). split; congruence. Qed.

Lemma remove_cases r b i : ref_ok m r -> resolve m r = Some i -> exists s f, subtree s t /\ rid s = i /\ rdata s = NFeature f /\
  ((i = rid t /\ (b = true \/ near (kids s) = []) /\ exec ord (ORemoveFeature r b) (h, m) = None) \/
   (b = false /\ near (kids s) <> [] /\ exec ord (ORemoveFeature r b) (h, m) = Some ((h, m), Some NON_LEAF_NODE)) \/
   (i <> rid t /\ (b = true \/ near (kids s) = []) /\ exists h' m', exec ord (ORemoveFeature r b) (h, m) = Some ((h', m'), None) /\
      represents h' m' (prune (rid s) t) /\ same_rest m m' /\ (forall i, In i (nodes m') <-> In i (nodes m) /\ ~ In i (ids s)))).
Proof.
  intros A E. destruct (rep_resolve R r i A E) as (s & f & S1 & Es & Ed). exists s, f. split; [exact S1|]. split; [exact Es|]. split; [exact Ed|]. subst i.
  assert (D : (b = true \/ near (kids s) = []) \/ b = false /\ near (kids s) <> []) by (destruct b; auto; destruct (near (kids s)); auto; right; split; [reflexivity|discriminate]).
  destruct D as [D|(-> & D)]; [|right; left; split; [reflexivity|]; split; [exact D|]; exact (exec_remove_inner ord ord_ok h m t r s R E S1 D)].
  destruct (Nat.eq_dec (rid s) (rid t)) as [Et|Nt].
  - left. split; [exact Et|]. split; [exact D|]. assert (s = t) as -> by (apply (subtree_unique t); auto; [apply (rep_ids _ _ _ R)|constructor]). exact (exec_remove_root ord ord_ok h m t r b R E D).
  - right. right. split; [exact Nt|]. split; [exact D|]. assert (F : is_feature (rdata s) = true) by (rewrite Ed; reflexivity).
    destruct (remove_exact ord ord_ok b h m t r s R E S1 F Nt D) as (h' & m' & X & R' & Sr & Nd & _). exists h', m'. auto.
Qed.

Lemma names_given c : (forall i, In (Ref i) (leaves c) -> exists f, feature_at h i = Some f) <-> exists names, map (cref_name h) (leaves c) = map Some names.
Proof.
  split.
  - intros K. generalize (leaves c) K. induction l as [|r l IH]; intros K'; [exists []; reflexivity|]. destruct IH as (ns & E); [intros i I; apply K'; right; exact I|].
    assert (X : exists s, cref_name h r = Some s) by (destruct r as [s|i]; [exists s; reflexivity|]; destruct (K' i (or_introl eq_refl)) as (f & F); exists (f_name f); cbn; unfold name_at; rewrite F; reflexivity).
    destruct X as (s & X). exists (s :: ns). cbn [map]. rewrite X, E. reflexivity.
  - intros (ns & E) i I. apply (in_map (cref_name h)) in I. rewrite E in I. apply in_map_iff in I. destruct I as (s & I & _). cbn in I. unfold name_at in I. destruct (feature_at h i) as [f|]; [exists f; reflexivity|discriminate].
Qed.

(** Modifications are defined exactly if the caller keeps to [defined_op]. *)
Theorem defined_exactly o : allowed (h, m) o -> (exec ord o (h, m) <> None <-> defined_op (h, m) o).
Proof.
  intros A. destruct o as [f p|r b|k r|r|r l|r l|k c|s|s|s|s|rp rc]; cbn [defined_op]; cbn [allowed] in A; try (split; [intros _; exact Logic.I|intros _; discriminate]).
  - split; [intros _; exact Logic.I|intros _]. destruct A as (K & P). destruct (get_feature m (f_name f)) as [i|] eqn:G; [rewrite (exec_add_feature_present ord h m f p i G); discriminate|].
    assert (exists s, subtree s t /\ is_feature (rdata s) = true /\ (p = Some (rid s) \/ p = None /\ s = t)) as (s & S1 & F & Ps).
    { destruct p as [q|].
      - specialize (P q eq_refl). apply (rep_feature_node R) in P. destruct P as (s & x & S1 & Es & F). exists s. subst q. rewrite F. auto.
      - exists t. split; [constructor|]. destruct (rep_top_data R) as (f0 & -> & _). split; [reflexivity|]. right. auto. }
    destruct (exec_add_feature_ok ord h m t f p s R K G S1 F Ps) as (h' & m' & E' & _). rewrite E'. discriminate.
  - destruct (resolve m r) as [i|] eqn:Er; [|rewrite (exec_remove_missing ord h m r b Er); split; [congruence|discriminate]].
    destruct (remove_cases r b i A Er) as (s & f & S1 & Es & Ed & X). subst i. pose proof (goes_near b s S1) as G.
    destruct X as [(Et & D & X)|[(-> & D & X)|(Nt & D & h' & m' & X & _)]]; rewrite X.
    + split; [congruence|]. intros K. exfalso. apply (K (rid s) eq_refl); [apply root_top; exact Et|]. apply G. exact D.
    + split; [|discriminate]. intros _ i E _ Go. injection E as <-. apply G in Go. destruct Go as [Go|Go]; [discriminate|contradiction].
    + split; [|discriminate]. intros _ i E Rt. injection E as <-. apply root_top in Rt. contradiction.
  - destruct A as (A & N). destruct (resolve m r) as [i|] eqn:Er.
    + split; [eauto|intros _]. destruct (rep_resolve R r i A Er) as (s & x & S1 & Es & Ed). subst i. assert (is_feature (rdata s) = true) as F by (rewrite Ed; reflexivity).
      pose proof (no_own_relationship h m t s R S1 (N _ eq_refl)) as Og. destruct (exec_add_relationship_ok ord ord_ok h m t k r s R Er S1 F Og) as (h' & us & E' & _). rewrite E'. discriminate.
    + split; [|intros (i & X); discriminate]. intros X. exfalso. apply X. cbn [exec]. unfold exec_add_relationship, store_relationship, h_alloc. replace (resolve _ r) with (resolve m r) by (destruct r; reflexivity). rewrite Er. reflexivity.
  - destruct A as (A & N). destruct (resolve m r) as [i|] eqn:Er; [|cbn [exec]; unfold exec_remove_relationship; rewrite Er; split; [congruence|discriminate]].
    destruct (rep_resolve R r i A Er) as (s & x & S1 & Es & Ed). subst i. assert (is_feature (rdata s) = true) as F by (rewrite Ed; reflexivity).
    destruct (holds_sub h None t s (rep_holds _ _ _ R) S1) as (q & Hs). pose proof (subtree_nodup s t S1 (rep_ids _ _ _ R)) as Ds.
    destruct (only_own_relationships h m t s R S1 F (fun k x => N _ k x eq_refl)) as [Z|(a & i & k & us & b & Ek & Et)].
    + destruct s as [n d ts]. cbn [rid kids] in *. pose proof (get_children_tree ord is_relationship h q n d ts (rep_ok _ _ _ R) Hs Ds) as E. split.
      * intros X. exfalso. apply X. cbn [exec]. unfold exec_remove_relationship. rewrite Er. unfold child_relationships. rewrite E, Z. cbn [map bind]. rewrite (ord_nil ord ord_ok). reflexivity.
      * intros K. destruct (K n eq_refl) as (x0 & X). destruct (children_are_nearest ord is_relationship h None n _ ord_ok E) as (_ & K'). rewrite Z in K'. cbn [map] in K'. rewrite (ord_nil ord ord_ok) in K'. exfalso. apply (K' x0). exists 1. auto.
    + split.
      * intros _ j E. injection E as <-. exists i. destruct (rep_cell R s S1) as (q' & C). assert (Ik : In (Node i (NRelationship k) us) (kids s)) by (rewrite Ek; apply in_or_app; right; left; reflexivity).
        pose proof (rep_kid R s (Node i (NRelationship k) us) S1 Ik) as Ck. eapply near_here; [exact C|cbn [n_edges]; exact (in_map rid _ _ Ik)|exact Ck|reflexivity].
      * intros _. destruct s as [n d ts]. cbn [rid rdata kids] in *. subst ts. destruct (exec_remove_relationship_ok ord ord_ok h m t r n d a i k us b R Er S1 F Et) as (h' & m' & us' & E' & _). rewrite E'. discriminate.
  - destruct (resolve m r) as [i|] eqn:Er; [|cbn [exec]; unfold exec_add_location; rewrite Er; split; [intros X; exfalso; apply X; reflexivity|intros (i & X); discriminate]].
    destruct (rep_resolve R r i A Er) as (s & f & S1 & Es & Ed). subst i. destruct (exec_location_ok ord h m t r s f true l (f_locations f ++ [l]) R Er S1 Ed eq_refl) as (h' & E' & _). rewrite E'. split; [eauto|discriminate].
  - destruct (resolve m r) as [i|] eqn:Er; [|cbn [exec]; unfold exec_remove_location; rewrite Er; split; [intros X; exfalso; apply X; reflexivity|intros (i & f & x & X & _); discriminate]].
    destruct (rep_resolve R r i A Er) as (s & f & S1 & Es & Ed). subst i. assert (F : feature_at h (rid s) = Some f) by exact (rep_feature_at h m t s f R S1 Ed). pose proof (remove_location_defined (f_locations f) l) as Dl.
    destruct (remove_location (f_locations f) l) as [ls|] eqn:El.
    + destruct (exec_location_ok ord h m t r s f false l ls R Er S1 Ed El) as (h' & E' & _). rewrite E'. split; [|discriminate]. intros _. destruct (proj1 Dl) as (x & I & Sx); [discriminate|]. exists (rid s), f, x. auto.
    + split.
      * intros X. exfalso. apply X. cbn [exec]. unfold exec_remove_location. rewrite Er. cbn [bind]. unfold modify_feature. destruct (rep_cell R s S1) as (q & C). rewrite C. cbn [bind n_data]. rewrite Ed, El. reflexivity.
      * intros (i & g & x & Ei & G & I & Sx). injection Ei as <-. rewrite F in G. injection G as <-. destruct (proj2 Dl); [exists x; auto|reflexivity].
  - rewrite (names_given c). split.
    + intros X. destruct (exec ord (OAddConstraint k c) (h, m)) as [[w e]|] eqn:E; [|congruence]. cbn [exec] in E. unfold exec_add_constraint in E.
      destruct (connect _ _ _ _ _ _) as [[[[c' p] h'] b]|] eqn:Ec; [|discriminate]. apply connect_names in Ec; [exact Ec|]. intros s i G. apply (rep_find R) in G. apply named_subtree in G.
      destruct G as (v & f & V & Ei & Ef & En). subst i. exists f. exact (rep_feature_at h m t v f R V Ef).
    + intros (ns & Ns). destruct (exec_add_constraint_ok ord h m t k c ns R Ns) as (h' & c' & E' & _). rewrite E'. discriminate.
  - split; [intros _; exact Logic.I|intros _]. destruct (get_feature m s) as [i|] eqn:G; [|destruct (exec_set_root_ok ord h m t s R G) as (h' & m' & E' & _); rewrite E'; discriminate].
    destruct (Nat.eq_dec i (rid t)) as [->|N]; [|rewrite (exec_set_root_present ord h m t s i R G N); discriminate].
    destruct (rep_top_data R) as (f0 & Ef & _). rewrite (exec_set_root_same ord h m t s f0 R Ef); [discriminate|].
    apply (rep_find R) in G. apply named_subtree in G. destruct G as (v & f & V & Ei & Ev & En). assert (v = t) as -> by (apply (subtree_unique t); auto; [apply (rep_ids _ _ _ R)|constructor]). congruence.
  - split; [intros _; exact Logic.I|intros _]. destruct A as (Ap & Ac & N). destruct (resolve m rc) as [c|] eqn:Ec; [|cbn [exec]; unfold exec_add_child; rewrite Ec; discriminate].
    destruct (resolve m rp) as [p|] eqn:Ep; [|cbn [exec]; unfold exec_add_child; rewrite Ec, Ep; discriminate].
    destruct (rep_resolve R rc c Ac Ec) as (s & x & S1 & Es & Ed). subst c. assert (is_feature (rdata s) = true) as F by (rewrite Ed; reflexivity).
    pose proof (rep_resolve_node R rp p Ap Ep) as Ip. pose proof (N p (rid s) eq_refl eq_refl) as Nr. destruct (exec_add_child_ok ord h m t rp rc p s R Ep Ec Ip S1 F Nr) as (h' & E' & _). rewrite E'. discriminate.
Qed.

(** ** Constraints stay about features of the model *)
Lemma known_feature i : (exists s, get_feature m s = Some i) <-> In i (map snd (m_features m)).
Proof.
  rewrite (rep_feature_node R i). split.
  - intros (s & G). apply (rep_find R) in G. apply named_subtree in G. destruct G as (v & f & V & Ei & Ef & _). exists v, f. auto.
  - intros (v & f & V & Ei & Ef). exists (f_name f). apply (rep_find R). apply named_subtree. exists v, f. auto.
Qed.
Lemma resolved_ids : all_resolved m <-> (forall c r, In c (all_constraints m) -> In r (leaves (c_expr c)) -> exists i, r = Ref i) /\ forall i, in_constraint m i -> In i (map snd (m_features m)).
Proof.
  split.
  - intros A. split; [intros c r I J; destruct (A c r I J) as (s & i & E & _); eauto|]. intros i (c & I & J). destruct (A c _ I J) as (s & j & E & G). injection E as <-. apply known_feature. eauto.
  - intros (A & B) c r I J. destruct (A c r I J) as (i & ->). destruct (proj2 (known_feature i) (B i (ex_intro _ c (conj I J)))) as (s & G). eauto.
Qed.
End Steps.

Lemma resolved_kept h m t h' m' t' : represents h m t -> represents h' m' t' -> all_constraints m' = all_constraints m -> all_resolved m ->
  (all_resolved m' <-> forall i, in_constraint m i -> In i (map snd (m_features m')) ).
Proof.
  intros R R' E A. rewrite (resolved_ids h' m' t' R'). unfold in_constraint. rewrite E. apply (resolved_ids h m t R) in A. destruct A as (A & _). tauto.
Qed.
Lemma same_rest_constraints m m' : same_rest m m' -> all_constraints m' = all_constraints m.
Proof. intros (_ & _ & _ & E1 & E2 & E3). unfold all_constraints. rewrite E1, E2, E3. reflexivity. Qed.
Lemma prune_subtree f : forall t v, subtree v (prune f t) -> exists u, subtree u t /\ rid u = rid v /\ rdata u = rdata v.
Proof.
  induction t as [n d ts IH] using tree_ind'. intros v S1. cbn [prune] in S1. inversion S1 as [|? ? ? k K S2]; subst; [exists (Node n d ts); split; [constructor|split; reflexivity]|].
  apply in_flat_map in K. destruct K as (x & X & K). destruct (Nat.eqb (rid x) f); [destruct K|]. destruct K as [<-|[]]. rewrite Forall_forall in IH. destruct (IH x X v S2) as (u & U & E1 & E2). exists u. split; [|auto]. econstructor; eauto.
Qed.
Lemma ids_subtree i t : In i (ids t) -> exists s, subtree s t /\ rid s = i.
Proof.
  induction t as [n d ts IH] using tree_ind'. intros I. cbn [ids] in I. destruct I as [<-|I]; [exists (Node n d ts); split; [constructor|reflexivity]|].
  apply in_flat_map in I. destruct I as (x & X & I). rewrite Forall_forall in IH. destruct (IH x X I) as (s & S1 & E). exists s. split; [econstructor; eauto|exact E].
Qed.
Lemma all_stored m k x c : In c (all_constraints (store_constraint m k x)) <-> In c (all_constraints m) \/ c = x.
Proof.
  unfold all_constraints. destruct k as [| |r e]; cbn [store_constraint with_boolean with_nonboolean with_mixed m_boolean m_nonboolean m_mixed]; rewrite ?map_app; cbn [map x_con]; rewrite !in_app_iff; cbn [In]; intuition congruence.
Qed.
Lemma removed_known h m t s h' m' : represents h m t -> subtree s t -> represents h' m' (prune (rid s) t) -> (forall i, In i (nodes m') <-> In i (nodes m) /\ ~ In i (ids s)) ->
  forall i, In i (map snd (m_features m)) -> (In i (map snd (m_features m')) <-> ~ reaches h i (rid s)).
Proof.
  intros R S1 R' Nd i K. assert (Ni : In i (nodes m)) by (unfold nodes; apply in_or_app; auto). transitivity (~ In i (ids s)).
  - split; intros X.
    + apply Nd. unfold nodes. apply in_or_app. auto.
    + assert (I : In i (nodes m')) by (apply Nd; auto). apply (rep_node R') in I. destruct (ids_subtree _ _ I) as (v & V & Ev). destruct (prune_subtree _ _ _ V) as (u & U & E1 & E2).
      apply (rep_feature_node R) in K. destruct K as (x & f & Sx & Ex & Ef). assert (u = x) as -> by (apply (subtree_unique t); auto; [apply (rep_ids _ _ _ R)|congruence]).
      apply (rep_feature_node R'). exists v, f. split; [exact V|]. split; [exact Ev|]. congruence.
  - split; intros X Y; apply X; [exact (reaches_ids h m t s i R S1 Ni Y)|exact (ids_reaches h m t s i R S1 Y)].
Qed.

Theorem spares_exactly ord (ord_ok : is_order ord) h m t o h' m' e : represents h m t -> all_resolved m -> allowed (h, m) o -> exec ord o (h, m) = Some ((h', m'), e) -> (all_resolved m' <-> spares (h, m) o).
Proof.
  intros R Rs A E. destruct (step_represents ord ord_ok h m t o h' m' e R A E) as (t' & R'). pose proof (proj2 (proj1 (resolved_ids h m t R) Rs)) as Kn.
  assert (Same : m_features m' = m_features m -> all_constraints m' = all_constraints m -> all_resolved m') by (intros E1 E2; apply (resolved_kept h m t h' m' t' R R' E2 Rs); rewrite E1; exact Kn).
  destruct o as [f p|r b|k r|r|r l|r l|k c|s|s|s|s|rp rc]; cbn [spares]; cbn [allowed] in A;
    try (injection E as <- <- <-; split; [auto|intros _; apply Same; reflexivity]).
  - split; [auto|intros _]. cbn [exec] in E. unfold exec_add_feature, store_feature in E. destruct A as (K & P). destruct (get_feature m (f_name f)) as [i|] eqn:G.
    + apply Same; [|]; injection E as _ <- _; reflexivity.
    + assert (Em : m' = with_features m (m_features m ++ [(f_name f, h_next h)])).
      { assert (exists s, subtree s t /\ is_feature (rdata s) = true /\ (p = Some (rid s) \/ p = None /\ s = t)) as (s & S1 & F & Ps).
        { destruct p as [q|].
          - specialize (P q eq_refl). apply (rep_feature_node R) in P. destruct P as (s & x & S1 & Es & F). exists s. subst q. rewrite F. auto.
          - exists t. split; [constructor|]. destruct (rep_top_data R) as (f0 & -> & _). split; [reflexivity|]. right. auto. }
        destruct (exec_add_feature_ok ord h m t f p s R K G S1 F Ps) as (h2 & m2 & E' & _ & Em & _). cbn [exec] in E'. unfold exec_add_feature, store_feature in E'. rewrite G in E'. rewrite E' in E. injection E as _ <- _. exact Em. }
      apply (resolved_kept h m t h' m' t' R R'); [rewrite Em; reflexivity|exact Rs|]. intros i I. rewrite Em. cbn. rewrite map_app. apply in_or_app. left. exact (Kn i I).
  - destruct (resolve m r) as [i|] eqn:Er; [|rewrite (exec_remove_missing ord h m r b Er) in E; injection E as <- <- <-; split; [intros _ i j X; discriminate|intros _; exact Rs]].
    destruct (remove_cases ord ord_ok h m t R r b i A Er) as (s & f & S1 & Es & Ed & X). subst i. pose proof (goes_near ord ord_ok h m t R b s S1) as G.
    destruct X as [(Et & D & X)|[(-> & D & X)|(Nt & D & h2 & m2 & X & R2 & Sr & Nd)]]; rewrite X in E; [discriminate| |].
    + injection E as <- <- <-. split; [|intros _; exact Rs]. intros _ i j Ei Go. injection Ei as <-. apply G in Go. destruct Go as [Go|Go]; [discriminate|contradiction].
    + injection E as <- <- _. rewrite (resolved_kept h m t h2 m2 _ R R2 (same_rest_constraints _ _ Sr) Rs). split.
      * intros Y i j Ei _ I. injection Ei as <-. apply (removed_known h m t s h2 m2 R S1 R2 Nd j (Kn j I)). exact (Y j I).
      * intros Y j I. apply (removed_known h m t s h2 m2 R S1 R2 Nd j (Kn j I)). apply (Y (rid s) j eq_refl); [apply G; exact D|exact I].
  - split; [auto|intros _]. destruct A as (A & N). destruct (resolve m r) as [i|] eqn:Er.
    + destruct (rep_resolve R r i A Er) as (s & x & S1 & Es & Ed). subst i. assert (is_feature (rdata s) = true) as F by (rewrite Ed; reflexivity).
      pose proof (no_own_relationship h m t s R S1 (N _ eq_refl)) as Og. destruct (exec_add_relationship_ok ord ord_ok h m t k r s R Er S1 F Og) as (h2 & us & E' & _). rewrite E' in E. injection E as _ <- _. apply Same; reflexivity.
    + exfalso. cbn [exec] in E. unfold exec_add_relationship, store_relationship, h_alloc in E. replace (resolve _ r) with (resolve m r) in E by (destruct r; reflexivity). rewrite Er in E. discriminate.
  - split; [auto|intros _]. destruct A as (A & N). destruct (resolve m r) as [i|] eqn:Er; [|cbn [exec] in E; unfold exec_remove_relationship in E; rewrite Er in E; injection E as _ <- _; exact Rs].
    destruct (rep_resolve R r i A Er) as (s & x & S1 & Es & Ed). subst i. assert (is_feature (rdata s) = true) as F by (rewrite Ed; reflexivity).
    destruct (only_own_relationships h m t s R S1 F (fun k x => N _ k x eq_refl)) as [Z|(a & i & k & us & b & Ek & Et)].
    + exfalso. destruct (holds_sub h None t s (rep_holds _ _ _ R) S1) as (q & Hs). pose proof (subtree_nodup s t S1 (rep_ids _ _ _ R)) as Ds.
      destruct s as [n d ts]. cbn [rid kids] in *. cbn [exec] in E. unfold exec_remove_relationship, child_relationships in E. rewrite Er in E.
      rewrite (get_children_tree ord is_relationship h q n d ts (rep_ok _ _ _ R) Hs Ds), Z in E. cbn [map bind] in E. rewrite (ord_nil ord ord_ok) in E. discriminate.
    + destruct s as [n d ts]. cbn [rid rdata kids] in *. subst ts. destruct (exec_remove_relationship_ok ord ord_ok h m t r n d a i k us b R Er S1 F Et) as (h2 & m2 & us' & E' & _ & Em & _). rewrite E' in E. injection E as _ <- _. rewrite Em in *. apply Same; reflexivity.
  - split; [auto|intros _]. cbn [exec] in E. unfold exec_add_location in E. apply bind_some in E. destruct E as (i & _ & E). apply bind_some in E. destruct E as (h2 & _ & E). injection E as _ <- _. exact Rs.
  - split; [auto|intros _]. cbn [exec] in E. unfold exec_remove_location in E. apply bind_some in E. destruct E as (i & _ & E). apply bind_some in E. destruct E as (h2 & _ & E). injection E as _ <- _. exact Rs.
  - assert (D : exec ord (OAddConstraint k c) (h, m) <> None) by (rewrite E; discriminate). apply (defined_exactly ord ord_ok h m t R (OAddConstraint k c) A) in D. cbn [defined_op] in D. apply (names_given h c) in D. destruct D as (ns & Ns).
    destruct (exec_add_constraint_ok ord h m t k c ns R Ns) as (h2 & c' & E' & Ec & _ & _ & _). rewrite E' in E. injection E as _ <- _.
    assert (Lv : leaves c' = map (target m (cref_name h)) (leaves c)) by (rewrite Ec; apply leaves_cmap).
    assert (Gf : forall s, get_feature (store_constraint m k (MConstraint (h_next h) c')) s = get_feature m s) by (intros s; destruct k; reflexivity). split.
    + intros Y r s I Nm. destruct (get_feature m s) as [i|] eqn:G; [eauto|]. exfalso. destruct (Y (MConstraint (h_next h) c') (target m (cref_name h) r)) as (u & j & Ej & Gj).
      * apply all_stored. auto.
      * cbn [c_expr]. rewrite Lv. apply in_map. exact I.
      * unfold target in Ej. rewrite Nm, G in Ej. subst r. rewrite Gf in Gj. cbn [cref_name] in Nm. pose proof Gj as Gj'. apply (rep_find R) in Gj. apply named_subtree in Gj. destruct Gj as (v & f & V & Ei & Ef & En). subst j.
        unfold name_at in Nm. rewrite (rep_feature_at h m t v f R V Ef) in Nm. cbn in Nm. injection Nm as <-. congruence.
    + intros Y c0 r I J. apply all_stored in I. destruct I as [I| ->]; [destruct (Rs c0 r I J) as (s & i & X & G); exists s, i; rewrite Gf; auto|].
      cbn [c_expr] in J. rewrite Lv in J. apply in_map_iff in J. destruct J as (r0 & Er & J). assert (Nm : exists s, cref_name h r0 = Some s) by (apply (in_map (cref_name h)) in J; rewrite Ns in J; apply in_map_iff in J; destruct J as (s & X & _); eauto).
      destruct Nm as (s & Nm). destruct (Y r0 s J Nm) as (i & G). unfold target in Er. rewrite Nm, G in Er. exists s, i. rewrite Gf. auto.
  - destruct (get_feature m s) as [i|] eqn:G.
    + split; [intros _ X; discriminate|intros _]. destruct (Nat.eq_dec i (rid t)) as [->|N]; [|rewrite (exec_set_root_present ord h m t s i R G N) in E; injection E as _ <- _; exact Rs].
      destruct (rep_top_data R) as (f0 & Ef & _). rewrite (exec_set_root_same ord h m t s f0 R Ef) in E; [injection E as _ <- _; exact Rs|].
      apply (rep_find R) in G. apply named_subtree in G. destruct G as (v & f & V & Ei & Ev & En). assert (v = t) as -> by (apply (subtree_unique t); auto; [apply (rep_ids _ _ _ R)|constructor]). congruence.
    + destruct (exec_set_root_ok ord h m t s R G) as (h2 & m2 & E' & R2 & Sr & _ & _ & C & _). rewrite E' in E. injection E as <- <- _. rewrite (resolved_kept h m t h2 m2 _ R R2 (same_rest_constraints _ _ Sr) Rs). split.
      * intros Y _ i Ri I. apply (root_top h m t R) in Ri. subst i. apply Y in I. apply (rep_feature_node R2) in I. destruct I as (v & f & V & Ei & Ef). destruct (rep_cell R2 v V) as (q & Cv). rewrite Ei, C in Cv. discriminate.
      * intros Y i I. apply (rep_feature_node R2). pose proof (Kn i I) as K. apply (rep_feature_node R) in K. destruct K as (v & f & V & Ei & Ef). exists v, f. split; [|auto].
        assert (Nt : v <> t) by (intros ->; apply (Y eq_refl i); [apply (root_top h m t R); auto|exact I]). inversion V as [|n d ts u U V']; subst; [congruence|]. cbn [kids]. econstructor; eauto.
  - split; [auto|intros _]. cbn [exec] in E. unfold exec_add_child in E. destruct (resolve m rc) as [c|]; [|injection E as _ <- _; exact Rs]. destruct (resolve m rp) as [p|]; [|injection E as _ <- _; exact Rs].
    destruct (Nat.eqb c p); [injection E as _ <- _; exact Rs|]. apply bind_some in E. destruct E as (cc & _ & E). apply bind_some in E. destruct E as (h1 & _ & E). apply bind_some in E. destruct E as (h2 & _ & E). apply bind_some in E. destruct E as (h3 & _ & E). injection E as _ <- _. exact Rs.
Qed.

(** ** Careful transactions *)
Ltac codes E := repeat first [discriminate E|apply bind_some in E; let x := fresh in destruct E as (x & _ & E)|match type of E with (match ?x with _ => _ end) = _ => destruct x end|progress (unfold success, failure in E)].
Lemma exec_code ord o w w' : exec ord o w <> Some (w', Some INCONSISTENT).
Proof.
  destruct w as [h m]. intros E. destruct o; cbn [exec] in E; unfold exec_add_feature, exec_remove_feature, exec_add_relationship, exec_remove_relationship, exec_add_location, exec_remove_location, exec_add_constraint, exec_set_root, exec_add_child in E; cbv zeta in E; codes E.
Qed.
Section Careful.
Variable ord : list nid -> list nid.
Hypothesis ord_ok : is_order ord.
Theorem step_sound w o w' e : sound (fst w) (snd w) -> allowed w o -> spares w o -> fresh_op o -> exec ord o w = Some (w', e) -> sound (fst w') (snd w').
Proof.
  destruct w as [h m], w' as [h' m']. intros ((t & R) & Rg & Rs) A Sp F E. split; [exact (step_represents ord ord_ok h m t o h' m' e R A E)|]. split; [exact (exec_registered ord o h m _ e F E Rg)|].
  apply (spares_exactly ord ord_ok h m t o h' m' e R Rs A E). exact Sp.
Qed.
Theorem careful_runs os : forall w, sound (fst w) (snd w) -> careful ord w os -> exists w' e, run ord os w = Some (w', e) /\ sound (fst w') (snd w').
Proof.
  induction os as [|o os IH]; intros w Sw C; [exists w, None; split; [reflexivity|exact Sw]|]. inversion C as [|? ? ? A D Sp F Cn]; subst.
  destruct w as [h m]. destruct Sw as ((t & R) & Sw'). apply (defined_exactly ord ord_ok h m t R o A) in D. cbn [run]. destruct (exec ord o (h, m)) as [[w1 e]|] eqn:E; [|congruence]. cbn [bind].
  pose proof (step_sound (h, m) o w1 e (conj (ex_intro _ t R) Sw') A Sp F E) as S1. destruct e as [c|]; [exists w1, (Some c); split; [reflexivity|exact S1]|]. exact (IH w1 S1 (Cn w1 eq_refl)).
Qed.
Theorem careful_commits os w : sound (fst w) (snd w) -> careful ord w os -> exists w' e, commit_modify ord (Mtx true os) w = Some (Mtx false os, w', e) /\ e <> Some INCONSISTENT /\ sound (fst w') (snd w').
Proof.
  intros Sw C. destruct (careful_runs os w Sw C) as (w' & e & E & S1). unfold commit_modify. cbn [t_open t_queue]. rewrite E. cbn [bind]. destruct e as [c|].
  - exists w', (Some c). split; [reflexivity|]. split; [|exact S1]. intros X. injection X as ->. revert E. clear. revert w. induction os as [|o os IH]; intros w E; [discriminate|]. cbn [run] in E. apply bind_some in E. destruct E as ((w1 & e) & E1 & E).
    destruct e as [c|]; [|exact (IH w1 E)]. injection E as -> ->. exact (exec_code ord o w w' E1).
  - destruct S1 as ((t & R) & S1). rewrite (represents_consistent _ _ _ R). exists w', None. split; [reflexivity|]. split; [discriminate|]. split; [exists t; exact R|exact S1].
Qed.
End Careful.
