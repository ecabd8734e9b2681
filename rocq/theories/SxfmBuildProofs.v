(** The model built from a feature tree in the SXFM format. *)
From Coq Require Import List ZArith NArith Arith Bool Ascii String Permutation Lia.
From Verif Require Import Text TextProofs LlvmInt ConstraintModel ConstraintSpec ConstraintParserModel SourceRangeModel FeatureTreeModel FeatureTreeSpec FeatureTransactionModel
  FeatureEditSpec FeatureTransactionSpec FeatureBuildSpec FeatureBuildFinal SxfmModel SxfmSpec SxfmLineProofs SxfmTreeProofs SxfmTreeFinal.
Import ListNotations.
Local Open Scope string_scope.
Local Open Scope list_scope.
Local Open Scope nat_scope.

Lemma declares_declaring cs : forall d d', declares d (declaring cs) d' -> declares d cs d'.
Proof.
  induction cs as [|c cs IH]; intros d d' H; [exact H|].
  assert (declaring (c :: cs) = match c with BFeature _ | BRoot _ => [c] | _ => [] end ++ declaring cs) as E by reflexivity. rewrite E in H. clear E.
  destruct c; cbn [app] in H; try (apply dec_other; [exact I|apply IH; exact H]).
  - inversion H; subst; [apply dec_feature; [assumption|apply IH; assumption]|contradiction].
  - inversion H; subst; [apply dec_same; apply IH; assumption|apply dec_root; [assumption|apply IH; assumption]|contradiction].
Qed.

Definition leaf_feature (e : entry) (n : text) : feature := new_feature FBinary n (optional (e_mark e)) [] [].
Fixpoint leaf_features (es : list entry) (ns : list text) : list feature :=
  match es, ns with e :: r, n :: s => leaf_feature e n :: leaf_features r s | _, _ => [] end.
Lemma leaf_names es ns : List.length es = List.length ns -> map f_name (leaf_features es ns) = ns.
Proof. revert ns. induction es as [|e es IH]; intros [|n ns] L; try discriminate; [reflexivity|]. cbn [leaf_features map]. f_equal. apply IH. injection L as L. exact L. Qed.
Lemma leaf_nth es ns i e n : nth_error es i = Some e -> nth_error ns i = Some n -> In (leaf_feature e n) (leaf_features es ns).
Proof.
  revert ns i. induction es as [|x es IH]; intros ns i E N; [destruct i; discriminate|]. destruct ns as [|y ns]; [destruct i; discriminate|].
  destruct i as [|i]; cbn [nth_error] in E, N; cbn [leaf_features]; [injection E as ->; injection N as ->; left; reflexivity|right; exact (IH ns i E N)].
Qed.
Lemma leaf_in es ns f : In f (leaf_features es ns) -> exists i e n, nth_error es i = Some e /\ nth_error ns i = Some n /\ f = leaf_feature e n.
Proof.
  revert ns. induction es as [|x es IH]; intros [|y ns] H; try contradiction. cbn [leaf_features] in H. destruct H as [<-|H].
  - exists 0, x, y. repeat split.
  - destruct (IH ns H) as (i & e & n & E & N & X). exists (S i), e, n. repeat split; assumption.
Qed.

Lemma declares_leaves es : forall ns root fs, List.length es = List.length ns -> (forall e, In e es -> e_mark e <> Root) ->
  NoDup (root :: map f_name fs ++ ns) -> declares (root, fs) (declarations es ns) (root, fs ++ leaf_features es ns).
Proof.
  induction es as [|e es IH]; intros [|n ns] root fs L M D; try discriminate.
  - cbn [declarations leaf_features]. rewrite app_nil_r. constructor.
  - cbn [declarations leaf_features].
    assert (declaration e n = BFeature (leaf_feature e n)) as ->. { unfold declaration, leaf_feature. pose proof (M e (or_introl eq_refl)). destruct (e_mark e); [congruence|reflexivity..]. }
    apply dec_feature.
    + intros [X|X]; cbn [fst snd f_name leaf_feature new_feature] in X.
      * subst n. apply NoDup_cons_iff in D. apply (proj1 D). apply in_or_app. right. left. reflexivity.
      * apply NoDup_cons_iff in D. destruct D as (_ & D). apply NoDup_remove_2 in D. apply D. apply in_or_app. left. exact X.
    + change (leaf_feature e n :: leaf_features es ns) with ([leaf_feature e n] ++ leaf_features es ns). rewrite app_assoc. apply IH.
      * injection L as L. exact L.
      * intros x X. apply M. right. exact X.
      * rewrite map_app. cbn [map f_name leaf_feature new_feature]. rewrite <- app_assoc. exact D.
Qed.

Lemma in_edges cs p s : In (BEdge p s) cs <-> In (p, s) (edges cs).
Proof.
  unfold edges. rewrite in_flat_map. split.
  - intros I. exists (BEdge p s). split; [exact I|left; reflexivity].
  - intros (c & I & X). destruct c; try contradiction. destruct X as [X|[]]. injection X as -> ->. exact I.
Qed.
Lemma last_edge_unique cs s p : forall d, (In (p, s) (edges cs) \/ d = p) -> (forall p', In (p', s) (edges cs) -> p' = p) -> last_edge cs s d = p.
Proof.
  induction cs as [|c cs IH]; intros d H U; [destruct H as [[]|H]; exact H|].
  destruct c; cbn [last_edge]; try (apply IH; [exact H|exact U]).
  change (edges (BEdge parent child :: cs)) with ((parent, child) :: edges cs) in H, U.
  apply IH; [|intros p' I; apply U; right; exact I]. destruct (text_eqb child s) eqn:E.
  - apply text_eqb_eq in E. subst child. right. apply U. left. reflexivity.
  - apply text_eqb_neq in E. destruct H as [[H|H]|H]; [injection H as -> ->; congruence|left; exact H|right; exact H].
Qed.
Lemma last_edge_app a b s d : last_edge (a ++ b) s d = last_edge b s (last_edge a s d).
Proof. revert d. induction a as [|c a IH]; intros d; [reflexivity|]. destruct c; cbn [app last_edge]; apply IH. Qed.

Lemma forall2_nth {A B} (P : A -> B -> Prop) l r x : Forall2 P l r -> In x r -> exists a, In a l /\ P a x.
Proof. intros F. induction F as [|a b l r H F IH]; intros I; [destruct I|]. destruct I as [<-|I]; [exists a; split; [left; reflexivity|exact H]|]. destruct (IH I) as (a' & I' & H'). exists a'. split; [right; exact I'|exact H']. Qed.
Lemma forall2_nth_l {A B} (P : A -> B -> Prop) l r a : Forall2 P l r -> In a l -> exists x, In x r /\ P a x.
Proof. intros F. induction F as [|a' b l r H F IH]; intros I; [destruct I|]. destruct I as [<-|I]; [exists b; split; [left; reflexivity|exact H]|]. destruct (IH I) as (b' & I' & H'). exists b'. split; [right; exact I'|exact H']. Qed.

Lemma closest_unique ls i j j' : closest ls i j -> closest ls i j' -> j = j'.
Proof.
  intros (l & E1 & E2 & L & M) (l' & E1' & E2' & L' & M'). assert (l = l') as <- by congruence.
  destruct (Nat.lt_trichotomy j j') as [X|[X|X]]; [exfalso; exact (M j' ltac:(lia) E2')|exact X|exfalso; exact (M' j ltac:(lia) E2)].
Qed.
Lemma closest_exists es i : well_indented (levels es) -> 0 < i < List.length es -> exists j, closest (levels es) i j.
Proof.
  intros W L. destruct es as [|e es]; [cbn in L; lia|]. cbn [levels map well_indented] in W. fold (levels es) in W.
  cbn [levels map]. fold (levels es).
  destruct (@nth_split _ (i - 1) (levels es) 0 ltac:(rewrite levels_length; cbn in L; lia)) as (a & b & E & La). rewrite E in W |- *.
  set (x := nth (i - 1) (levels es) 0) in *.
  assert (indented (e_level e) (e_level e) (a ++ [x])) as W'.
  { pose proof (well_indented_app (e_level e :: a ++ [x]) b) as H. cbn [app well_indented] in H. rewrite <- app_assoc in H. exact (H W). }
  apply indented_app in W'. destruct W' as (Wa & Lo & Hi). destruct x as [|k]; [lia|].
  destruct (level_seen (e_level e) a k Wa ltac:(lia)) as (j & A). exists j.
  change (e_level e :: a ++ S k :: b) with ((e_level e :: a) ++ [S k] ++ b). rewrite app_assoc.
  assert (i = List.length (e_level e :: a)) as -> by (cbn [List.length]; lia).
  apply closest_app; [rewrite app_length; cbn [List.length]; lia|]. apply closest_new. exact A.
Qed.

Lemma request_in rs s k : NoDup (map fst rs) -> In (s, k) rs -> request_for rs s = Some k.
Proof.
  induction rs as [|(p, q) rs IH]; cbn [map fst request_for]; intros D I; [destruct I|]. apply NoDup_cons_iff in D. destruct D as (N & D). destruct I as [I|I].
  - injection I as -> ->. rewrite (proj2 (text_eqb_eq s s) eq_refl). reflexivity.
  - destruct (text_eqb p s) eqn:E; [|exact (IH D I)]. apply text_eqb_eq in E. subst p. exfalso. apply N. apply in_map_iff. exists (s, k). split; [reflexivity|exact I].
Qed.
Lemma request_out rs s : ~ In s (map fst rs) -> request_for rs s = None.
Proof.
  induction rs as [|(p, q) rs IH]; cbn [map fst request_for]; intros N; [reflexivity|]. destruct (text_eqb p s) eqn:E; [apply text_eqb_eq in E; subst; exfalso; apply N; left; reflexivity|].
  apply IH. intros I. apply N. right. exact I.
Qed.
Lemma group_names es : forall ns, NoDup ns -> NoDup (map fst (group_lines es ns)) /\ incl (map fst (group_lines es ns)) ns.
Proof.
  induction es as [|e es IH]; intros [|n ns] D; cbn [group_lines map]; try (split; [constructor|intros x []]). apply NoDup_cons_iff in D. destruct D as (N & D). destruct (IH ns D) as (D' & J).
  destruct (e_mark e); try (split; [exact D'|intros x X; right; apply J; exact X]). cbn [map fst]. split; [constructor; [intros I; apply N; apply J; exact I|exact D']|].
  intros x [<-|X]; [left; reflexivity|right; apply J; exact X].
Qed.
Lemma group_at es : forall ns i e n, NoDup ns -> nth_error es i = Some e -> nth_error ns i = Some n ->
  match e_mark e with Group k => In (n, k) (group_lines es ns) | _ => ~ In n (map fst (group_lines es ns)) end.
Proof.
  induction es as [|x es IH]; intros [|y ns] i e n D E N; try (destruct i; discriminate). apply NoDup_cons_iff in D. destruct D as (Ny & D). destruct (group_names es ns D) as (_ & J).
  destruct i as [|i]; cbn [nth_error] in E, N.
  - injection E as ->. injection N as ->. cbn [group_lines]. destruct (e_mark e) eqn:M; try (intros I; apply Ny, J; exact I). left. reflexivity.
  - specialize (IH ns i e n D E N). assert (n <> y) as Hn. { intros ->. apply Ny. apply nth_error_In in N. exact N. }
    cbn [group_lines]. destruct (e_mark x); try exact IH. destruct (e_mark e); cbn [map fst In]; try (intros [X|X]; [congruence|contradiction]). right. exact IH.
Qed.

Section Describe.
Variables (first : entry) (rest : list entry) (cs ks : list bcall) (n : text).
Let es := first :: rest.
Hypothesis Fr : e_mark first = Root.
Hypothesis Mr : forall x, In x rest -> e_mark x <> Root.
Hypothesis Nd : NoDup (labels es).
Hypothesis Wi : well_indented (levels es).
Hypothesis Tc : tree_calls es cs.
Hypothesis Ck : forall c, In c ks -> match c with BConstraint _ e => forall r, In r (leaves e) -> exists s, r = Own s /\ In s (labels es) | _ => False end.

Lemma labels_split : exists r0 rs, labels es = r0 :: rs /\ List.length rs = List.length rest.
Proof.
  pose proof (labels_length es) as L. destruct (labels es) as [|r0 rs] eqn:E; [discriminate L|]. exists r0, rs. split; [reflexivity|]. injection L as L. exact L.
Qed.

Lemma edge_pos p s : In (p, s) (edges cs) -> exists i j, 0 < i < List.length es /\ closest (levels es) i j /\ nth_error (labels es) j = Some p /\ nth_error (labels es) i = Some s.
Proof.
  intros I. destruct (forall2_nth _ _ _ _ (tc_edges _ _ Tc) I) as (i & Ii & j & C & Ej & Ei). apply in_seq in Ii. exists i, j. split; [cbn [List.length es] in *; unfold es in *; cbn [List.length] in *; lia|]. repeat split; assumption.
Qed.
Lemma label_inj i j s : nth_error (labels es) i = Some s -> nth_error (labels es) j = Some s -> i = j.
Proof. intros E E'. apply (proj1 (NoDup_nth_error (labels es)) Nd); [apply nth_error_Some; rewrite E; discriminate|congruence]. Qed.

Lemma edge_at i j s p : closest (levels es) i j -> nth_error (labels es) i = Some s -> nth_error (labels es) j = Some p ->
  forall d, last_edge (BName n :: cs ++ ks) s d = p.
Proof.
  intros C Ei Ej d. assert (0 < i < List.length es) as Li.
  { split; [destruct C as (l & _ & _ & L & _); lia|]. rewrite <- labels_length. exact (nth_below _ _ _ Ei). }
  assert (forall d', last_edge ks s d' = d') as Ks.
  { assert (forall c, In c ks -> match c with BEdge _ _ => False | _ => True end) as H by (intros c I; pose proof (Ck c I) as Kc; destruct c; tauto).
    revert H. clear. induction ks as [|c l IH]; intros H d'; [reflexivity|]. pose proof (H c (or_introl eq_refl)). destruct c; try contradiction; cbn [last_edge]; apply IH; intros x X; apply H; right; exact X. }
  cbn [last_edge]. rewrite last_edge_app, Ks. apply last_edge_unique.
  - left. assert (In i (seq 1 (List.length es - 1))) as Ii by (apply in_seq; lia).
    destruct (forall2_nth_l _ _ _ _ (tc_edges _ _ Tc) Ii) as ((a, b) & I & j' & C' & Ea & Eb). cbn [fst snd] in Ea, Eb.
    assert (j' = j) as -> by exact (closest_unique _ _ _ _ C' C). assert (a = p) as -> by congruence. assert (b = s) as -> by congruence. exact I.
  - intros p' I. destruct (edge_pos p' s I) as (i' & j' & _ & C' & Ej' & Ei'). assert (i' = i) as -> by exact (label_inj _ _ _ Ei' Ei).
    assert (j' = j) as -> by exact (closest_unique _ _ _ _ C' C). congruence.
Qed.

Variables (r0 : text) (rs : list text).
Hypothesis Lb : labels es = r0 :: rs.
Definition the_decl : decl := (r0, leaf_features rest rs).
Lemma rs_length : List.length rest = List.length rs.
Proof. destruct labels_split as (a & b & E & L). rewrite Lb in E. injection E as -> ->. symmetry. exact L. Qed.
Lemma taken_label s : taken the_decl s <-> In s (labels es).
Proof. unfold taken, the_decl. cbn [fst snd]. rewrite (leaf_names rest rs rs_length), Lb. cbn [In]. split; intros [H|H]; auto. Qed.

Lemma requests_all : requests (BName n :: cs ++ ks) = requests cs.
Proof.
  change (requests (BName n :: cs ++ ks)) with (requests (cs ++ ks)). rewrite requests_app. assert (requests ks = []) as ->; [|apply app_nil_r].
  assert (forall c, In c ks -> match c with BRelationship _ _ => False | _ => True end) as H by (intros c I; pose proof (Ck c I) as Kc; destruct c; tauto).
  revert H. clear. induction ks as [|c l IH]; intros H; [reflexivity|]. pose proof (H c (or_introl eq_refl)). destruct c; try contradiction; apply IH; intros x X; apply H; right; exact X.
Qed.

Lemma in_calls c : In c (BName n :: cs ++ ks) -> c = BName n \/ In c cs \/ In c ks.
Proof. intros [I|I]; [left; congruence|]. apply in_app_or in I. tauto. Qed.

Lemma tree_describes : describes (BName n :: cs ++ ks) the_decl.
Proof.
  assert (declaring ks = []) as Dk.
  { assert (forall c, In c ks -> match c with BFeature _ | BRoot _ => False | _ => True end) as H by (intros c I; pose proof (Ck c I) as Kc; destruct c; tauto).
    revert H. clear. induction ks as [|c l IH]; intros H; [reflexivity|]. pose proof (H c (or_introl eq_refl)). destruct c; try contradiction; apply IH; intros x X; apply H; right; exact X. }
  assert (nth_error (labels es) 0 = Some r0) as E0 by (rewrite Lb; reflexivity).
  pose proof rs_length as Lr. constructor.
  - apply declares_declaring. change (declaring (BName n :: cs ++ ks)) with (declaring (cs ++ ks)). rewrite declaring_app, Dk, app_nil_r, (tc_declared _ _ Tc), Lb.
    unfold es. cbn [declarations]. unfold declaration at 1. rewrite Fr.
    assert (declares (r0, []) (declarations rest rs) the_decl) as H.
    { apply (declares_leaves rest rs r0 [] Lr Mr). cbn [map app]. rewrite <- Lb. exact Nd. }
    destruct (text_eqb r0 default_root) eqn:E; [apply text_eqb_eq in E; rewrite E in H |- *; apply dec_same; exact H|]. apply text_eqb_neq in E. apply dec_root; [|exact H].
    intros [X|X]; [exact (E X)|destruct X].
  - intros c I. apply in_calls in I. destruct I as [->|[I|I]]; [exact Logic.I| |pose proof (Ck c I) as Kc; destruct c; try contradiction; exact Logic.I].
    destruct c; try exact Logic.I. unfold ordinary.
    assert (In (BFeature f) (declaring cs)) as J by (unfold declaring; apply in_flat_map; exists (BFeature f); split; [exact I|left; reflexivity]).
    rewrite (tc_declared _ _ Tc) in J. revert J. generalize (labels es) as ns. generalize es as xs. clear. induction xs as [|x xs IH]; intros [|y ns] J; try contradiction.
    cbn [declarations] in J. destruct J as [J|J]; [|exact (IH ns J)]. unfold declaration in J. destruct (e_mark x); inversion J; discriminate.
  - intros c I. apply in_calls in I. destruct I as [->|[I|I]]; [exact Logic.I| |pose proof (Ck c I) as Kc; destruct c; try contradiction; exact Logic.I].
    destruct c; try exact Logic.I. cbn [edge_ok]. apply in_edges in I. destruct (edge_pos _ _ I) as (i & j & Li & C & Ej & Ei).
    rewrite !taken_label. split; [apply nth_error_In in Ej; exact Ej|]. split; [apply nth_error_In in Ei; exact Ei|]. intros ->.
    pose proof (label_inj _ _ _ Ei Ej). destruct C as (l & _ & _ & L & _). lia.
  - intros p s I. apply in_calls in I. destruct I as [I|[I|I]]; [discriminate| |pose proof (Ck _ I) as Kc; contradiction].
    apply in_edges in I. destruct (edge_pos _ _ I) as (i & j & Li & C & Ej & Ei). cbn [the_decl fst]. intros ->. pose proof (label_inj _ _ _ Ei E0). lia.
  - intros f I. cbn [the_decl fst snd] in *. destruct (leaf_in _ _ _ I) as (i & e & s & Ee & Es & ->). change (f_name (leaf_feature e s)) with s.
    assert (nth_error (labels es) (S i) = Some s) as Ei by (rewrite Lb; exact Es). clear Ee Es I e. revert s Ei. generalize (S i) as k. intros k.
    induction k as [k IH] using lt_wf_ind. intros s Ei. destruct k as [|k]; [assert (s = r0) as -> by congruence; apply leads_root|].
    assert (S k < List.length es) as Lk by (rewrite <- labels_length; exact (nth_below _ _ _ Ei)).
    destruct (closest_exists es (S k) Wi ltac:(lia)) as (j & C). assert (j < S k) as Lj by (destruct C as (? & _ & _ & ? & _); assumption).
    assert (exists p, nth_error (labels es) j = Some p) as (p & Ej).
    { destruct (nth_error (labels es) j) as [p|] eqn:E; [exists p; reflexivity|]. apply nth_error_None in E. rewrite labels_length in E. lia. }
    apply leads_up. rewrite (edge_at (S k) j s p C Ei Ej). exact (IH j Lj p Ej).
  - intros c I. apply in_calls in I. destruct I as [->|[I|I]]; [exact Logic.I| |].
    + destruct c; try exact Logic.I.
      * cbn [relation_ok]. rewrite taken_label. assert (In (parent, k) (requests cs)) as J by (unfold requests; apply in_flat_map; exists (BRelationship k parent); split; [exact I|left; reflexivity]).
        apply (Permutation_in _ (tc_groups _ _ Tc)) in J. apply (proj2 (group_names es (labels es) Nd)). apply in_map_iff. exists (parent, k). split; [reflexivity|exact J].
      * exfalso. exact (tc_rest _ _ Tc _ I).
    + pose proof (Ck c I) as Kc. destruct c; try contradiction. cbn [relation_ok]. intros r R. destruct (Kc r R) as (s & -> & J). exists s. split; [reflexivity|]. apply taken_label. exact J.
  - rewrite requests_all. apply Permutation_NoDup with (map fst (group_lines es (labels es))); [apply Permutation_map, Permutation_sym, (tc_groups _ _ Tc)|apply group_names; exact Nd].
Qed.

Lemma described_indented h m : as_described (BName n :: cs ++ ks) the_decl h m -> as_indented es h m.
Proof.
  intros A. pose proof rs_length as Lr.
  assert (NoDup (map fst (requests cs))) as Nr.
  { apply Permutation_NoDup with (map fst (group_lines es (labels es))); [apply Permutation_map, Permutation_sym, (tc_groups _ _ Tc)|apply group_names; exact Nd]. }
  destruct (ad_root _ _ _ _ A) as (r & f & Er & Eg & Ef & Sd). cbn [the_decl fst] in Eg, Sd.
  constructor.
  - exact (ad_tree _ _ _ _ A).
  - exact (ad_represented _ _ _ _ A).
  - exact (ad_consistent _ _ _ _ A).
  - pose proof (ad_names _ _ _ _ A) as P. cbn [the_decl fst snd] in P. rewrite (leaf_names rest rs Lr), <- Lb in P. exact P.
  - exists r, r0. rewrite Lb. repeat split; assumption.
  - intros [|i] e s Ee Es.
    + cbn [nth_error] in Ee. injection Ee as <-. rewrite Lb in Es. injection Es as <-. exists r, f. rewrite Fr. destruct Sd as (K & Nm & _ & _ & O).
      repeat split; [exact Eg|exact Ef|rewrite K; reflexivity|rewrite Nm; reflexivity|rewrite O; reflexivity].
    + cbn [nth_error es] in Ee. unfold es in Ee. cbn [nth_error] in Ee. rewrite Lb in Es. cbn [nth_error] in Es.
      destruct (ad_data _ _ _ _ A (leaf_feature e s) (leaf_nth rest rs i e s Ee Es)) as (x & g & Gx & Fx & K & Nm & _ & _ & O).
      exists x, g. split; [exact Gx|]. split; [exact Fx|]. split; [|split; [rewrite Nm; reflexivity|rewrite O; reflexivity]].
      rewrite K. pose proof (Mr e (nth_error_In _ _ Ee)). destruct (e_mark e); [congruence|reflexivity..].
  - intros i j s p e C Ei Ej Ee. assert (exists k, i = S k) as (k & ->) by (destruct C as (? & _ & _ & L & _); exists (i - 1); lia).
    assert (exists e', nth_error rest k = Some e') as (e' & Ee').
    { destruct (nth_error rest k) as [e'|] eqn:X; [exists e'; reflexivity|]. apply nth_error_None in X. pose proof (nth_below _ _ _ Ei) as L. rewrite labels_length in L. cbn [List.length es] in L. unfold es in L. cbn [List.length] in L. lia. }
    pose proof Ei as Ei'. rewrite Lb in Ei'. cbn [nth_error] in Ei'.
    pose proof (ad_parents _ _ _ _ A (leaf_feature e' s) (leaf_nth rest rs k e' s Ee' Ei')) as H. cbv zeta in H. change (f_name (leaf_feature e' s)) with s in H.
    rewrite (edge_at (S k) j s p C Ei Ej) in H. rewrite requests_all in H. destruct H as (x & y & Gx & Gy & Hh). exists x, y. split; [exact Gx|]. split; [exact Gy|].
    assert (request_for (requests cs) p = group_of (e_mark e)) as Q; [|rewrite <- Q; exact Hh].
    pose proof (group_at es (labels es) j e p Nd Ee Ej) as G. destruct (e_mark e); cbn [group_of];
      try (apply request_out; intros I; apply G; exact (Permutation_in _ (Permutation_map fst (tc_groups _ _ Tc)) I)).
    apply request_in; [exact Nr|]. exact (Permutation_in _ (Permutation_sym (tc_groups _ _ Tc)) G).
  - exists (requests cs). split; [exact (tc_groups _ _ Tc)|]. pose proof (ad_groups _ _ _ _ A) as G. rewrite requests_all in G. exact G.
Qed.
End Describe.
