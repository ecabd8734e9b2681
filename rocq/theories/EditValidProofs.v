(** Valid configurations obey the rules at all nodes, and how edits change them. *)
From Coq Require Import List ZArith Arith Bool Ascii String Permutation Lia.
From Verif Require Import Text TextProofs ConstraintModel ConstraintSpec ConfigurationModel FeatureTreeModel FeatureTreeSpec FeatureTreeProofs FeatureTransactionModel FeatureEditSpec FeatureEditProofs FeatureOpsProofs FeatureDataProofs FeatureBuildSpec
  FeatureHistoryProofs SolverModel SolverSpec SolverLoadProofs GeneratorProofs XmlTripWrite EditValidSpec.
Import ListNotations.
Local Open Scope list_scope.

Section Tree.
Variables (h : heap) (m : fmodel) (t : tree).
Hypothesis R : represents h m t.

Lemma group_parent_feature q k : subtree q t -> rdata q = NRelationship k -> exists v f, subtree v t /\ In q (kids v) /\ rdata v = NFeature f.
Proof.
  intros Q D. destruct (subtree_parent q t Q) as [->|(v & V & I)]; [exfalso; destruct (rep_top_data R) as (f & E & _); congruence|].
  exists v. destruct (rdata v) as [f|r] eqn:E; [eauto|]. exfalso. pose proof (grouped_sub v t V (rep_shape _ _ _ R)) as G. destruct v as [n d ts]. cbn in E. subst d. inversion G as [|? ? ? F _]; subst. rewrite Forall_forall in F. specialize (F q I). rewrite D in F. discriminate.
Qed.
Lemma kid_sub v u : subtree v t -> In u (kids v) -> subtree u t.
Proof. intros V I. destruct v as [n d ts]. exact (subtree_trans _ _ _ (subtree_kid n d ts u I) V). Qed.
Lemma names_of_cells us ns : (forall u, In u us -> subtree u t) -> Forall (fun u => is_feature (rdata u) = true) us ->
  (Forall2 (fun i s => name_at h i = Some s) (map rid us) ns <-> ns = names_of us).
Proof.
  intros Sb F. revert ns. induction us as [|u us IH]; intros ns.
  - split; [intros X; inversion X; reflexivity|intros ->; constructor].
  - inversion F as [|? ? Fu Fs]; subst. assert (Nu : exists f, rdata u = NFeature f /\ name_at h (rid u) = Some (f_name f)).
    { destruct (rdata u) as [f|] eqn:D; [|discriminate]. exists f. split; [reflexivity|]. unfold name_at. rewrite (rep_feature_at h m t u f R (Sb u (or_introl eq_refl)) D). reflexivity. }
    destruct Nu as (f & D & N). specialize (IH (fun x X => Sb x (or_intror X)) Fs). cbn [map]. unfold names_of. cbn [flat_map]. rewrite D. fold (names_of us). split.
    + intros X. inversion X as [|? s ? l E X' E1 E2]; subst. rewrite N in E. injection E as <-. cbn. f_equal. apply IH. exact X'.
    + intros ->. constructor; [exact N|]. apply IH. reflexivity.
Qed.
Lemma group_names q k v f : subtree v t -> rdata v = NFeature f -> In q (kids v) -> rdata q = NRelationship k -> group h m k (f_name f) (names_of (kids q)).
Proof.
  intros V D I Dq. pose proof (kid_sub v q V I) as Q. exists (rid q), (rid v), (map rid (kids q)). split.
  { eapply Permutation_in; [apply Permutation_sym, (rep_groups _ _ _ R)|]. apply groups_subtree. exists q, k. auto. }
  split; [rewrite (rep_kid R v q V I), Dq; reflexivity|]. split; [unfold name_at; rewrite (rep_feature_at h m t v f R V D); reflexivity|].
  apply names_of_cells; [intros u Iu; exact (kid_sub q u Q Iu)| |reflexivity]. pose proof (grouped_sub q t Q (rep_shape _ _ _ R)) as G. destruct q as [n d ts]. cbn in Dq. subst d. inversion G as [|? ? ? F _]; subst. exact F.
Qed.
Lemma group_tree k n ns : group h m k n ns -> exists v f q, subtree v t /\ rdata v = NFeature f /\ f_name f = n /\ In q (kids v) /\ rdata q = NRelationship k /\ ns = names_of (kids q).
Proof.
  intros (i & p & e & I & C & N & F). eapply Permutation_in in I; [|apply (rep_groups _ _ _ R)]. apply groups_subtree in I. destruct I as (q & k' & Q & <- & Dq).
  destruct (group_parent_feature q k' Q Dq) as (v & f & V & Iq & Dv). rewrite (rep_kid R v q V Iq), Dq in C. injection C as -> <- <-. exists v, f, q. split; [exact V|]. split; [exact Dv|]. split.
  { unfold name_at in N. rewrite (rep_feature_at h m t v f R V Dv) in N. cbn in N. congruence. }
  split; [exact Iq|]. split; [exact Dq|]. apply names_of_cells; [intros u Iu; exact (kid_sub q u Q Iu)| |exact F]. pose proof (grouped_sub q t Q (rep_shape _ _ _ R)) as G. destruct q as [n0 d ts]. cbn in Dq. subst d. inversion G as [|? ? ? F' _]; subst. exact F'.
Qed.
Lemma hangs_kid v u : subtree v t -> In u (kids v) -> is_feature (rdata v) = true -> hangs h (rid u) (rid v) None.
Proof. intros V I _. eexists. split; [exact (rep_kid R v u V I)|reflexivity]. Qed.
Lemma hangs_member v q k u : subtree v t -> In q (kids v) -> rdata q = NRelationship k -> In u (kids q) -> hangs h (rid u) (rid v) (Some k).
Proof.
  intros V I D Iu. pose proof (kid_sub v q V I) as Q. eexists. split; [exact (rep_kid R q u Q Iu)|]. exists (rid q). eexists. split; [reflexivity|]. split; [exact (rep_kid R v q V I)|]. split; [exact D|reflexivity].
Qed.
Lemma hangs_tree u p r : subtree u t -> hangs h (rid u) p r ->
  match r with
  | None => exists v, subtree v t /\ rid v = p /\ In u (kids v)
  | Some k => exists v q, subtree v t /\ rid v = p /\ In q (kids v) /\ rdata q = NRelationship k /\ In u (kids q)
  end.
Proof.
  intros U (c & C & H). destruct r as [k|].
  - destruct H as (q & cq & P & Cq & Dq & Pq). destruct (parent_subtree h m t R u q c U C P) as (w & W & <- & Iu). destruct (parent_subtree h m t R w p cq W Cq Pq) as (v & V & <- & Iw).
    exists v, w. split; [exact V|]. split; [reflexivity|]. split; [exact Iw|]. split; [|exact Iu]. rewrite (rep_kid R v w V Iw) in Cq. injection Cq as <-. exact Dq.
  - exact (parent_subtree h m t R u p c U C H).
Qed.

Theorem valid_rules a : SolverSpec.valid h m a <-> rules a t /\ constraints_hold h m a.
Proof.
  split.
  - intros [V1 V2 V3 V4 V5 V6 V7 V8]. split; [|split; [exact V7|exact V8]]. intros u U. unfold rules_at. destruct (rdata u) as [f|] eqn:D; [|exact I].
    pose proof (sub_stored h m t R u f U D) as Sf. pose proof (rep_feature_at h m t u f R U D) as Fu. split; [exact (V1 _ _ Sf)|]. split; [intros v g E; exact (V6 _ _ v g Sf E)|]. intros k Ik. pose proof (kid_sub u k U Ik) as K. destruct (rdata k) as [g|r] eqn:Dk.
    + pose proof (sub_stored h m t R k g K Dk) as Sg. assert (H : hangs h (rid k) (rid u) None) by (apply hangs_kid; [exact U|exact Ik|rewrite D; reflexivity]). split.
      * intros B. exact (V2 _ _ _ _ _ Sg B H Fu).
      * intros B O. exact (V3 _ _ _ _ Sg B O H Fu).
    + split.
      * intros v g Iv Dv B. pose proof (kid_sub k v K Iv) as Vt. exact (V2 _ _ _ _ _ (sub_stored h m t R v g Vt Dv) B (hangs_member u k r v U Ik Dk Iv) Fu).
      * pose proof (group_names k r u f U D Ik Dk) as G. intros Se. destruct r; [exact (V4 _ _ G Se)|exact (V5 _ _ G Se)].
  - intros (Ru & C1 & C2).
    assert (At : forall u f, subtree u t -> rdata u = NFeature f -> (f_kind f = FRoot -> selected a (f_name f)) /\ has_value a f /\ forall k, In k (kids u) ->
        match rdata k with NFeature g => needs a f g /\ follows a f g | NRelationship r => (forall v g, In v (kids k) -> rdata v = NFeature g -> needs a f g) /\ chosen a r f (names_of (kids k)) end).
    { intros u f U D. specialize (Ru u U). unfold rules_at in Ru. rewrite D in Ru. exact Ru. }
    assert (Rp : forall v p g, subtree v t -> rid v = p -> feature_at h p = Some g -> rdata v = NFeature g).
    { intros v p g V <- F. destruct (rep_cell R v V) as (q & C). unfold feature_at in F. rewrite C in F. cbn in F. destruct (rdata v); [congruence|discriminate]. }
    constructor.
    + intros i f S K. apply (stored_sub h m t R) in S. destruct S as (u & U & _ & D). exact (proj1 (At u f U D) K).
    + intros i f p g r S K H F. apply (stored_sub h m t R) in S. destruct S as (u & U & <- & D). pose proof (hangs_tree u p r U H) as X. destruct r as [k|].
      * destruct X as (v & q & V & E & Iq & Dq & Iu). pose proof (Rp v p g V E F) as Dv. pose proof (proj2 (proj2 (At v g V Dv)) q Iq) as Y. rewrite Dq in Y. exact (proj1 Y u f Iu D K).
      * destruct X as (v & V & E & Iu). pose proof (Rp v p g V E F) as Dv. pose proof (proj2 (proj2 (At v g V Dv)) u Iu) as Y. rewrite D in Y. exact (proj1 Y K).
    + intros i f p g S K O H F. apply (stored_sub h m t R) in S. destruct S as (u & U & <- & D). destruct (hangs_tree u p None U H) as (v & V & E & Iu). pose proof (Rp v p g V E F) as Dv. pose proof (proj2 (proj2 (At v g V Dv)) u Iu) as Y. rewrite D in Y. exact (proj2 Y K O).
    + intros n ns G. destruct (group_tree _ n ns G) as (v & f & q & V & D & <- & Iq & Dq & ->). pose proof (proj2 (proj2 (At v f V D)) q Iq) as Y. rewrite Dq in Y. exact (proj2 Y).
    + intros n ns G. destruct (group_tree _ n ns G) as (v & f & q & V & D & <- & Iq & Dq & ->). pose proof (proj2 (proj2 (At v f V D)) q Iq) as Y. rewrite Dq in Y. exact (proj2 Y).
    + intros i f v g S K. apply (stored_sub h m t R) in S. destruct S as (u & U & _ & D). exact (proj1 (proj2 (At u f U D)) v g K).
    + exact C1.
    + exact C2.
Qed.
End Tree.

(** ** Rules of edited trees *)
Lemma rules_node a n d ts : rules a (Node n d ts) <-> rules_at a (Node n d ts) /\ forall k, In k ts -> rules a k.
Proof.
  split.
  - intros Ru. split; [apply Ru; constructor|]. intros k I u U. apply Ru. eapply sub_kid; eauto.
  - intros (A & B) u U. inversion U as [|? ? ? k I U']; subst; [exact A|]. exact (B k I u U').
Qed.
(** The rules at a node depend on the contents of the nodes below only. *)
Definition seems (k k' : tree) : Prop := rdata k' = rdata k /\ (is_relationship (rdata k) = true -> map rdata (kids k') = map rdata (kids k)).
Lemma names_of_map us : names_of us = flat_map (fun d => match d with NFeature f => [f_name f] | NRelationship _ => [] end) (map rdata us).
Proof. unfold names_of. induction us as [|u us IH]; [reflexivity|]. cbn. rewrite IH. reflexivity. Qed.
Lemma rules_at_seems a n n' d ts ts' : Forall2 seems ts ts' -> rules_at a (Node n d ts) -> rules_at a (Node n' d ts').
Proof.
  intros F. unfold rules_at. cbn [rdata kids]. destruct d as [f|]; [|trivial]. intros (A & B & C). split; [exact A|]. split; [exact B|]. intros k' I.
  assert (exists k, In k ts /\ seems k k') as (k & Ik & E & M). { clear -F I. induction F as [|x y l l' S F IH]; [destruct I|]. destruct I as [<-|I]; [exists x; split; [left; reflexivity|exact S]|]. destruct (IH I) as (k & Ik & S'). exists k. split; [right; exact Ik|exact S']. }
  specialize (C k Ik). rewrite E. destruct (rdata k) as [g|r] eqn:D; [exact C|]. specialize (M eq_refl). destruct C as (C1 & C2). split; [|rewrite names_of_map, M, <- names_of_map; exact C2].
  intros v g Iv Dv. assert (In (NFeature g) (map rdata (kids k))) as J by (rewrite <- M, <- Dv; apply in_map; exact Iv). apply in_map_iff in J. destruct J as (w & Dw & Iw). exact (C1 w g Iw Dw).
Qed.
Lemma seems_sym k k' : seems k k' -> seems k' k.
Proof. intros (E & M). split; [congruence|]. intros H. rewrite E in H. symmetry. exact (M H). Qed.
Lemma seems_list_sym ts ts' : Forall2 seems ts ts' -> Forall2 seems ts' ts.
Proof. induction 1; constructor; auto using seems_sym. Qed.
Lemma rdata_edit_same p g t : (forall u, subtree u t -> rid u = p -> rdata (g u) = rdata u) -> rdata (edit p g t) = rdata t.
Proof. intros E. destruct t as [n d ts]. cbn [edit]. destruct (Nat.eqb_spec n p) as [->|]; [apply E; [constructor|reflexivity]|reflexivity]. Qed.
Section Edit.
Variables (a : assignment) (s : tree).
Hypothesis Fs : is_feature (rdata s) = true.
Lemma edit_seems g t : NoDup (ids t) -> (subtree s t \/ ~ In (rid s) (ids t)) -> rdata (g s) = rdata s -> seems t (edit (rid s) g t).
Proof.
  intros N In0 E. assert (Same : forall u, subtree u t -> rid u = rid s -> rdata (g u) = rdata u).
  { intros u U Eu. destruct In0 as [S0|X]; [|exfalso; apply X; rewrite <- Eu; eapply subtree_ids; [exact U|apply rid_in_ids]]. rewrite (subtree_unique t u s N U S0 Eu). exact E. }
  split; [exact (rdata_edit_same _ g t Same)|]. intros Rl. destruct t as [n d ts]. cbn [edit rdata] in *. destruct (Nat.eqb_spec n (rid s)) as [->|Nn].
  - exfalso. destruct In0 as [S0|X]; [|apply X; left; reflexivity]. pose proof (subtree_top s (rid s) d ts N S0 eq_refl) as E0. assert (Ed : rdata s = d) by (rewrite E0; reflexivity). rewrite Ed in Fs. unfold is_relationship in Rl. rewrite Fs in Rl. discriminate.
  - cbn [kids]. rewrite map_map. apply map_ext_in. intros k Ik. apply rdata_edit_same. intros u U Eu. apply Same; [|exact Eu]. eapply sub_kid; eauto.
Qed.
(** What is asked for outside of an edited node. *)
Lemma edit_rules t : NoDup (ids t) -> subtree s t -> exists P : Prop, (rules a t <-> P /\ rules a s) /\
  forall g, rdata (g s) = rdata s -> (rules a (edit (rid s) g t) <-> P /\ rules a (g s)).
Proof.
  induction t as [n d ts IH] using tree_ind'. intros N S0. rewrite Forall_forall in IH. destruct (Nat.eq_dec n (rid s)) as [En|Nn].
  - pose proof (subtree_top s n d ts N S0 (eq_sym En)) as ->. exists True. split; [tauto|]. intros g _. rewrite edit_top by reflexivity. tauto.
  - inversion S0 as [|? ? ? k Ik Sk]; [subst; exfalso; apply Nn; reflexivity|subst]. assert (Nk : NoDup (ids k)) by (cbn [ids] in N; apply NoDup_cons_iff in N; eapply nodup_flat_map_in; [exact (proj2 N)|exact Ik]).
    destruct (IH k Ik Nk Sk) as (P & P1 & P2). exists ((rules_at a (Node n d ts) /\ forall k', In k' ts -> k' <> k -> rules a k') /\ P).
    assert (Other : forall k', In k' ts -> k' <> k -> ~ In (rid s) (ids k')).
    { intros k' Ik' Nk' X. apply Nk'. destruct (ids_subtree _ _ X) as (u & U & Eu). assert (u = s) as -> by (apply (subtree_unique (Node n d ts)); [exact N|eapply sub_kid; eauto|exact S0|exact Eu]).
      destruct (in_split _ _ Ik) as (l & r & ->). cbn [ids] in N. apply NoDup_cons_iff in N. destruct N as (_ & N). rewrite flat_map_app in N. cbn [flat_map] in N. apply nodup_app in N. destruct N as (_ & N & N1). apply nodup_app in N. destruct N as (_ & _ & N2).
      assert (Xk : In (rid s) (ids k)) by (eapply subtree_ids; [exact Sk|apply rid_in_ids]). apply in_app_iff in Ik'. destruct Ik' as [J|[->|J]]; [| reflexivity|].
      - exfalso. apply (N1 (rid s)); [apply in_flat_map; exists k'; auto|apply in_or_app; left; exact Xk].
      - exfalso. apply (N2 (rid s)); [exact Xk|apply in_flat_map; exists k'; auto]. }
    assert (Dec : forall k', k' = k \/ k' <> k -> In k' ts -> rules a k' \/ k' = k -> True) by auto. clear Dec.
    assert (Sp : forall ts' (f : tree -> tree), ts' = map f ts -> ((forall k', In k' ts' -> rules a k') <-> (forall k', In k' ts -> rules a (f k')))) by (intros ts' f ->; split; [intros X k' I'; apply X, in_map; exact I'|intros X k' I'; apply in_map_iff in I'; destruct I' as (x & <- & Ix); exact (X x Ix)]).
    split.
    + rewrite rules_node. split.
      * intros (A & B). pose proof (proj1 P1 (B k Ik)) as (Pp & Rs). split; [split; [split; [exact A|intros k' I' _; exact (B k' I')]|exact Pp]|exact Rs].
      * intros (((A & B) & Pp) & Rs). split; [exact A|]. intros k' I'. destruct (Nat.eq_dec (rid k') (rid k)) as [E|E].
        -- assert (k' = k) as -> by (apply (subtree_unique (Node n d ts)); [exact N|apply subtree_kid; exact I'|apply subtree_kid; exact Ik|exact E]). apply P1. split; assumption.
        -- apply B; [exact I'|intros ->; apply E; reflexivity].
    + intros g Eg. cbn [edit]. destruct (Nat.eqb_spec n (rid s)) as [E|_]; [contradiction|]. rewrite rules_node, (Sp _ (edit (rid s) g) eq_refl).
      assert (Se : Forall2 seems ts (map (edit (rid s) g) ts)).
      { assert (Q : forall l, incl l ts -> Forall2 seems l (map (edit (rid s) g) l)); [|apply Q, incl_refl]. induction l as [|x l IHl]; intros Il; constructor; [|apply IHl; intros y Y; apply Il; right; exact Y].
        pose proof (Il x (or_introl eq_refl)) as Ix. apply edit_seems; [cbn [ids] in N; apply NoDup_cons_iff in N; eapply nodup_flat_map_in; [exact (proj2 N)|exact Ix]| |exact Eg].
        destruct (Nat.eq_dec (rid x) (rid k)) as [E|E]; [left; assert (x = k) as -> by (apply (subtree_unique (Node n d ts)); [exact N|apply subtree_kid; exact Ix|apply subtree_kid; exact Ik|exact E]); exact Sk|right; apply Other; [exact Ix|intros ->; apply E; reflexivity]]. }
      split.
      * intros (A & B). pose proof (proj1 (P2 g Eg) (B k Ik)) as (Pp & Rs). split; [split; [split|exact Pp]|exact Rs]; [exact (rules_at_seems a n n d _ _ (seems_list_sym _ _ Se) A)|].
        intros k' I' Nk'. specialize (B k' I'). rewrite (edit_absent (rid s) g k' (Other k' I' Nk')) in B. exact B.
      * intros (((A & B) & Pp) & Rs). split; [exact (rules_at_seems a n n d _ _ Se A)|]. intros k' I'. destruct (Nat.eq_dec (rid k') (rid k)) as [E|E].
        -- assert (k' = k) as -> by (apply (subtree_unique (Node n d ts)); [exact N|apply subtree_kid; exact I'|apply subtree_kid; exact Ik|exact E]). apply P2; [exact Eg|]. split; assumption.
        -- assert (X : k' <> k) by (intros ->; apply E; reflexivity). rewrite (edit_absent (rid s) g k' (Other k' I' X)). exact (B k' I' X).
Qed.
End Edit.
