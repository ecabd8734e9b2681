(** The number of configurations. *)
From Coq Require Import List ZArith Arith Bool Ascii String Lia.
From Verif Require Import Text TextProofs FeatureTreeModel FeatureTreeSpec FeatureTreeProofs FeatureTransactionModel FeatureEditSpec FeatureEditProofs FeatureDataProofs FeatureBuildSpec FeatureHistoryProofs XmlModel
  SolverModel SolverSpec SolverLoadProofs GeneratorProofs XmlTripWrite SolverEnumerationProofs SolverFinal ValidProofs EditValidSpec EditValidProofs CountSpec CountBase CountProofs.
Import ListNotations.

Section Amount.
Variable amount : feature -> nat.

Lemma names_split u : map fst (opts u) = map fst (named u).
Proof.
  induction u as [n d ts IH] using tree_ind'. cbn [opts named]. rewrite !map_app. f_equal; [destruct d; reflexivity|]. induction IH as [|k ts E _ IHs]; [reflexivity|]. cbn [flat_map]. rewrite !map_app, E, IHs. reflexivity.
Qed.
Lemma member_names ts : (forall k, In k ts -> exists g, rdata k = NFeature g /\ f_kind g = FBinary) -> names_of ts = map name_of ts.
Proof.
  induction ts as [|k ts IH]; intros H; [reflexivity|]. unfold names_of in *. cbn [flat_map map]. rewrite IH by (intros j J; apply H; right; exact J). destruct (H k (or_introl eq_refl)) as (g & D & _). unfold name_of. rewrite D. reflexivity.
Qed.
Lemma distinct_members ts : (forall k, In k ts -> exists g, rdata k = NFeature g /\ f_kind g = FBinary) -> NoDup (map fst (flat_map opts ts)) -> NoDup (map name_of ts).
Proof.
  induction ts as [|k ts IH]; intros H N; [constructor|]. destruct (parts_apart opts k ts N) as (X & N'). cbn [map]. constructor; [|apply IH; [intros j J; apply H; right; exact J|exact N']].
  assert (Top : forall j, In j (k :: ts) -> In (name_of j) (map fst (opts j))).
  { intros j J. destruct (H j J) as (g & D & B). unfold name_of. rewrite D. apply in_map_iff. exists (f_name g, SBool). split; [reflexivity|]. apply top_opt; [exact D|exact (binary_plain g B)]. }
  intros I. apply in_map_iff in I. destruct I as (j & E & J). apply (X (name_of k) (Top k (or_introl eq_refl))). rewrite <- E. apply in_map_iff. pose proof (Top j (or_intror J)) as Y. apply in_map_iff in Y. destruct Y as (v & Ev & V). exists v. split; [exact Ev|]. apply in_flat_map. exists j. auto.
Qed.

Lemma all_good u : fit amount u -> NoDup (map fst (opts u)) -> good amount u.
Proof.
  induction u as [n d ts IH] using tree_ind'. rewrite Forall_forall in IH. intros F N. pose proof (fit_top amount _ F) as Fu.
  assert (Fk : forall k, In k ts -> fit amount k) by (intros k I; exact (fit_kid amount n d ts k F I)).
  assert (Nt : NoDup (map fst (flat_map opts ts))).
  { cbn [opts] in N. rewrite map_app in N. revert N. generalize (map fst (flat_map opts ts)). generalize (map fst match d with NFeature f => [(f_name f, if is_numeric f then SInt else SBool)] | NRelationship _ => [] end).
    intros l. induction l as [|x l IHl]; intros k N; [exact N|]. inversion N; subst. apply IHl. assumption. }
  assert (Gk : forall k, In k ts -> good amount k).
  { intros k I. apply IH; [exact I|exact (Fk k I)|]. clear - Nt I. induction ts as [|j ts IHt]; [destruct I|]. cbn [flat_map] in Nt. rewrite map_app in Nt. destruct I as [->|I].
    - clear IHt. revert Nt. generalize (map fst (flat_map opts ts)). intros l Nt. induction (map fst (opts k)) as [|x q IHq]; [constructor|]. cbn in Nt. inversion Nt as [|? ? A B]; subst. constructor; [intros X; apply A; apply in_or_app; auto|exact (IHq B)].
    - apply IHt; [|exact I]. destruct (parts_apart opts j ts) as (_ & Y); [cbn [flat_map]; rewrite map_app; exact Nt|exact Y]. }
  unfold good. cbn [rdata kids]. destruct d as [f|r].
  - assert (Ap : forall s, In s (map fst [(f_name f, if is_numeric f then SInt else SBool)]) -> ~ In s (map fst (flat_map opts ts))).
    { intros s [<-|[]] I. cbn in N. inversion N as [|? ? X _]; subst. exact (X I). }
    unfold fit_node in Fu. cbn [rdata kids] in Fu. destruct (is_numeric f) eqn:Nf.
    + unfold is_numeric, numeric_kind in Nf. destruct (f_kind f) as [|vs step| |] eqn:Kf; try discriminate Nf. destruct Fu as (Fu & zs & Dz & Lz & Az).
      cbn [opts idle]. unfold is_numeric. rewrite Kf. cbn [numeric_kind]. rewrite <- Lz.
      apply (counted_ext _ (fun a => allowed_value vs step (a_int a (f_name f)) /\ forall k, In k ts -> rules a k)).
      * intros a. rewrite rules_node. unfold rules_at. cbn [rdata kids]. split.
        -- intros (A & Rk). split; [|exact Rk]. split; [rewrite Kf; discriminate|]. split; [intros v st E; rewrite Kf in E; injection E as <- <-; exact A|].
           intros k I. destruct (Fu k I) as (g & D & Ng). rewrite D. split; intros B; rewrite (binary_plain g B) in Ng; discriminate Ng.
        -- intros ((_ & A & _) & Rk). split; [exact (A vs step Kf)|exact Rk].
      * assert (is_numeric f = true) as E by (unfold is_numeric; rewrite Kf; reflexivity).
        apply (counted_and [(f_name f, SInt)]); [exact Ap|apply (local_int (f_name f) (allowed_value vs step))|apply (local_all opts (fun k a => rules a k)); intros k I; apply (rules_local amount); exact (Fk k I)|apply counted_int; assumption|].
        apply (counted_all opts (fun k a => rules a k)); [exact Nt|intros k I; apply (rules_local amount); exact (Fk k I)|].
        intros k I. pose proof (Gk k I) as G. unfold good in G. destruct (Fu k I) as (g & D & Ng). rewrite D, Ng in G. exact G.
    + assert (NR : forall k, In k ts -> forall g, rdata k = NFeature g -> f_kind g <> FRoot).
      { intros k I g D. unfold is_numeric in Nf. destruct (f_kind f); [exact (Fu k g I D)|discriminate Nf|exact (Fu k g I D)|destruct Fu]. }
      cbn [opts]. rewrite Nf. split.
      * rewrite ways_feature. rewrite <- (Nat.mul_1_l (product _)).
        apply (counted_ext _ (fun a => a_bool a (f_name f) = true /\ forall k, In k ts -> on_kid k a)).
        -- intros a. split; [intros (E & H); split; [apply rules_on; assumption|exact E]|intros (R & E); split; [exact E|apply (rules_on n f ts a Nf E); exact R]].
        -- apply (counted_and [(f_name f, SBool)]); [exact Ap|apply local_bool|apply local_all; intros k I; apply (on_kid_local amount); exact (Fk k I)|apply counted_bool|].
           apply counted_all; [exact Nt|intros k I; apply (on_kid_local amount); exact (Fk k I)|]. intros k I. apply on_counted; [exact (Fk k I)|exact (Gk k I)|exact (NR k I)].
      * intros B. cbn [idle]. change (numeric_kind (f_kind f)) with (is_numeric f). rewrite Nf.
        apply (counted_ext _ (fun a => a_bool a (f_name f) = false /\ forall k, In k ts -> off_kid k a)).
        -- intros a. split; [intros (E & H); split; [apply rules_off; assumption|exact E]|intros (R & E); split; [exact E|apply (rules_off n f ts a B E); exact R]].
        -- apply (counted_and [(f_name f, SBool)]); [exact Ap|apply local_bool|apply local_all; intros k I; apply (off_kid_local amount); exact (Fk k I)|apply counted_bool|].
           apply counted_all; [exact Nt|intros k I; apply (off_kid_local amount); exact (Fk k I)|]. intros k I. apply off_counted; [exact (Fk k I)|exact (Gk k I)|exact (NR k I)].
  - unfold fit_node in Fu. cbn [rdata kids] in Fu. pose proof (member_names ts Fu) as Nm. pose proof (distinct_members ts Fu Nt) as Dm.
    assert (Ly : forall k (b : bool), In k ts -> local (opts k) (fun a => rules a k /\ a_bool a (name_of k) = b)).
    { intros k b I. destruct (Fu k I) as (g & D & B). apply local_and; [apply (rules_local amount); exact (Fk k I)|]. apply local_name. unfold name_of. rewrite D. apply top_opt; [exact D|exact (binary_plain g B)]. }
    assert (Cy : forall k, In k ts -> local (opts k) (yes k) /\ local (opts k) (no k) /\ counted (opts k) (yes k) (ways amount k) /\ counted (opts k) (no k) (idle amount k) /\ forall a, yes k a -> ~ no k a).
    { intros k I. split; [exact (Ly k true I)|]. split; [exact (Ly k false I)|]. pose proof (Gk k I) as G. destruct (Fu k I) as (g & D & B). unfold good in G. rewrite D, (binary_plain g B) in G. unfold yes, no, name_of. rewrite D. split; [apply G|]. split; [apply G; exact B|]. intros a (_ & X) (_ & Y). congruence. }
    cbn [opts app]. split.
    + destruct r.
      * apply (counted_ext _ (exactly yes no ts)); [intros a; rewrite (exactly_picked ts a Dm Nm), rules_group; reflexivity|]. cbn [ways]. apply counted_exactly; assumption.
      * apply (counted_ext _ (some_part yes no ts)); [intros a; rewrite (some_picked ts a Nm), rules_group; reflexivity|]. cbn [ways]. apply counted_some; assumption.
    + cbn [idle]. rewrite Nat.mul_1_l. apply (counted_ext _ (fun a => forall k, In k ts -> no k a)).
      * intros a. rewrite rules_group. split.
        -- intros H. split; [intros k I; apply (H k I)|]. intros v g V D B. pose proof (proj2 (H v V)) as E. unfold name_of in E. rewrite D in E. exact E.
        -- intros (R & X) k I. split; [exact (R k I)|]. destruct (Fu k I) as (g & D & B). unfold name_of. rewrite D. exact (X k g I D B).
      * apply counted_all; [exact Nt| |]; intros k I; apply (Cy k I).
Qed.
End Amount.

(** A model without constraints. *)
Section Model.
Variables (amount : feature -> nat) (h : heap) (m : fmodel) (t : tree).
Hypothesis R : represents h m t.
Hypothesis Su : supported h m.
Hypothesis No : all_constraints m = [].
Hypothesis Am : amounts amount t.
Hypothesis Pl : plain_groups t.

Lemma not_root_below v f k g : subtree v t -> rdata v = NFeature f -> In k (kids v) -> rdata k = NFeature g -> f_kind g <> FRoot.
Proof.
  intros V D I Dk E. apply (hangs_root h m t R (rid k) g (rid v) None); [apply (sub_stored h m t R); [exact (kid_sub t v k V I)|exact Dk]|exact E|]. apply (hangs_kid h m t R v k V I). rewrite D. reflexivity.
Qed.
Lemma tree_fit : fit amount t.
Proof.
  intros v V. unfold fit_node. destruct (rdata v) as [f|r] eqn:D.
  - pose proof (sub_stored h m t R v f V D) as Sf. destruct (f_kind f) as [|vs step| |] eqn:K.
    + intros k g I Dk E. exact (not_root_below v f k g V D I Dk E).
    + split; [|exact (Am v f vs step V D K)]. intros k I. destruct (rdata k) as [g|r] eqn:Dk.
      * exists g. split; [reflexivity|]. pose proof (kid_sub t v k V I) as Ks. pose proof (sub_stored h m t R k g Ks Dk) as Sg. unfold is_numeric. destruct (f_kind g) eqn:Kg; [|reflexivity| |].
        -- exfalso. pose proof (su_parents _ _ Su _ _ _ f None Sg Kg (hangs_kid h m t R v k V I ltac:(rewrite D; reflexivity)) (rep_feature_at h m t v f R V D)) as X. rewrite K in X. discriminate X.
        -- exfalso. exact (not_root_below v f k g V D I Dk Kg).
        -- exfalso. exact (su_kinds _ _ Su _ _ Sg Kg).
      * exfalso. destruct (Pl v k r V I Dk) as (X & _). specialize (X f D). rewrite K in X. discriminate X.
    + intros k g I Dk E. exact (not_root_below v f k g V D I Dk E).
    + exact (su_kinds _ _ Su _ _ Sf K).
  - destruct (subtree_parent v t V) as [->|(u & U & I)]; [exfalso; destruct (rep_top_data R) as (f & E & _); congruence|]. exact (proj2 (Pl u v r U I D)).
Qed.
Lemma valid_counted : counted (opts t) (SolverSpec.valid h m) (ways amount t).
Proof.
  destruct (rep_top_data R) as (f & D & K). assert (NoDup (map fst (opts t))) as N by (rewrite names_split; exact (rep_names _ _ _ R)).
  pose proof (all_good amount t tree_fit N) as G. unfold good in G. rewrite D in G. unfold is_numeric in G. rewrite K in G. cbn [numeric_kind] in G. destruct G as (G & _). revert G. apply counted_ext.
  intros a. rewrite (valid_rules h m t R a). unfold all_constraints in No. apply app_eq_nil in No. destruct No as (N1 & N2). apply app_eq_nil in N2. destruct N2 as (N2 & N3). apply map_eq_nil in N3. split.
  - intros (Ra & _). split; [exact Ra|]. split; [rewrite N1, N2; intros c []|rewrite N3; intros x []].
  - intros (Ra & _). split; [exact Ra|]. pose proof (Ra t (sub_refl t)) as X. unfold rules_at in X. rewrite D in X. exact (proj1 X K).
Qed.
Lemma registered_opts vs : features_registered h m vs -> forall v, In v vs <-> In v (opts t).
Proof.
  intros (_ & F) (n, so). rewrite F, opts_in. split.
  - intros (i & f & Sf & E1 & E2). apply (stored_sub h m t R) in Sf. destruct Sf as (u & U & _ & D). exists u, f. auto.
  - intros (u & f & U & D & E1 & E2). exists (rid u), f. split; [exact (sub_stored h m t R u f U D)|]. auto.
Qed.
Lemma apart_projections vs l : apart vs l -> NoDup (map (projection vs) l).
Proof.
  induction l as [|a l IH]; intros A; [constructor|]. destruct A as (A1 & A2). constructor; [|exact (IH A2)]. intros I. apply in_map_iff in I. destruct I as (b & E & I). apply (A1 b I). apply projection_same. symmetry. exact E.
Qed.
Theorem count_configurations ord : is_order ord -> exists N, forall fuel, N <= fuel -> exists s, load ord fuel h m = Some s /\
  forall check, decides check (s_vars s) (s_asserted s) -> exists M, forall fuel', M <= fuel' ->
    get_num check fuel' s = Some (if Nat.eqb (ways amount t) 0 then inr Unsat else inl (ways amount t)).
Proof.
  intros Or. assert (no_xor m) as X.
  { intros e I. unfold all_constraints in No. rewrite No in I. destruct I. }
  destruct (encoding_exact ord h m t Or R Su X) as (N1 & H1). destruct (load_registers ord h m t Or R Su) as (N2 & H2). exists (N1 + N2). intros fuel L.
  destruct (H1 fuel ltac:(lia)) as (s & E & V). destruct (H2 fuel ltac:(lia)) as (s' & E' & Rg). rewrite E in E'. injection E' as <-. exists s. split; [exact E|]. intros check Dec.
  destruct (count_all check s (load_reached _ _ _ _ _ E) Dec) as (M & C). exists M. intros fuel' L'. destruct (C fuel' L') as (_ & C').
  destruct valid_counted as (l & Ll & Al & Dl & Cl).
  assert (Sv : forall a b, same_values (opts t) a b <-> same_values (s_vars s) a b).
  { intros a b. pose proof (registered_opts _ Rg) as Q. split; intros S n so I; apply S; apply Q; exact I. }
  rewrite (C' (map (configuration (s_vars s)) l)); [rewrite map_length, Ll; reflexivity|].
  apply complete_lists; [exact (proj1 Rg)| |].
  - split; [intros a I; apply V; exact (Al a I)|]. apply apart_projections. clear - Dl Sv. induction l as [|a l IH]; [exact Logic.I|]. destruct Dl as (D1 & D2). split; [|exact (IH D2)]. intros b I S. apply (D1 b I). apply Sv. exact S.
  - intros a Sa. apply V in Sa. destruct (Cl a Sa) as (b & I & S). exists b. split; [exact I|]. apply same_sym. apply Sv. exact S.
Qed.
End Model.
