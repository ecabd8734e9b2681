(** The number of configurations after a feature has been added at the root. *)
From Coq Require Import List ZArith Arith Bool Ascii String Lia.
From Verif Require Import Text TextProofs FeatureTreeModel FeatureTreeSpec FeatureTreeProofs FeatureTransactionModel FeatureEditSpec FeatureEditProofs FeatureDataProofs FeatureOpsProofs FeatureBuildSpec FeatureHistoryProofs XmlModel
  SolverModel SolverSpec SolverLoadProofs GeneratorProofs SolverFinal EditValidSpec EditValidProofs CountSpec CountBase CountProofs CountFinal.
Import ListNotations.

Section Grown.
Variables (h h' : heap) (m m' : fmodel) (t : tree) (f : feature) (i : nid) (amount : feature -> nat).
Notation t' := (add_kid (Node i (NFeature f) []) t).
Hypothesis R : represents h m t.
Hypothesis R' : represents h' m' t'.
Hypothesis Su : supported h m.
Hypothesis No : all_constraints m = [].
Hypothesis No' : all_constraints m' = [].
Hypothesis Am : amounts amount t.
Hypothesis Pl : plain_groups t.
Hypothesis Co : countable amount f.

(** Every part is an old part, the new feature, or the root. *)
Lemma part u : subtree u t' -> u = t' \/ u = Node i (NFeature f) [] \/ (subtree u t).
Proof.
  clear. destruct t as [n d ts]. intros U. inversion U as [|? ? ? x I S]; [left; reflexivity|]. right. cbn [kids] in I. apply in_app_or in I. destruct I as [I|[<-|[]]].
  - right. eapply sub_kid; eassumption.
  - left. inversion S as [|? ? ? y J]; [reflexivity|destruct J].
Qed.
Lemma part_data u g : subtree u t' -> rdata u = NFeature g -> g = f /\ rid u = i \/ exists v, subtree v t /\ rid v = rid u /\ rdata v = NFeature g.
Proof.
  intros U D. destruct (part u U) as [-> | [-> | S]].
  - right. exists t. split; [constructor|]. split; [reflexivity|exact D].
  - left. cbn in D. injection D as ->. auto.
  - right. eauto.
Qed.
(** A child of a part is the new feature at the root or an old child. *)
Lemma part_kid v u : subtree v t' -> In u (kids v) -> v = t' /\ u = Node i (NFeature f) [] \/ exists w, subtree w t /\ rdata w = rdata v /\ In u (kids w).
Proof.
  intros V I. destruct (part v V) as [-> | [-> | S]].
  - cbn [kids add_kid with_kids] in I. apply in_app_or in I. destruct I as [I|[<-|[]]]; [|left; auto]. right. exists t. split; [constructor|]. auto.
  - destruct I.
  - right. exists v. auto.
Qed.
Lemma below_root v u : subtree v t' -> In u (kids v) -> v <> t' -> exists w, subtree w t /\ rdata w = rdata v /\ In u (kids w).
Proof. intros V I N. destruct (part_kid v u V I) as [(E & _)|X]; [contradiction|exact X]. Qed.

Lemma root_not_numeric g : rdata t' = NFeature g -> numeric_kind (f_kind g) = false.
Proof. intros D. destruct (rep_top_data R') as (g' & E & K). rewrite E in D. injection D as <-. rewrite K. reflexivity. Qed.

Lemma grown_supported : supported h' m'.
Proof.
  assert (Old : forall u w, subtree w t -> In u (kids w) -> subtree u t) by (intros u w; apply kid_sub).
  constructor.
  - intros j g Sg K. apply (stored_sub h' m' t' R') in Sg. destruct Sg as (u & U & _ & D). destruct (part_data u g U D) as [(-> & _)|(v & V & _ & Dv)].
    + destruct Co as [B|(v & s & B & _)]; rewrite B in K; discriminate.
    + exact (su_kinds _ _ Su _ _ (sub_stored h m t R v g V Dv) K).
  - intros j g p q r Sg K H F. apply (stored_sub h' m' t' R') in Sg. destruct Sg as (u & U & <- & D). pose proof (hangs_tree h' m' t' R' u p r U H) as X. destruct r as [k|].
    + destruct X as (v & o & V & E & Io & Do & Iu). destruct (part_kid v o V Io) as [(_ & ->)|(w & W & Dw & Io')]; [destruct Iu|].
      assert (Dq : rdata v = NFeature q). { destruct (rdata v) as [q'|r'] eqn:Dv; [|exfalso]. { pose proof (rep_feature_at h' m' t' v q' R' V Dv) as Y. rewrite E in Y. rewrite F in Y. injection Y as ->. reflexivity. }
        rewrite <- E in F. destruct (subtree_parent v t' V) as [Ev|(x & Xs & Ix)]; [destruct (rep_top_data R') as (? & Y & _); rewrite <- Ev in Y; congruence|]. unfold feature_at in F. rewrite (rep_kid R' x v Xs Ix), Dv in F. discriminate F. }
      rewrite Dq in Dw. apply (su_parents _ _ Su (rid u) g (rid w) q (Some k)); [|exact K| |].
      * apply (sub_stored h m t R); [|exact D]. apply (Old u o); [|exact Iu]. exact (Old o w W Io').
      * exact (hangs_member h m t R w o k u W Io' Do Iu).
      * exact (rep_feature_at h m t w q R W Dw).
    + destruct X as (v & V & E & Iu).
      assert (Dq : rdata v = NFeature q). { destruct (rdata v) as [q'|r'] eqn:Dv; [|exfalso]. { pose proof (rep_feature_at h' m' t' v q' R' V Dv) as Y. rewrite E in Y. rewrite F in Y. injection Y as ->. reflexivity. }
        rewrite <- E in F. destruct (subtree_parent v t' V) as [Ev|(x & Xs & Ix)]; [destruct (rep_top_data R') as (? & Y & _); rewrite <- Ev in Y; congruence|]. unfold feature_at in F. rewrite (rep_kid R' x v Xs Ix), Dv in F. discriminate F. }
      destruct (part_kid v u V Iu) as [(Ev & _)|(w & W & Dw & Iu')]; [rewrite Ev in Dq; exact (root_not_numeric q Dq)|]. rewrite Dq in Dw.
      apply (su_parents _ _ Su (rid u) g (rid w) q None); [apply (sub_stored h m t R); [exact (Old u w W Iu')|exact D]|exact K| |exact (rep_feature_at h m t w q R W Dw)].
      apply (hangs_kid h m t R w u W Iu'). rewrite Dw. reflexivity.
  - intros n ns G. destruct (group_tree h' m' t' R' _ n ns G) as (v & g & q & V & D & <- & Iq & Dq & ->). destruct (part_kid v q V Iq) as [(_ & ->)|(w & W & Dw & Iq')]; [discriminate Dq|].
    apply (su_alternatives _ _ Su (f_name g)). apply (group_names h m t R q _ w g); [exact W|rewrite Dw; exact D|exact Iq'|exact Dq].
  - intros j g v s Sg K. apply (stored_sub h' m' t' R') in Sg. destruct Sg as (u & U & _ & D). destruct (part_data u g U D) as [(-> & _)|(x & X & _ & Dx)].
    + destruct Co as [B|(v' & s' & B & L & _)]; rewrite B in K; [discriminate|]. injection K as <- <-. exact L.
    + exact (su_ranges _ _ Su _ _ v s (sub_stored h m t R x g X Dx) K).
  - unfold all_constraints in No'. apply app_eq_nil in No'. destruct No' as (N1 & N2). apply app_eq_nil in N2. destruct N2 as (N2 & _). rewrite N1, N2. intros c [].
  - unfold all_constraints in No'. apply app_eq_nil in No'. destruct No' as (N1 & N2). apply app_eq_nil in N2. destruct N2 as (_ & N3). apply map_eq_nil in N3. rewrite N3. intros c [].
Qed.
Lemma grown_amounts : amounts amount t'.
Proof.
  intros u g v s U D K. destruct (part_data u g U D) as [(-> & _)|(x & X & _ & Dx)]; [|exact (Am x g v s X Dx K)].
  destruct Co as [B|(v' & s' & B & _ & Z)]; rewrite B in K; [discriminate|]. injection K as <- <-. exact Z.
Qed.
Lemma grown_groups : plain_groups t'.
Proof.
  intros u q k U I D. destruct (part_kid u q U I) as [(_ & ->)|(w & W & Dw & I')]; [discriminate D|]. destruct (Pl w q k W I' D) as (P1 & P2). rewrite Dw in P1. auto.
Qed.
Lemma product_app l k : product (l ++ k) = product l * product k.
Proof. unfold product. induction l as [|x l IH]; cbn [app fold_right]; [lia|]. rewrite IH. lia. Qed.
Lemma grown_ways : ways amount t' = ways amount t * factor amount f.
Proof.
  destruct (rep_top_data R) as (g & D & _). clear - D. destruct t as [n d ts]. cbn [rdata] in D. subst d. unfold add_kid, with_kids. cbn [rid rdata kids ways]. rewrite map_app, product_app. f_equal. cbn [map rdata ways idle]. unfold factor, product. cbn [map fold_right].
  destruct (numeric_kind (f_kind f)); [lia|]. destruct (f_optional f); lia.
Qed.
End Grown.

Theorem count_grown amount ord h m t f :
  is_order ord -> represents h m t -> supported h m -> all_constraints m = [] -> amounts amount t -> plain_groups t ->
  countable amount f -> get_feature m (f_name f) = None ->
  exists h' m', exec ord (OAddFeature f None) (h, m) = Some ((h', m'), None) /\
    exists N, forall fuel, N <= fuel -> exists s s', load ord fuel h m = Some s /\ load ord fuel h' m' = Some s' /\
    forall check check', decides check (s_vars s) (s_asserted s) -> decides check' (s_vars s') (s_asserted s') ->
    exists M, forall fuel', M <= fuel' ->
      (get_num check fuel' s = Some (inr Unsat) /\ get_num check' fuel' s' = Some (inr Unsat)) \/
      exists n, n <> 0 /\ get_num check fuel' s = Some (inl n) /\
        get_num check' fuel' s' = Some (if Nat.eqb (factor amount f) 0 then inr Unsat else inl (n * factor amount f)).
Proof.
  intros Or R Su No Am Pl Co G.
  assert (K : f_kind f <> FRoot) by (destruct Co as [B|(v & s & B & _)]; rewrite B; discriminate).
  assert (F : is_feature (rdata t) = true) by (destruct (rep_top_data R) as (g & D & _); rewrite D; reflexivity).
  destruct (exec_add_feature_ok ord h m t f None t R K G (sub_refl t) F (or_intror (conj eq_refl eq_refl))) as (h' & m' & E & R' & Em & _).
  rewrite edit_top in R' by reflexivity. exists h', m'. split; [exact E|].
  assert (No' : all_constraints m' = []) by (rewrite Em; exact No).
  pose proof (grown_supported h h' m m' t f (h_next h) amount R R' Su No' Co) as Su'.
  pose proof (grown_amounts h' m' t f (h_next h) amount R' Am Co) as Am'.
  pose proof (grown_groups t f (h_next h) Pl) as Pl'.
  destruct (count_configurations amount h m t R Su No Am Pl ord Or) as (N1 & H1).
  destruct (count_configurations amount h' m' _ R' Su' No' Am' Pl' ord Or) as (N2 & H2).
  exists (N1 + N2). intros fuel L. destruct (H1 fuel ltac:(lia)) as (s & E1 & C1). destruct (H2 fuel ltac:(lia)) as (s' & E2 & C2). exists s, s'. split; [exact E1|]. split; [exact E2|].
  intros check check' D1 D2. destruct (C1 check D1) as (M1 & X1). destruct (C2 check' D2) as (M2 & X2). exists (M1 + M2). intros fuel' L'. rewrite (X1 fuel' ltac:(lia)), (X2 fuel' ltac:(lia)).
  rewrite (grown_ways h m t f (h_next h) amount R). destruct (Nat.eqb_spec (ways amount t) 0) as [Z|Z].
  - left. rewrite Z. split; reflexivity.
  - right. exists (ways amount t). split; [exact Z|]. split; [reflexivity|]. destruct (Nat.eqb_spec (factor amount f) 0) as [Y|Y].
    + rewrite Y, Nat.mul_0_r. reflexivity.
    + destruct (Nat.eqb_spec (ways amount t * factor amount f) 0) as [Q|Q]; [apply Nat.eq_mul_0 in Q; tauto|reflexivity].
Qed.
