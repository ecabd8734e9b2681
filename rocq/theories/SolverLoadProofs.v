(** Loading a model into the solver. *)
From Coq Require Import List ZArith Arith Bool Ascii String Permutation Lia.
From Coq Require Import ZifyBool.
From Verif Require Import Text TextProofs ConstraintModel ConstraintSpec SourceRangeModel StepFunctionModel StepFunctionSpec StepFunctionProofs
  ConfigurationModel FeatureTreeModel FeatureTreeSpec FeatureTreeProofs FeatureOrderProofs FeatureTreeFinal FeatureTransactionModel
  FeatureEditSpec FeatureEditProofs FeatureOpsProofs FeatureDataProofs FeatureHistoryProofs FeatureBuildSpec FeatureCloneProofs SolverModel SolverSpec SolverProofs.
Import ListNotations.
Local Open Scope list_scope.

(** ** Formulas *)
Lemma satisfies_app a ts us : satisfies a (ts ++ us) <-> satisfies a ts /\ satisfies a us.
Proof.
  split.
  - intros H. split; intros t I; apply H, in_or_app; auto.
  - intros (A & B) t I. apply in_app_or in I. destruct I as [I|I]; auto.
Qed.
Lemma satisfies_one a t : satisfies a [t] <-> beval a t = true.
Proof. split; [intros H; apply H; left; reflexivity|intros H u [<-|[]]; exact H]. Qed.
Lemma satisfies_nil a : satisfies a [].
Proof. intros t []. Qed.

Lemma one_of_eval a n vs : beval a (one_of n vs) = true <-> In (a_int a n) vs.
Proof.
  unfold one_of. assert (H : forall t, beval a (fold_left (fun t v => TOr t (TCompare CmpEq (IVar n) (INum v))) vs t) = true <-> beval a t = true \/ In (a_int a n) vs).
  { induction vs as [|v vs IH]; intros t; cbn [fold_left In]; [tauto|]. rewrite IH. cbn. rewrite orb_true_iff, Z.eqb_eq. intuition auto. }
  rewrite H. cbn. split; [intros [E|E]; [discriminate|exact E]|auto].
Qed.

(** ** Ranges *)
Lemma iterates_prefix g lo vs v : iterates g lo vs v -> forall ws w, iterates g lo ws w ->
  List.length vs < List.length ws -> exists zs, ws = vs ++ v :: zs.
Proof.
  intros I ws w J. revert vs v I. induction J as [|ws w x J IH G]; intros vs v I L; [cbn in L; lia|].
  rewrite app_length in L. cbn in L. destruct (Nat.eq_dec (List.length vs) (List.length ws)) as [E|N].
  - assert (U : forall vs v, iterates g lo vs v -> forall ws w, iterates g lo ws w -> List.length vs = List.length ws -> vs = ws /\ v = w).
    { clear. intros vs v I. induction I as [|vs v w I IH G]; intros ws x J E; inversion J as [|ws' y z J' G']; subst; cbn in *; rewrite ?app_length in E; cbn in E; try lia; auto.
      destruct (IH _ _ J') as (-> & ->); [lia|]. split; [reflexivity|congruence]. }
    destruct (U _ _ I _ _ J E) as (-> & ->). exists []. reflexivity.
  - destruct (IH _ _ I) as (zs & ->); [lia|]. exists (zs ++ [w]). rewrite <- app_assoc. reflexivity.
Qed.

Lemma values_listed v step : leaves_range v step -> exists N vs,
  (forall fuel, N <= fuel -> match v with VList l => l = vs | VRange lo hi => expand fuel step lo hi = Expanded vs end) /\
  (forall z, In z vs <-> allowed_value v step z).
Proof.
  destruct v as [lo hi|l]; cbn.
  2:{ intros _. exists 0, l. split; [reflexivity|tauto]. }
  intros L. destruct (Z_lt_le_dec hi lo) as [G|G].
  - exists 0, []. split.
    + intros fuel _. unfold expand. destruct fuel; cbn; replace (lo <=? hi)%Z with false by lia; reflexivity.
    + intros z. split; [intros []|]. intros (g & vs & _ & I & F). apply Forall_app in F. destruct F as (F & Fz).
      assert (In lo (vs ++ [z])) as X.
      { clear F Fz. induction I as [|vs v w I IH Gv]; [left; reflexivity|]. apply in_or_app. left. exact IH. }
      assert ((lo <= hi)%Z); [|lia]. assert (F' : Forall (fun x => (x <= hi)%Z) (vs ++ [z])) by (apply Forall_app; auto). rewrite Forall_forall in F'. auto.
  - destruct L as [L|(g & vs & z & -> & I & F & X)]; [lia|]. destruct (proj2 (expand_spec g lo hi (rev vs))) as (N & E).
    { exists z. rewrite rev_involutive. split; [exact I|]. split; [apply Forall_rev; exact F|exact X]. }
    exists N, (rev vs). split; [intros fuel Le; exact (expand_more N fuel _ _ _ _ _ Le E)|]. intros y. rewrite <- in_rev. split.
    + intros Y. apply in_split in Y. destruct Y as (v1 & v2 & ->). exists g, v1. split; [reflexivity|]. split.
      * clear - I. remember (v1 ++ y :: v2) as ws eqn:W. revert v2 W. induction I as [|ws w x I IH G]; intros v2 W; [destruct v1; discriminate|].
        destruct v2 as [|u v2] using rev_ind.
        -- apply app_inj_tail in W. destruct W as (-> & ->). exact I.
        -- rewrite app_comm_cons, app_assoc in W. apply app_inj_tail in W. destruct W as (-> & ->). eapply IH. reflexivity.
      * apply Forall_app in F. destruct F as (F1 & F2). apply Forall_app. split; [exact F1|]. inversion F2; auto.
    + intros (g' & ws & Eg & J & Fw). injection Eg as <-. destruct (le_lt_dec (List.length vs) (List.length ws)) as [Le|Lt].
      * exfalso. assert (Z : In z (ws ++ [y])).
        { destruct (Nat.eq_dec (List.length vs) (List.length ws)) as [Q|Q].
          - destruct (iterates_prefix g lo vs z I (ws ++ [y]) (match g y with Some x => x | None => y end)) as (zs & Z).
            + destruct (g y) as [x|] eqn:Gy; [econstructor; eassumption|].
              exfalso. (* only reached at the end *)
              assert (U : forall vs v, iterates g lo vs v -> forall ws w, iterates g lo ws w -> List.length vs = List.length ws -> vs = ws /\ v = w).
              { clear. intros vs v I. induction I as [|vs v w I IH G]; intros ws x J E; inversion J as [|ws' y z J' G']; subst; cbn in *; rewrite ?app_length in E; cbn in E; try lia; auto.
                destruct (IH _ _ J') as (-> & ->); [lia|]. split; [reflexivity|congruence]. }
              destruct (U _ _ I _ _ J Q) as (-> & ->). apply Forall_app in Fw. destruct Fw as (_ & Fz). inversion Fz; lia.
            + rewrite app_length. cbn. lia.
            + rewrite Z. apply in_or_app. right. left. reflexivity.
          - destruct (iterates_prefix g lo vs z I ws y J) as (zs & ->); [lia|]. apply in_or_app. left. apply in_or_app. right. left. reflexivity. }
        rewrite Forall_forall in Fw. specialize (Fw z Z). lia.
      * destruct (iterates_prefix g lo ws y J vs z I Lt) as (zs & ->). apply in_or_app. right. left. reflexivity.
Qed.

(** ** Sequences of calls *)
Lemma call_all_none {A} (f : A -> solver -> sresult) l : fold_left (then_call f) l None = None.
Proof. induction l as [|x l IH]; [reflexivity|exact IH]. Qed.
Lemma call_all_cons {A} (f : A -> solver -> sresult) x l s :
  call_all f (x :: l) s = (let* (s1, _) := f x s in call_all f l s1).
Proof. unfold call_all. cbn [fold_left then_call bind]. destruct (f x s) as [[s1 e]|]; cbn [bind]; [reflexivity|apply call_all_none]. Qed.

Lemma call_all_asserts {A} (f : A -> solver -> sresult) (P : assignment -> A -> Prop) l :
  (forall x s, In x l -> exists t, f x s = done (assert_term s t) /\ forall a, beval a t = true <-> P a x) ->
  forall s, exists s', call_all f l s = Some s' /\ s_vars s' = s_vars s /\ s_model s' = s_model s /\
    forall a, satisfies a (s_asserted s') <-> satisfies a (s_asserted s) /\ forall x, In x l -> P a x.
Proof.
  induction l as [|x l IH]; intros H s.
  - exists s. split; [reflexivity|]. split; [reflexivity|]. split; [reflexivity|]. intros a. split; [intros X; split; [exact X|intros y []]|tauto].
  - destruct (H x s (or_introl eq_refl)) as (t & E & B).
    destruct (IH (fun y s' I => H y s' (or_intror I)) (assert_term s t)) as (s' & E' & V & M & Q). exists s'.
    rewrite call_all_cons, E. cbn [bind done]. split; [exact E'|]. split; [exact V|]. split; [exact M|]. intros a. rewrite Q.
    cbn [assert_term s_asserted]. rewrite satisfies_app, satisfies_one, B. split.
    + intros ((Sa & Px) & F). split; [exact Sa|]. intros y [<-|I]; auto.
    + intros (Sa & F). split; [split; [exact Sa|apply F; left; reflexivity]|]. intros y I. apply F. right. exact I.
Qed.

Lemma enough_fuel {A} (P : A -> nat -> Prop) l : (forall x, In x l -> exists N, forall n, N <= n -> P x n) ->
  exists N, forall n, N <= n -> forall x, In x l -> P x n.
Proof.
  induction l as [|x l IH]; intros H.
  - exists 0. intros n _ y [].
  - destruct (H x (or_introl eq_refl)) as (N1 & H1). destruct IH as (N2 & H2); [intros y I; apply H; right; exact I|].
    exists (Nat.max N1 N2). intros n L y [<-|I]; [apply H1; lia|apply H2; [lia|exact I]].
Qed.

(** ** The options *)
Lemma nodup_map_inj {A B} (f : A -> B) l x y : NoDup (map f l) -> In x l -> In y l -> f x = f y -> x = y.
Proof.
  induction l as [|z l IH]; cbn; intros D I J E; [destruct I|]. apply NoDup_cons_iff in D. destruct D as (N & D).
  destruct I as [<-|I], J as [<-|J]; auto.
  - exfalso. apply N. apply in_map_iff. eauto.
  - exfalso. apply N. apply in_map_iff. eauto.
Qed.
Lemma sort_of_in vs n t : sort_of vs n = Some t -> In (n, t) vs.
Proof.
  induction vs as [|[m u] vs IH]; cbn; [discriminate|]. destruct (text_eqb m n) eqn:E; [|auto].
  apply text_eqb_eq in E. subst. intros X. injection X as <-. auto.
Qed.
Lemma sort_of_none vs n : sort_of vs n = None <-> ~ In n (map fst vs).
Proof.
  induction vs as [|[m u] vs IH]; cbn; [tauto|]. destruct (text_eqb m n) eqn:E.
  - apply text_eqb_eq in E. subst. split; [discriminate|tauto].
  - rewrite IH. split; [intros X [Y|Y]; [subst; rewrite (proj2 (text_eqb_eq _ _) eq_refl) in E; discriminate|tauto]|tauto].
Qed.
Lemma sort_of_first vs n t : NoDup (map fst vs) -> In (n, t) vs -> sort_of vs n = Some t.
Proof.
  intros D I. destruct (sort_of vs n) as [u|] eqn:E.
  - apply sort_of_in in E. f_equal. pose proof (nodup_map_inj fst vs (n, u) (n, t) D E I eq_refl). congruence.
  - apply sort_of_none in E. exfalso. apply E. apply in_map_iff. exists (n, t). auto.
Qed.

(** ** Features and groups of a model *)
Section Loading.
Variables (h : heap) (m : fmodel) (t : tree).
Hypothesis R : represents h m t.

Lemma stored_sub i f : stored h m i f <-> exists u, subtree u t /\ rid u = i /\ rdata u = NFeature f.
Proof.
  split.
  - intros (I & F). apply in_map_iff in I. destruct I as ((s & j) & E & I). cbn in E. subst j.
    eapply Permutation_in in I; [|apply (rep_features _ _ _ R)]. apply named_subtree in I. destruct I as (u & g & U & <- & D & _).
    exists u. split; [exact U|]. split; [reflexivity|]. pose proof (rep_feature_at h m t u g R U D). congruence.
  - intros (u & U & <- & D). split; [|exact (rep_feature_at h m t u f R U D)]. apply in_map_iff. exists (f_name f, rid u). split; [reflexivity|].
    eapply Permutation_in; [apply Permutation_sym; apply (rep_features _ _ _ R)|]. apply named_subtree. exists u, f. auto.
Qed.
Lemma stored_entry i f : stored h m i f -> In (f_name f, i) (m_features m).
Proof.
  intros X. apply stored_sub in X. destruct X as (u & U & <- & D).
  eapply Permutation_in; [apply Permutation_sym; apply (rep_features _ _ _ R)|]. apply named_subtree. exists u, f. auto.
Qed.
Lemma stored_names i j f g : stored h m i f -> stored h m j g -> f_name f = f_name g -> i = j.
Proof.
  intros I J E. apply stored_entry in I. apply stored_entry in J. rewrite E in I.
  pose proof (nodup_map_inj fst _ _ _ (rep_keys R) I J eq_refl). congruence.
Qed.
Lemma stored_name i f : stored h m i f -> name_at h i = Some (f_name f).
Proof. intros (_ & F). unfold name_at. rewrite F. reflexivity. Qed.

(** A feature other than the root hangs below one feature, in one way. *)
Lemma hangs_below i f : stored h m i f -> f_kind f <> FRoot -> exists p g r,
  hangs h i p r /\ stored h m p g /\ parent_feature h i = Some (Some p) /\
  forall p' g' r', hangs h i p' r' -> feature_at h p' = Some g' -> p' = p /\ g' = g /\ r' = r.
Proof.
  intros X K. apply stored_sub in X. destruct X as (u & U & <- & D).
  assert (N : rid u <> rid t).
  { intros E. assert (u = t) as -> by (apply (subtree_unique t); [apply (rep_ids _ _ _ R)|exact U|constructor|exact E]).
    destruct (rep_top_data R) as (f0 & E0 & K0). congruence. }
  destruct (subtree_proper u t (rep_ids _ _ _ R) U N) as (v & V & Iu). pose proof (rep_kid R v u V Iu) as Cu.
  destruct (rep_owner h m t u R U) as (w & W & Fw & Iw & Pw); [rewrite D; reflexivity|exact N|].
  destruct (rdata v) as [g|k] eqn:Dv.
  - assert (Fv : feature_at h (rid v) = Some g) by exact (rep_feature_at h m t v g R V Dv).
    exists (rid v), g, None. split; [exists (Cell (rdata u) (Some (rid v)) (map rid (kids u))); auto|].
    split; [apply stored_sub; eauto|]. split.
    + rewrite Pw. assert (In u (near (kids v))) as Iv.
      { apply in_flat_map. exists u. split; [exact Iu|]. destruct u as [n d us]. cbn [rdata] in D. subst d. left. reflexivity. }
      destruct v as [n d vs]. cbn [rid rdata kids] in *. subst d. destruct (holds_sub h None t _ (rep_holds _ _ _ R) V) as (q & H).
      pose proof (parent_feature_near h q n (NFeature g) vs u (rep_ok _ _ _ R) H (subtree_nodup _ _ V (rep_ids _ _ _ R)) eq_refl Iv) as Q. congruence.
    + intros p' g' r' (c & C & Z) F'. rewrite Cu in C. injection C as <-. cbn in Z. destruct r' as [k|].
      * exfalso. destruct Z as (q & cq & Eq & Cq & Dq & _). injection Eq as <-. unfold feature_at in Fv. rewrite Cq in Fv. cbn in Fv. rewrite Dq in Fv. discriminate.
      * injection Z as <-. rewrite Fv in F'. injection F' as <-. auto.
  - assert (Nv : rid v <> rid t).
    { intros E. assert (v = t) as -> by (apply (subtree_unique t); [apply (rep_ids _ _ _ R)|exact V|constructor|exact E]).
      destruct (rep_top_data R) as (f0 & E0 & K0). congruence. }
    destruct (subtree_proper v t (rep_ids _ _ _ R) V Nv) as (x & X & Ix). pose proof (rep_kid R x v X Ix) as Cv. rewrite Dv in Cv.
    assert (exists g, rdata x = NFeature g) as (g & Dx).
    { assert (grouped x) as Gx by (eapply grouped_sub; [exact X|apply (rep_shape _ _ _ R)]). destruct x as [n d us]. cbn [rdata kids] in *.
      destruct d as [g|k']; [eauto|]. exfalso. inversion Gx as [|? ? ? Fu _]; subst. rewrite Forall_forall in Fu. specialize (Fu v Ix). rewrite Dv in Fu. discriminate. }
    assert (Fx : feature_at h (rid x) = Some g) by exact (rep_feature_at h m t x g R X Dx).
    exists (rid x), g, (Some k). split.
    { eexists. split; [exact Cu|]. exists (rid v). eexists. split; [reflexivity|]. split; [exact Cv|]. auto. }
    split; [apply stored_sub; eauto|]. split.
    + assert (In u (near (kids x))) as Iv.
      { apply in_flat_map. exists v. split; [exact Ix|]. destruct v as [n d vs]. cbn [rdata kids] in *. subst d. cbn [tops is_feature].
        apply in_flat_map. exists u. split; [exact Iu|]. destruct u as [n' d us]. cbn [rdata] in D. subst d. left. reflexivity. }
      destruct x as [n d vs]. cbn [rid rdata kids] in *. subst d. destruct (holds_sub h None t _ (rep_holds _ _ _ R) X) as (q & H).
      exact (parent_feature_near h q n (NFeature g) vs u (rep_ok _ _ _ R) H (subtree_nodup _ _ X (rep_ids _ _ _ R)) eq_refl Iv).
    + intros p' g' r' (c & C & Z) F'. rewrite Cu in C. injection C as <-. cbn in Z. destruct r' as [k'|].
      * destruct Z as (q & cq & Eq & Cq & Dq & Pq). injection Eq as <-. rewrite Cv in Cq. injection Cq as <-. cbn in Dq, Pq. injection Dq as <-. injection Pq as <-.
        rewrite Fx in F'. injection F' as <-. auto.
      * exfalso. injection Z as <-. unfold feature_at in F'. rewrite Cv in F'. discriminate.
Qed.

(** The root hangs below nothing. *)
Lemma hangs_root i f p r : stored h m i f -> f_kind f = FRoot -> ~ hangs h i p r.
Proof.
  intros X K (c & C & Z). apply stored_sub in X. destruct X as (u & U & <- & D).
  destruct (Nat.eq_dec (rid u) (rid t)) as [E|N]; [|exact (rep_other_kind R u f U D N K)].
  rewrite E, (rep_top R) in C. injection C as <-. cbn in Z. destruct r; [destruct Z as (q & _ & Z & _)|]; discriminate.
Qed.

(** Groups: parent and members are features with different names. *)
Lemma group_cell q : In q (m_relationships m) -> exists k p e n ns,
  h_cells h q = Some (Cell (NRelationship k) (Some p) e) /\ name_at h p = Some n /\
  map_option (name_at h) e = Some ns /\ Forall2 (fun i s => name_at h i = Some s) e ns /\ NoDup ns /\
  Forall (fun i => exists f, stored h m i f /\ hangs h i p (Some k)) e.
Proof.
  intros Q. destruct (group_facts h m t R q Q) as (k & p & n & e & C & _ & Np & _).
  eapply Permutation_in in Q; [|apply (rep_groups _ _ _ R)]. apply groups_subtree in Q. destruct Q as (v & k' & V & <- & Dv).
  destruct (rep_cell R v V) as (q' & Cv). rewrite Dv in Cv. rewrite C in Cv. injection Cv as <- <- ->.
  assert (F : forall u, In u (kids v) -> exists f, rdata u = NFeature f /\ stored h m (rid u) f /\ hangs h (rid u) p (Some k)).
  { intros u I. assert (Gv : grouped v) by (eapply grouped_sub; [exact V|apply (rep_shape _ _ _ R)]).
    assert (U : subtree u t). { eapply subtree_trans; [|exact V]. destruct v as [n0 d0 vs]. eapply sub_kid; [exact I|constructor]. }
    destruct (rdata u) as [f|k2] eqn:Du.
    2:{ exfalso. destruct v as [n0 d0 vs]. cbn [rdata kids] in *. subst d0. inversion Gv as [|? ? ? Fu _]; subst. rewrite Forall_forall in Fu. specialize (Fu u I). rewrite Du in Fu. discriminate. }
    exists f. split; [reflexivity|]. split; [apply stored_sub; eauto|]. eexists. split; [exact (rep_kid R v u V I)|]. exists (rid v). eexists.
    split; [reflexivity|]. split; [exact C|]. auto. }
  exists k, p, (map rid (kids v)), n, (map tname (kids v)). split; [exact C|]. split; [exact Np|].
  assert (F2 : Forall2 (fun i s => name_at h i = Some s) (map rid (kids v)) (map tname (kids v))).
  { assert (G : forall us, (forall u, In u us -> In u (kids v)) -> Forall2 (fun i s => name_at h i = Some s) (map rid us) (map tname us)).
    { induction us as [|u us IH]; intros J; cbn; constructor; [|apply IH; intros; apply J; right; assumption].
      destruct (F u (J u (or_introl eq_refl))) as (f & Du & St & _). rewrite (stored_name _ _ St). unfold tname. rewrite Du. reflexivity. }
    apply G. auto. }
  split. { clear - F2. induction F2 as [|i s is ss E _ IH]; [reflexivity|]. cbn. rewrite E. cbn. rewrite IH. reflexivity. }
  split; [exact F2|]. split.
  - assert (D : NoDup (map rid (kids v))).
    { assert (Dv' := subtree_nodup _ _ V (rep_ids _ _ _ R)). destruct v as [n0 d0 vs]. cbn [ids kids] in *. apply NoDup_cons_iff in Dv'. apply rids_nodup. apply Dv'. }
    assert (G : forall us, (forall u, In u us -> In u (kids v)) -> NoDup (map rid us) -> NoDup (map tname us)).
    { induction us as [|u us IH]; cbn; intros J Du; [constructor|]. apply NoDup_cons_iff in Du. destruct Du as (Nu & Du). constructor.
      - intros X. apply in_map_iff in X. destruct X as (w & E & W). apply Nu. apply in_map_iff. exists w. split; [|exact W].
        destruct (F u (J u (or_introl eq_refl))) as (f & Fu & St & _). destruct (F w (J w (or_intror W))) as (g & Fw & Sw & _).
        symmetry. apply (stored_names _ _ f g St Sw). unfold tname in E. rewrite Fu, Fw in E. auto.
      - apply IH; auto. }
    apply G; auto.
  - apply Forall_forall. intros i I. apply in_map_iff in I. destruct I as (u & <- & I). destruct (F u I) as (f & _ & X). eauto.
Qed.

Lemma members_fold rs : (forall q, In q rs -> In q (m_relationships m)) -> forall v0, exists v,
  fold_left (fun o r => let* v := o in let* c := h_cells h r in let* ns := map_option (name_at h) (n_edges c) in Some (rev ns ++ v)) rs (Some v0) = Some v /\
  forall s, In s v <-> In s v0 \/ exists q k p e i, In q rs /\ h_cells h q = Some (Cell (NRelationship k) (Some p) e) /\ In i e /\ name_at h i = Some s.
Proof.
  induction rs as [|q rs IH]; intros J v0; cbn [fold_left].
  - exists v0. split; [reflexivity|]. intros s. split; [auto|]. intros [X|(q & k & p & e & i & [] & _)]. exact X.
  - destruct (group_cell q (J q (or_introl eq_refl))) as (k & p & e & n & ns & C & Np & Mo & F2 & _ & _). rewrite C. cbn [bind n_edges]. rewrite Mo. cbn [bind].
    destruct (IH (fun x I => J x (or_intror I)) (rev ns ++ v0)) as (v & E & Q). exists v. split; [exact E|]. intros s. rewrite Q, in_app_iff, <- in_rev. split.
    + intros [[X|X]|(q' & k' & p' & e' & i & I & Y)]; [right|auto|right; exists q', k', p', e', i; split; [right; exact I|exact Y]].
      assert (exists i, In i e /\ name_at h i = Some s) as (i & I & Y).
      { clear - F2 X. induction F2 as [|i s' is ss E _ IH]; [destruct X|]. destruct X as [<-|X]; [exists i; cbn; auto|]. destruct (IH X) as (j & I & Y). exists j. cbn. auto. }
      exists q, k, p, e, i. cbn. auto.
    + intros [X|(q' & k' & p' & e' & i & [<-|I] & C' & I' & Y)]; [auto| |right; exists q', k', p', e', i; auto].
      rewrite C in C'. injection C' as <- <- <-. left. left. clear - F2 I' Y. induction F2 as [|i0 s' is ss E _ IH]; [destruct I'|].
      destruct I' as [<-|I']; [left; congruence|right; auto].
Qed.
Lemma members_known : exists v, group_members h m = Some v /\
  forall i f p g r, stored h m i f -> hangs h i p r -> feature_at h p = Some g -> (existsb (text_eqb (f_name f)) v = true <-> r <> None).
Proof.
  destruct (members_fold (m_relationships m) (fun q I => I) []) as (v & E & Q). exists v. split; [exact E|]. intros i f p g r St Hg Fp.
  rewrite existsb_exists. transitivity (In (f_name f) v).
  { split; [intros (s & I & X); apply text_eqb_eq in X; subst; exact I|intros I; exists (f_name f); split; [exact I|apply text_eqb_eq; reflexivity]]. }
  rewrite Q. assert (K : f_kind f <> FRoot) by (intros K; exact (hangs_root i f p r St K Hg)).
  destruct (hangs_below i f St K) as (p0 & g0 & r0 & H0 & S0 & _ & U). destruct (U p g r Hg Fp) as (-> & -> & ->). split.
  - intros [[]|(q & k & p' & e & j & Iq & C & I & Y)]. destruct (group_cell q Iq) as (k1 & p1 & e1 & n1 & ns1 & C1 & Np & _ & _ & _ & Fa).
    rewrite C in C1. injection C1 as <- <- <-. rewrite Forall_forall in Fa. destruct (Fa j I) as (fj & Sj & Hj).
    pose proof (stored_name _ _ Sj) as Nj. assert (j = i) as -> by (apply (stored_names _ _ fj f Sj St); congruence).
    unfold name_at in Np. destruct (feature_at h p') as [g'|] eqn:Fp'; [|discriminate]. destruct (U p' g' (Some k) Hj Fp') as (_ & _ & <-). discriminate.
  - intros N. right. destruct r0 as [k|]; [|contradiction]. destruct H0 as (c & C & q & cq & Pc & Cq & Dq & Pq). destruct cq as [d pq e]. cbn in Dq, Pq. subst.
    exists q, k, p0, e, i. apply stored_sub in St. destruct St as (u & U0 & <- & D).
    destruct (Nat.eq_dec (rid u) (rid t)) as [E'|N'].
    { exfalso. rewrite E', (rep_top R) in C. injection C as <-. discriminate. }
    destruct (subtree_proper u t (rep_ids _ _ _ R) U0 N') as (v' & V & Iu). pose proof (rep_kid R v' u V Iu) as Cu. rewrite Cu in C. injection C as <-. cbn in Pc. injection Pc as <-.
    destruct (rep_cell R v' V) as (q' & Cv). rewrite Cq in Cv. injection Cv as Dv <- ->. split.
    { eapply Permutation_in; [apply Permutation_sym; apply (rep_groups _ _ _ R)|]. apply groups_subtree. exists v', k. auto. }
    split; [exact Cq|]. split; [apply in_map; exact Iu|]. apply stored_name. apply stored_sub. exists u. auto.
Qed.
End Loading.
