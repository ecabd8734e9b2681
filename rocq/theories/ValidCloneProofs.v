(** Clones keep the valid configurations. *)
From Coq Require Import List ZArith Arith Bool Ascii String Permutation Lia.
From Verif Require Import Text TextProofs ConstraintModel ConstraintSpec FeatureTreeModel FeatureTreeSpec FeatureTreeProofs FeatureTransactionModel FeatureTransactionSpec FeatureEditSpec FeatureEditProofs
  FeatureHistoryProofs FeatureBuildSpec FeatureCloneSpec FeatureCloneProofs SxfmModel XmlModel XmlSpec ConfigurationModel SolverModel SolverSpec SolverProofs SolverLoadProofs SolverEncodingProofs ValidSpec ValidProofs.
Import ListNotations.

Lemma same_spelling {A B} (f : A -> option text) (g : B -> option text) e e' x : cmap f e = cmap Some x -> cmap g e' = cmap Some x ->
  crel (fun r r' => exists s, f r = Some s /\ g r' = Some s) e e'.
Proof.
  revert e' x. induction e as [o l IHl r IHr|o e IH|n|r]; intros e' x E E'; destruct x; try discriminate; destruct e'; try discriminate; cbn [cmap] in *.
  - injection E as -> E1 E2. injection E' as -> E3 E4. apply crel_bin; eauto.
  - injection E as -> E1. injection E' as -> E3. apply crel_un; eauto.
  - injection E as ->. injection E' as ->. apply crel_int.
  - injection E as E. injection E' as E'. apply crel_feat. eauto.
Qed.
Lemma crel_xor_free {A B} (R : A -> B -> Prop) e e' : crel R e e' -> xor_free e -> xor_free e'.
Proof. intros C. induction C; cbn [xor_free]; intuition. Qed.
Lemma Forall2_right {A B} (R : A -> B -> Prop) l l' y : Forall2 R l l' -> In y l' -> exists x, In x l /\ R x y.
Proof. intros F. induction F as [|a b l l' H F IH]; intros I; [destruct I|]. destruct I as [<-|I]; [exists a; split; [left; reflexivity|exact H]|]. destruct (IH I) as (x & X & Y). exists x. split; [right; exact X|exact Y]. Qed.
Lemma Forall2_left {A B} (R : A -> B -> Prop) l l' x : Forall2 R l l' -> In x l -> exists y, In y l' /\ R x y.
Proof. intros F. induction F as [|a b l l' H F IH]; intros I; [destruct I|]. destruct I as [<-|I]; [exists b; split; [left; reflexivity|exact H]|]. destruct (IH I) as (y & X & Y). exists y. split; [right; exact X|exact Y]. Qed.
Lemma Forall2_nth {A B} (R : A -> B -> Prop) l l' j y : Forall2 R l l' -> nth_error l' j = Some y -> exists x, nth_error l j = Some x /\ R x y.
Proof. intros F. revert j. induction F as [|a b l l' H F IH]; intros [|j] E; cbn in *; try discriminate; [injection E as <-; eauto|eauto]. Qed.
Lemma names_none l l' s : Permutation (map fst l) (map fst l') -> find_name s l' = None -> find_name s l = None.
Proof.
  intros P N. destruct (find_name s l) as [i|] eqn:E; [|reflexivity]. exfalso.
  assert (forall k : list (text * nid), find_name s k = None <-> ~ In s (map fst k)) as H.
  { intros k. induction k as [|[u j] k IH]; cbn [find_name map fst In]; [split; [intros _ []|reflexivity]|].
    destruct (text_eqb u s) eqn:E1.
    - apply text_eqb_eq in E1. subst u. split; [discriminate|]. intros X. exfalso. apply X. left. reflexivity.
    - rewrite IH. split; [intros X [Y|Y]; [apply text_eqb_eq in Y; congruence|exact (X Y)]|intros X Y; apply X; right; exact Y]. }
  apply H in N. assert (X : ~ find_name s l = None) by congruence. rewrite H in X. apply X. intros I. apply N. eapply Permutation_in; eauto.
Qed.

Section Clone.
Variables (h : heap) (m : fmodel) (t : tree) (h' : heap) (m' : fmodel).
Hypothesis R : represents h m t.
Hypothesis Cl : cloned h m h' m'.
Hypothesis Ne : neat h m.
Hypothesis Li : listed h m.
Hypothesis Re : all_resolved m.

Let represented := cl_represented _ _ _ _ Cl.
Lemma names_back s : get_feature m' s = None -> get_feature m s = None.
Proof. apply names_none. apply Permutation_sym. exact (cl_names _ _ _ _ Cl). Qed.
Lemma names_forth s : get_feature m s = None -> get_feature m' s = None.
Proof. apply names_none. exact (cl_names _ _ _ _ Cl). Qed.
Lemma kept_alike s i f f' : get_feature m s = Some i -> feature_at h i = Some f -> kept f f' -> alike (f_kind f) (f_kind f') /\ (f_kind f = FBinary -> f_optional f' = f_optional f).
Proof.
  intros G F (_ & _ & K). destruct (f_kind f) as [|v g| |] eqn:E; destruct K as (K1 & K2 & _); rewrite K1; (split; [|intros X; try discriminate; exact K2]); try reflexivity.
  destruct (Li s i f v g G F E) as (vs & ->). cbn. intros z. reflexivity.
Qed.
Lemma clone_groups_from u p' k : get_feature m' u = Some p' -> group_of h' m' p' k -> exists p, get_feature m u = Some p /\ group_of h m p k.
Proof.
  intros G (q' & c' & Q & C & D & P). destruct represented as (t' & R').
  destruct (Forall2_right _ _ _ _ (cl_groups _ _ _ _ Cl) Q) as (q & Iq & c & c2 & p & v & X1 & X2 & X3 & X4 & X5 & X6).
  rewrite C in X2. injection X2 as <-. rewrite P in X6. symmetry in X6. destruct (get_stored h' m' t' R' u p' G) as (f1 & (_ & F1) & N1). destruct (get_stored h' m' t' R' v p' X6) as (f2 & (_ & F2) & N2).
  assert (v = u) as -> by congruence. exists p. split; [exact X5|]. exists q, c. rewrite <- X3. auto.
Qed.
Lemma clone_frame : frame h m h' m'.
Proof.
  destruct represented as (t' & R'). constructor.
  - exact names_back.
  - intros s i f G F. destruct (cl_features _ _ _ _ Cl s i f G F) as (i' & f' & G' & F' & K). exists i', f'. destruct (kept_alike s i f f' G F K). auto.
  - intros s i u p r G Gp H. pose proof (hangs_above h m t R i p r u H Gp) as A.
    destruct (cl_parents _ _ _ _ Cl s i u p G Gp A) as (i' & p' & g & Gi' & Gp' & H' & Gr). exists i', p'. split; [exact Gi'|]. split; [exact Gp'|].
    destruct r as [k|].
    + destruct (get_stored h m t R s i G) as (f & Sf & _). pose proof (hangs_group_of h m t R i f p k Sf H) as Gk.
      destruct g as [k'|]; [|destruct (Gr k Gk)]. destruct Gk as (q1 & c1 & Q1 & C1 & D1 & P1). destruct Gr as (q2 & c2 & Q2 & C2 & D2 & P2).
      assert (q1 = q2) as <- by (eapply (proj1 Ne); eauto). rewrite C1 in C2. injection C2 as <-. rewrite D1 in D2. injection D2 as <-. exact H'.
    + destruct g as [k'|]; [|exact H']. destruct (proj2 Ne p k' s i Gr G H).
  - intros u p k G (q & c & Q & C & D & P). destruct (Forall2_left _ _ _ _ (cl_groups _ _ _ _ Cl) Q) as (q' & Iq & c0 & c' & p0 & v & X1 & X2 & X3 & X4 & X5 & X6).
    rewrite C in X1. injection X1 as <-. rewrite P in X4. injection X4 as <-. destruct (get_stored h m t R u p G) as (f1 & (_ & F1) & N1). destruct (get_stored h m t R v p X5) as (f2 & (_ & F2) & N2).
    assert (v = u) as -> by congruence. destruct (get_feature m' u) as [p'|] eqn:G'; [|apply names_back in G'; congruence]. exists p'. split; [reflexivity|]. exists q', c'. rewrite X3. auto.
Qed.
Lemma clone_neat : neat h' m'.
Proof.
  destruct represented as (t' & R'). split.
  - intros p' q q' c c' Q Q' C C' P P'. destruct (In_nth_error _ _ Q) as (j & Ej). destruct (In_nth_error _ _ Q') as (j' & Ej').
    destruct (Forall2_nth _ _ _ _ _ (cl_groups _ _ _ _ Cl) Ej) as (q0 & E0 & d & d1 & p0 & u & X1 & X2 & _ & X3 & X4 & X5).
    destruct (Forall2_nth _ _ _ _ _ (cl_groups _ _ _ _ Cl) Ej') as (q0' & E0' & d' & d1' & p0' & u' & Y1 & Y2 & _ & Y3 & Y4 & Y5).
    rewrite C in X2. injection X2 as <-. rewrite C' in Y2. injection Y2 as <-. rewrite P in X5. rewrite P' in Y5. symmetry in X5, Y5.
    destruct (get_stored h' m' t' R' u p' X5) as (f1 & (_ & F1) & N1). destruct (get_stored h' m' t' R' u' p' Y5) as (f2 & (_ & F2) & N2).
    assert (u' = u) as -> by congruence. rewrite X4 in Y4. injection Y4 as <-.
    assert (q0 = q0') as <-. { eapply (proj1 Ne p0); eauto; eapply nth_error_In; eauto. }
    assert (j = j') as <-; [|congruence].
    pose proof (represents_tree_shaped _ _ _ R) as TS. pose proof (ts_nodes _ _ TS) as ND. unfold nodes in ND.
    assert (NDr : NoDup (m_relationships m)). { clear - ND. induction (map snd (m_features m)) as [|x l IH]; [exact ND|]. inversion ND; subst. auto. }
    rewrite NoDup_nth_error in NDr. apply NDr; [apply nth_error_Some; congruence|congruence].
  - eapply none_beside; [exact R|exact R'|exact clone_frame|exact names_forth|exact clone_groups_from|exact (proj2 Ne)].
Qed.
Lemma clone_frame_back : frame h' m' h m.
Proof. destruct represented as (t' & R'). eapply frame_back; [exact R|exact R'|exact clone_frame|exact names_forth|exact clone_groups_from]. Qed.

Lemma clone_constraint e e' : same_constraint h h' m' e e' -> (forall r, In r (leaves e) -> exists s i, r = Ref i /\ get_feature m s = Some i) ->
  crel (corresponds m m') e e'.
Proof.
  intros ((x & S1 & S2) & L') L. destruct represented as (t' & R'). apply (crel_refine _ _ _ _ (same_spelling _ _ _ _ _ S1 S2)). intros r r' I I' (s & E & E').
  destruct (L r I) as (u & i & -> & G). destruct (L' r' I') as (u' & i' & -> & G'). exists u, i, i'. split; [reflexivity|]. split; [reflexivity|]. split; [exact G|].
  cbn [cref_name] in E, E'. destruct (get_stored h m t R u i G) as (f & Sf & Nf). destruct (get_stored h' m' t' R' u' i' G') as (f' & Sf' & Nf').
  pose proof (stored_name h m i f Sf) as X. pose proof (stored_name h' m' i' f' Sf') as Y. assert (u = u') as <-; [|exact G']. congruence.
Qed.
Lemma corresponds_sym r r' : corresponds m m' r r' -> corresponds m' m r' r.
Proof. intros (s & i & i' & -> & -> & G & G'). exists s, i', i. auto. Qed.
Lemma crel_corresponds_sym e e' : crel (corresponds m m') e e' -> crel (corresponds m' m) e' e.
Proof. intros C. apply (crel_refine _ _ _ _ (crel_sym _ _ _ C)). intros r r' _ _. apply corresponds_sym. Qed.

Definition constraints_meet : Prop :=
  Forall2 (fun c c' => crel (corresponds m m') (c_expr c) (c_expr c')) (m_boolean m ++ m_nonboolean m) (m_boolean m' ++ m_nonboolean m') /\
  Forall2 (fun x x' => crel (corresponds m m') (c_expr (x_con x)) (c_expr (x_con x')) /\ x_req x' = x_req x /\ x_kind x' = x_kind x) (m_mixed m) (m_mixed m').
Lemma Forall2_refine {A B} (P Q : A -> B -> Prop) l l' : Forall2 P l l' -> (forall x y, In x l -> P x y -> Q x y) -> Forall2 Q l l'.
Proof. intros F. induction F as [|a b l l' H F IH]; intros K; constructor; [apply K; [left; reflexivity|exact H]|]. apply IH. intros x y I. apply K. right. exact I. Qed.
Lemma clone_meets : constraints_meet.
Proof.
  split; [apply Forall2_app|].
  - apply (Forall2_refine _ _ _ _ (cl_boolean _ _ _ _ Cl)). intros c c' I S. apply clone_constraint; [exact S|]. intros r Ir. apply (Re c r); [|exact Ir]. unfold all_constraints. apply in_or_app. left. exact I.
  - apply (Forall2_refine _ _ _ _ (cl_nonboolean _ _ _ _ Cl)). intros c c' I S. apply clone_constraint; [exact S|]. intros r Ir. apply (Re c r); [|exact Ir]. unfold all_constraints. apply in_or_app. right. apply in_or_app. left. exact I.
  - apply (Forall2_refine _ _ _ _ (cl_mixed _ _ _ _ Cl)). intros x x' I (S & Q). split; [|exact Q]. apply clone_constraint; [exact S|]. intros r Ir. apply (Re (x_con x) r); [|exact Ir]. unfold all_constraints. apply in_or_app. right. apply in_or_app. right. apply in_map. exact I.
Qed.
Lemma clone_valid a : SolverSpec.valid h' m' a <-> SolverSpec.valid h m a.
Proof.
  destruct represented as (t' & R'). destruct clone_meets as (Mb & Mx). split.
  - apply (valid_transfer h' m' t' h m t R' R clone_frame_back clone_frame).
    + intros V c I. destruct (Forall2_left _ _ _ _ Mb I) as (c' & I' & C). rewrite <- (same_value h' m' t' h m t R' R clone_frame_back false a _ _ (crel_corresponds_sym _ _ C)). exact (v_constraints _ _ _ V c' I').
    + intros V x I. destruct (Forall2_left _ _ _ _ Mx I) as (x' & I' & C & Er & Ek). rewrite <- Er, <- Ek. apply crel_corresponds_sym in C.
      eapply (same_mixed h' m' t' h m t R' R clone_frame_back); [apply crel_leaves; exact C|exact (same_value h' m' t' h m t R' R clone_frame_back true a _ _ C)|exact (v_mixed _ _ _ V x' I')].
  - apply (valid_transfer h m t h' m' t' R R' clone_frame clone_frame_back).
    + intros V c' I. destruct (Forall2_right _ _ _ _ Mb I) as (c & I' & C). rewrite <- (same_value h m t h' m' t' R R' clone_frame false a _ _ C). exact (v_constraints _ _ _ V c I').
    + intros V x' I. destruct (Forall2_right _ _ _ _ Mx I) as (x & I' & C & Er & Ek). rewrite Er, Ek.
      eapply (same_mixed h m t h' m' t' R R' clone_frame); [apply crel_leaves; exact C|exact (same_value h m t h' m' t' R R' clone_frame true a _ _ C)|exact (v_mixed _ _ _ V x I')].
Qed.
Lemma clone_supported : supported h m -> supported h' m'.
Proof.
  intros V. destruct represented as (t' & R'). destruct clone_meets as (Mb & Mx). apply (supported_transfer h m t h' m' t' R R' clone_frame clone_frame_back); [| | |exact V].
  - intros i' f' v g Sf K. apply (stored_is h' m' t' R') in Sf. destruct Sf as (G & F). destruct (fr_features _ _ _ _ clone_frame_back _ _ _ G F) as (i & f & G1 & F1 & _).
    destruct (cl_features _ _ _ _ Cl _ _ _ G1 F1) as (i2 & f2 & G2 & F2 & (_ & _ & Kf)). rewrite G in G2. injection G2 as <-. rewrite F in F2. injection F2 as <-.
    destruct (f_kind f) as [|v0 g0| |] eqn:E; destruct Kf as (Kf & _); try congruence. destruct (Li _ _ _ _ _ G1 F1 E) as (vs & ->). assert (v = VList vs) as -> by congruence. exact I.
  - intros c' I a. destruct (Forall2_right _ _ _ _ Mb I) as (c & I' & C). rewrite <- (same_value h m t h' m' t' R R' clone_frame false a _ _ C). exact (su_constraints _ _ V c I' a).
  - intros x' I a. destruct (Forall2_right _ _ _ _ Mx I) as (x & I' & C & _). rewrite <- (same_value h m t h' m' t' R R' clone_frame true a _ _ C). exact (su_mixed _ _ V x I' a).
Qed.
Lemma clone_no_xor : no_xor m -> no_xor m'.
Proof.
  intros X e I. destruct clone_meets as (Mb & Mx). apply in_map_iff in I. destruct I as (c' & <- & I). rewrite app_assoc in I. apply in_app_or in I. destruct I as [I|I].
  - destruct (Forall2_right _ _ _ _ Mb I) as (c & I' & C). apply (crel_xor_free _ _ _ C). apply X. apply in_map. rewrite app_assoc. apply in_or_app. left. exact I'.
  - apply in_map_iff in I. destruct I as (x' & <- & I). destruct (Forall2_right _ _ _ _ Mx I) as (x & I' & C & _). apply (crel_xor_free _ _ _ C). apply X. apply in_map. rewrite app_assoc. apply in_or_app. right. apply in_map. exact I'.
Qed.
End Clone.
