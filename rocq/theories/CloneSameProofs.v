(** What clones are the same as. *)
From Coq Require Import List ZArith Arith Bool Ascii String Permutation Lia.
From Verif Require Import Text TextProofs ConstraintModel ConstraintSpec FeatureTreeModel FeatureTreeSpec FeatureTreeProofs FeatureTransactionModel FeatureTransactionSpec FeatureEditSpec FeatureEditProofs
  FeatureHistoryProofs FeatureBuildSpec FeatureCloneSpec FeatureCloneProofs SxfmModel XmlModel XmlSpec XmlTripSpec XmlCycleSpec XmlCountSpec XmlSameSpec FeatureTransactionFinal ConfigurationModel SolverModel SolverSpec SolverProofs SolverLoadProofs
  SolverEncodingProofs ValidSpec ValidProofs ValidCloneProofs ValidTripProofs CloneSameSpec.
Import ListNotations.

Lemma hangs_same h i p q g g' f f' : feature_at h p = Some f -> feature_at h q = Some f' -> hangs h i p g -> hangs h i q g' -> p = q /\ g = g'.
Proof.
  assert (D : forall p q f k, feature_at h p = Some f -> hangs h i p None -> hangs h i q (Some k) -> False).
  { intros x y fx k F (c & C & P) (c' & C' & z & cz & P' & Cz & Dz & _). rewrite C in C'. injection C' as <-. rewrite P in P'. injection P' as <-. unfold feature_at in F. rewrite Cz in F. cbn [bind] in F. rewrite Dz in F. discriminate. }
  intros F F' H H'. destruct g as [k|], g' as [k'|]; [|destruct (D q p f' k F' H' H)|destruct (D p q f k' F H H')|].
  - destruct H as (c & C & z & cz & P & Cz & Dz & Q). destruct H' as (c' & C' & z' & cz' & P' & Cz' & Dz' & Q'). rewrite C in C'. injection C' as <-. rewrite P in P'. injection P' as <-. rewrite Cz in Cz'. injection Cz' as <-. split; congruence.
  - destruct H as (c & C & P). destruct H' as (c' & C' & P'). split; congruence.
Qed.
Lemma forall2_stated h h' l l' e : Forall2 (fun c c' => forall x, spelled h (c_expr c) x <-> spelled h' (c_expr c') x) l l' -> (stated h l e <-> stated h' l' e).
Proof.
  intros F. split; intros (c & I & Sp).
  - destruct (Forall2_left _ _ _ _ F I) as (c' & I' & X). exists c'. split; [exact I'|]. apply X. exact Sp.
  - destruct (Forall2_right _ _ _ _ F I) as (c' & I' & X). exists c'. split; [exact I'|]. apply X. exact Sp.
Qed.
Lemma forall2_times h h' l l' e n : Forall2 (fun c c' => forall x, spelled h (c_expr c) x <-> spelled h' (c_expr c') x) l l' -> times h l e n -> times h' l' e n.
Proof.
  intros F. revert n. induction F as [|c c' l l' X F IH]; intros n H; inversion H; subst; [constructor|apply times_one|apply times_other]; auto.
  - apply X. assumption.
  - intros Y. apply X in Y. contradiction.
Qed.
Lemma forall2_unpaired (P : mconstraint -> mconstraint -> Prop) l l' : (forall c c', P c c' -> pair (c_expr c) <-> pair (c_expr c')) -> Forall2 P l l' -> forall k k', unpaired l k -> unpaired l' k' -> Forall2 P k k'.
Proof.
  intros Hp F. induction F as [|c c' l l' X F IH]; intros k k' U U'; inversion U; subst; inversion U'; subst; try constructor; auto.
  - exfalso. specialize (Hp _ _ X). tauto.
  - exfalso. specialize (Hp _ _ X). tauto.
Qed.
Lemma names_eq h m t s u i : represents h m t -> get_feature m s = Some i -> get_feature m u = Some i -> s = u.
Proof. intros R G G'. destruct (get_stored h m t R s i G) as (f & (_ & F) & N). destruct (get_stored h m t R u i G') as (f' & (_ & F') & N'). congruence. Qed.
Section Clone.
Variables (h : heap) (m : fmodel) (t : tree) (h' : heap) (m' : fmodel) (t' : tree).
Hypothesis R : represents h m t.
Hypothesis R' : represents h' m' t'.
Hypothesis Cl : cloned h m h' m'.

Lemma clone_there s : (exists i, get_feature m s = Some i) <-> (exists i, get_feature m' s = Some i).
Proof.
  split; intros (i & G).
  - destruct (get_feature m' s) as [j|] eqn:E; [eauto|]. apply (names_back h m h' m' Cl) in E. congruence.
  - destruct (get_feature m s) as [j|] eqn:E; [eauto|]. apply (names_forth h m h' m' Cl) in E. congruence.
Qed.
(** A feature is the root or is below another one. *)
Lemma root_or_below g md tr s i : represents g md tr -> get_feature md s = Some i -> m_root md = Some i \/ exists u p, get_feature md u = Some p /\ feature_above g i p.
Proof.
  intros Rg G. pose proof (proj2 (entry_find g md tr Rg s i) G) as I. destruct (entry_facts g md tr Rg s i I) as (_ & _ & [(-> & _)|(_ & _ & u & p & P & Iu & _)]).
  - left. exact (rep_root _ _ _ Rg).
  - right. exists u, p. split; [apply (entry_find g md tr Rg); exact Iu|apply parent_feature_above; exact P].
Qed.
Lemma clone_data s i f i' f' : get_feature m s = Some i -> get_feature m' s = Some i' -> feature_at h i = Some f -> feature_at h' i' = Some f' -> kept f f'.
Proof. intros G G' F F'. destruct (cl_features _ _ _ _ Cl s i f G F) as (j & g & Gj & Fj & K). congruence. Qed.
Lemma clone_root s i i' : get_feature m s = Some i -> get_feature m' s = Some i' -> (m_root m = Some i <-> m_root m' = Some i').
Proof.
  intros G G'. destruct (cl_root _ _ _ _ Cl) as (u & r & r' & Gr & Er & Gr' & Er'). destruct (get_stored h m t R s i G) as (f & Sf & Nf). destruct (get_stored h' m' t' R' s i' G') as (f' & Sf' & Nf').
  split; intros E.
  - assert (r = i) as -> by congruence. destruct (get_stored h m t R u i Gr) as (f2 & (_ & F2) & N2). destruct Sf as (_ & F1). assert (u = s) as -> by congruence. congruence.
  - assert (r' = i') as -> by congruence. destruct (get_stored h' m' t' R' u i' Gr') as (f2 & (_ & F2) & N2). destruct Sf' as (_ & F1). assert (u = s) as -> by congruence. congruence.
Qed.
(** Where features of the clone come from. *)
Lemma clone_hangs_from s i' u p' g : get_feature m' s = Some i' -> get_feature m' u = Some p' -> hangs h' i' p' g ->
  exists i p, get_feature m s = Some i /\ get_feature m u = Some p /\ feature_above h i p /\ match g with Some k => group_of h m p k | None => forall k, ~ group_of h m p k end.
Proof.
  intros G Gp H. destruct (proj2 (clone_there s) (ex_intro _ i' G)) as (i & Gi). destruct (root_or_below h m t s i R Gi) as [E|(v & p & Gv & A)].
  - exfalso. apply (clone_root s i i' Gi G) in E. destruct (ts_root _ _ (represents_tree_shaped _ _ _ R')) as (r & c & f & Er & _ & Cr & Pr & _). assert (r = i') as -> by congruence.
    destruct H as (c' & C' & X). rewrite Cr in C'. injection C' as <-. destruct g; [destruct X as (q & cq & X & _)|]; congruence.
  - destruct (cl_parents _ _ _ _ Cl s i v p Gi Gv A) as (j & q & g' & Gj & Gq & H' & Gr). assert (j = i') as -> by congruence.
    destruct (get_stored h' m' t' R' u p' Gp) as (f1 & (_ & F1) & N1). destruct (get_stored h' m' t' R' v q Gq) as (f2 & (_ & F2) & N2).
    destruct (hangs_same h' i' p' q g g' f1 f2 F1 F2 H H') as (<- & <-). assert (v = u) as -> by congruence. exists i, p. auto.
Qed.
Lemma clone_above s u : parent_named h' m' s u <-> parent_named h m s u.
Proof.
  split; intros (i & p & G & Gp & A).
  - destruct (above_hangs h' m' t' R' i p s G A) as (g & H). destruct (clone_hangs_from s i u p g G Gp H) as (j & q & Gj & Gq & Aq & _). exists j, q. auto.
  - destruct (cl_parents _ _ _ _ Cl s i u p G Gp A) as (i' & p' & g & G' & Gp' & H & _). exists i', p'. split; [exact G'|]. split; [exact Gp'|]. exact (hangs_above h' m' t' R' i' p' g u H Gp').
Qed.
Lemma one_kind g md tr p k k' : represents g md tr -> group_of g md p k -> group_of g md p k' -> k = k'.
Proof.
  intros Rg (q1 & c1 & Q1 & C1 & D1 & P1) (q2 & c2 & Q2 & C2 & D2 & P2). assert (q1 = q2) as <- by (eapply (rep_one_group g md tr Rg); eauto). congruence.
Qed.
Lemma clone_group u p p' k : get_feature m u = Some p -> get_feature m' u = Some p' -> (group_of h m p k <-> group_of h' m' p' k).
Proof.
  intros G G'. split.
  - intros (q & c & Q & C & D & P). destruct (Forall2_left _ _ _ _ (cl_groups _ _ _ _ Cl) Q) as (q' & Iq & c0 & c' & p0 & v & X1 & X2 & X3 & X4 & X5 & X6).
    rewrite C in X1. injection X1 as <-. rewrite P in X4. injection X4 as <-. destruct (get_stored h m t R u p G) as (f1 & (_ & F1) & N1). destruct (get_stored h m t R v p X5) as (f2 & (_ & F2) & N2).
    assert (v = u) as -> by congruence. exists q', c'. rewrite X3. split; [exact Iq|]. split; [exact X2|]. split; [exact D|]. congruence.
  - intros X. destruct (clone_groups_from h m h' m' Cl u p' k G' X) as (p0 & G0 & Y). congruence.
Qed.
(** No child of the clone is beside a group. *)
Lemma clone_grouped : all_grouped h' m'.
Proof.
  intros p' k s i' Gr G H. destruct (group_parent h' m' t' R' k p' Gr) as (g & Sg). pose proof (stored_get h' m' t' R' p' g Sg) as Gp'.
  destruct (clone_hangs_from s i' _ p' None G Gp' H) as (i & p & _ & Gp & _ & N). apply (N k). apply (clone_group _ p p' k Gp Gp'). exact Gr.
Qed.
Lemma clone_plain : plain h' m'.
Proof.
  split; [|exact clone_grouped]. intros s i' f' G F'. destruct (proj2 (clone_there s) (ex_intro _ i' G)) as (i & Gi). destruct (get_stored h m t R s i Gi) as (f & (_ & F) & _).
  destruct (clone_data s i f i' f' Gi G F F') as (_ & O & K). split; [exact O|]. destruct (f_kind f); destruct K as (-> & K); auto.
Qed.
Lemma clone_hangs s i i' u p p' g : all_grouped h m -> get_feature m s = Some i -> get_feature m' s = Some i' -> get_feature m u = Some p -> get_feature m' u = Some p' -> (hangs h i p g <-> hangs h' i' p' g).
Proof.
  intros Ag Gi Gi' Gp Gp'. destruct (get_stored h m t R s i Gi) as (f & Sf & _). split; intros H.
  - pose proof (hangs_above h m t R i p g u H Gp) as A. destruct (cl_parents _ _ _ _ Cl s i u p Gi Gp A) as (j & q & g' & Gj & Gq & H' & Gr). assert (j = i') as -> by congruence. assert (q = p') as -> by congruence.
    destruct g as [k|], g' as [k'|]; try exact H'.
    + rewrite (one_kind h m t p k k' R (hangs_group_of h m t R i f p k Sf H) Gr). exact H'.
    + destruct (Gr k (hangs_group_of h m t R i f p k Sf H)).
    + destruct (Ag p k' s i Gr Gi H).
  - destruct (clone_hangs_from s i' u p' g Gi' Gp' H) as (j & q & Gj & Gq & A & Gr). assert (j = i) as -> by congruence. assert (q = p) as -> by congruence.
    destruct (above_hangs h m t R i p s Gi A) as (g' & H'). destruct g as [k|], g' as [k'|]; try exact H'.
    + rewrite (one_kind h m t p k k' R Gr (hangs_group_of h m t R i f p k' Sf H')). exact H'.
    + destruct (Ag p k s i Gr Gi H').
    + destruct (Gr k' (hangs_group_of h m t R i f p k' Sf H')).
Qed.

(** ** Constraints *)
Hypothesis Re : all_resolved m.
Lemma corresponds_called r r' s : corresponds m m' r r' -> (called_in h r s <-> called_in h' r' s).
Proof.
  intros (n & i & i' & -> & -> & G & G'). destruct (get_stored h m t R n i G) as (f & (_ & F) & N). destruct (get_stored h' m' t' R' n i' G') as (f' & (_ & F') & N'). cbn [called_in].
  split; intros (g & Fg & Ng); [exists f'|exists f]; split; auto; congruence.
Qed.
Lemma crel_spelling e e' x : crel (corresponds m m') e e' -> (spelled h e x <-> spelled h' e' x).
Proof.
  intros C. split; intros Sp.
  - apply crel_spelled. eapply crel_compose; [|exact (crel_sym _ _ _ C)|exact (spelled_crel _ _ _ Sp)]. intros r' r s X Y. apply (corresponds_called r r' s X). exact Y.
  - apply crel_spelled. eapply crel_compose; [|exact C|exact (spelled_crel _ _ _ Sp)]. intros r r' s X Y. apply (corresponds_called r r' s X). exact Y.
Qed.
Lemma crel_pair e e' : crel (corresponds m m') e e' -> pair e <-> pair e'.
Proof.
  intros C. split; intros (o & a & b & O & ->).
  - inversion C as [? ? ? l' r' C1 C2| | |]; subst. inversion C1; subst. inversion C2; subst. eexists _, _, _. split; [exact O|reflexivity].
  - inversion C as [? l r ? ? C1 C2| | |]; subst. inversion C1; subst. inversion C2; subst. eexists _, _, _. split; [exact O|reflexivity].
Qed.
Definition meets (c c' : mconstraint) : Prop := crel (corresponds m m') (c_expr c) (c_expr c').
Lemma clone_boolean : Forall2 meets (m_boolean m) (m_boolean m').
Proof.
  apply (Forall2_refine _ _ _ _ (cl_boolean _ _ _ _ Cl)). intros c c' I X. apply (clone_constraint h m t h' m' R Cl); [exact X|]. intros r Ir. apply (Re c r); [|exact Ir]. unfold all_constraints. apply in_or_app. left. exact I.
Qed.
Lemma clone_nonboolean : Forall2 meets (m_nonboolean m) (m_nonboolean m').
Proof.
  apply (Forall2_refine _ _ _ _ (cl_nonboolean _ _ _ _ Cl)). intros c c' I X. apply (clone_constraint h m t h' m' R Cl); [exact X|]. intros r Ir. apply (Re c r); [|exact Ir]. unfold all_constraints. apply in_or_app. right. apply in_or_app. left. exact I.
Qed.
Lemma clone_mixed : Forall2 (fun x x' => meets (x_con x) (x_con x') /\ x_req x' = x_req x /\ x_kind x' = x_kind x) (m_mixed m) (m_mixed m').
Proof.
  apply (Forall2_refine _ _ _ _ (cl_mixed _ _ _ _ Cl)). intros x x' I (X & Q). split; [|exact Q]. apply (clone_constraint h m t h' m' R Cl); [exact X|]. intros r Ir. apply (Re (x_con x) r); [|exact Ir]. unfold all_constraints. apply in_or_app. right. apply in_or_app. right. apply in_map. exact I.
Qed.
Lemma meets_spelled l l' : Forall2 meets l l' -> Forall2 (fun c c' => forall x, spelled h (c_expr c) x <-> spelled h' (c_expr c') x) l l'.
Proof. intros F. apply (Forall2_refine _ _ _ _ F). intros c c' _ X x. apply crel_spelling. exact X. Qed.
Lemma meets_text c c' : In c (all_constraints m) -> meets c c' -> same_text h h' c c'.
Proof.
  intros I X. destruct (spelled_exists h m t (c_expr c) R) as (x & Sp); [intros r; exact (Re c r I)|]. exists x. split; [exact Sp|]. apply (crel_spelling _ _ x X). exact Sp.
Qed.
Lemma clone_all : Forall2 meets (all_constraints m) (all_constraints m').
Proof.
  unfold all_constraints. apply Forall2_app; [exact clone_boolean|]. apply Forall2_app; [exact clone_nonboolean|]. pose proof clone_mixed as F. induction F as [|x x' l l' (X & _) F IH]; cbn [map]; constructor; assumption.
Qed.

(** ** Sameness *)
Lemma plain_same : plain h m -> same_model h m h' m'.
Proof.
  intros (Pf & Pg). constructor.
  - exact (cl_name _ _ _ _ Cl).
  - exact (cl_path _ _ _ _ Cl).
  - exact (cl_commit _ _ _ _ Cl).
  - exact (cl_names _ _ _ _ Cl).
  - destruct (cl_root _ _ _ _ Cl) as (s & r & r' & G & E & G' & E'). exists s. rewrite E, E'. repeat split; auto; discriminate.
  - intros s i i' f g G G' F F'. destruct (clone_data s i f i' g G G' F F') as (N & O & K). destruct (Pf s i f G F) as (Po & Pk). unfold same_data. destruct (f_kind f) eqn:E; destruct K as (-> & -> & ->).
    + rewrite Po. auto.
    + subst. rewrite Po. auto.
    + destruct Pk as (-> & ->). rewrite Po. auto.
    + destruct Pk as (-> & ->). rewrite Po. auto.
  - intros s u i i' p p' g G G' Gp Gp'. exact (clone_hangs s i i' u p p' g Pg G G' Gp Gp').
  - intros u p p' k G G'. exact (clone_group u p p' k G G').
  - intros e. apply forall2_stated, meets_spelled, clone_boolean.
  - apply (Forall2_refine _ _ _ _ clone_nonboolean). intros c c' I X. apply meets_text; [|exact X]. unfold all_constraints. apply in_or_app. right. apply in_or_app. left. exact I.
  - apply (Forall2_refine _ _ _ _ clone_mixed). intros x x' I (X & Q). split; [|exact Q]. apply meets_text; [|exact X]. unfold all_constraints. apply in_or_app. right. apply in_or_app. right. apply in_map. exact I.
Qed.
Lemma same_plain : same_model h m h' m' -> plain h m.
Proof.
  intros Sm. split.
  - intros s i f G F. destruct (proj1 (clone_there s) (ex_intro _ i G)) as (i' & G'). destruct (get_stored h' m' t' R' s i' G') as (f' & (_ & F') & _).
    destruct (sm_features _ _ _ _ Sm s i i' f f' G G' F F') as (_ & E1 & E2 & E3 & E4). destruct (clone_data s i f i' f' G G' F F') as (_ & O & K). split; [congruence|]. destruct (f_kind f) eqn:E; destruct K as (K1 & K2 & K3); auto; [congruence| |]; split; congruence.
  - intros p k s i Gr G H. destruct (group_parent h m t R k p Gr) as (g & Sg). pose proof (stored_get h m t R p g Sg) as Gp.
    destruct (proj1 (clone_there s) (ex_intro _ i G)) as (i' & G'). destruct (proj1 (clone_there _) (ex_intro _ p Gp)) as (p' & Gp').
    pose proof (proj1 (sm_hangs _ _ _ _ Sm s _ i i' p p' None G G' Gp Gp') H) as H'. destruct (clone_hangs_from s i' _ p' None G' Gp' H') as (j & q & _ & Gq & _ & N). apply (N k). congruence.
Qed.

(** ** Documents *)
Lemma together_hangs g md tr s u i j : represents g md tr -> get_feature md s = Some i -> get_feature md u = Some j ->
  (together g i j <-> exists v p k, get_feature md v = Some p /\ hangs g i p (Some k) /\ hangs g j p (Some k)).
Proof.
  intros Rg G Gj. destruct (get_stored g md tr Rg s i G) as (f & Sf & _). destruct (get_stored g md tr Rg u j Gj) as (f' & Sf' & _). split.
  - intros (ca & cb & q & cq & k & Ca & Cb & Pa & Pb & Cq & Dq). destruct (root_or_below g md tr s i Rg G) as [E|(v & p & Gv & A)].
    + exfalso. destruct (ts_root _ _ (represents_tree_shaped _ _ _ Rg)) as (r & c & f0 & Er & _ & Cr & Pr & _). assert (r = i) as -> by congruence. congruence.
    + destruct (above_hangs g md tr Rg i p s G A) as (r & H). exists v, p. destruct r as [k'|].
      * exists k'. split; [exact Gv|]. split; [exact H|]. destruct H as (c & C & q' & cq' & P & Cq' & D & Q). rewrite Ca in C. injection C as <-. rewrite Pa in P. injection P as <-. exists cb. split; [exact Cb|]. exists q, cq'. auto.
      * exfalso. destruct H as (c & C & P). rewrite Ca in C. injection C as <-. rewrite Pa in P. injection P as ->. destruct (get_stored g md tr Rg v p Gv) as (fp & (_ & Fp) & _). unfold feature_at in Fp. rewrite Cq in Fp. cbn [bind] in Fp. rewrite Dq in Fp. discriminate.
  - intros (v & p & k & Gv & H & H'). destruct (hangs_group g md tr Rg i f p k Sf H) as (c & q & cq & C & P & Q & Cq & D & Pq). destruct (hangs_group g md tr Rg j f' p k Sf' H') as (c' & q' & cq' & C' & P' & Q' & Cq' & D' & Pq').
    assert (q' = q) as -> by (eapply (rep_one_group g md tr Rg); eauto). exists c, c', q, cq, k. auto 10.
Qed.
Lemma clone_together s u i j i' j' : all_grouped h m -> get_feature m s = Some i -> get_feature m u = Some j -> get_feature m' s = Some i' -> get_feature m' u = Some j' -> (together h i j <-> together h' i' j').
Proof.
  intros Ag G Gj G' Gj'. rewrite (together_hangs h m t s u i j R G Gj), (together_hangs h' m' t' s u i' j' R' G' Gj'). split; intros (v & p & k & Gv & H & H').
  - destruct (proj1 (clone_there v) (ex_intro _ p Gv)) as (p' & Gp'). exists v, p', k. split; [exact Gp'|]. split; [apply (clone_hangs s i i' v p p' (Some k))|apply (clone_hangs u j j' v p p' (Some k))]; assumption.
  - destruct (proj2 (clone_there v) (ex_intro _ p Gv)) as (p' & Gp'). exists v, p', k. split; [exact Gp'|]. split; [apply (clone_hangs s i i' v p' p (Some k))|apply (clone_hangs u j j' v p' p (Some k))]; assumption.
Qed.
Lemma clone_looks_same : bare_root h m -> all_grouped h m -> writable h m -> looks_same h m h' m'.
Proof.
  intros Br Ag W. constructor.
  - exact (cl_name _ _ _ _ Cl).
  - exact (cl_path _ _ _ _ Cl).
  - exact (cl_commit _ _ _ _ Cl).
  - exact clone_there.
  - intros s i i' f g G G' F F'. right. right. split; [exact (clone_data s i f i' g G G' F F')|]. intros [K|K]; [exact (Br s i f G F K)|]. destruct (wr_features _ _ W s i f G F) as (_ & _ & X & _). rewrite K in X. destruct X.
  - exact clone_above.
  - intros a b n X. exact (forall2_times _ _ _ _ _ _ (meets_spelled _ _ clone_all) X).
  - intros a b. unfold excludes_named. rewrite (forall2_stated h h' _ _ (excluding_text a b) (meets_spelled _ _ clone_all)). split; intros [X|(i & j & Gi & Gj & N & Tg)]; auto; right.
    + destruct (proj1 (clone_there _) (ex_intro _ i Gi)) as (i' & Gi'). destruct (proj1 (clone_there _) (ex_intro _ j Gj)) as (j' & Gj'). exists i', j'. split; [exact Gi'|]. split; [exact Gj'|]. split; [|apply (clone_together _ _ i j i' j' Ag Gi Gj Gi' Gj'); exact Tg].
      intros ->. apply N. pose proof (names_eq h' m' t' _ _ _ R' Gi' Gj') as E. rewrite E in Gi. congruence.
    + destruct (proj2 (clone_there _) (ex_intro _ i Gi)) as (i' & Gi'). destruct (proj2 (clone_there _) (ex_intro _ j Gj)) as (j' & Gj'). exists i', j'. split; [exact Gi'|]. split; [exact Gj'|]. split; [|apply (clone_together _ _ i' j' i j Ag Gi' Gj' Gi Gj); exact Tg].
      intros ->. apply N. pose proof (names_eq h m t _ _ _ R Gi' Gj') as E. rewrite E in Gi. congruence.
  - pose proof (cl_boolean _ _ _ _ Cl) as F. destruct F; split; auto; discriminate.
  - intros l l' U U'. pose proof (forall2_unpaired _ _ _ (fun c c' => crel_pair _ _) clone_boolean l l' U U') as F. apply (Forall2_refine _ _ _ _ F). intros c c' I X. left. apply meets_text; [|exact X]. unfold all_constraints. apply in_or_app. left.
    clear - U I. induction U; [destruct I|right; auto|]. destruct I as [<-|I]; [left; reflexivity|right; auto].
  - apply (Forall2_refine _ _ _ _ clone_nonboolean). intros c c' I X. left. apply meets_text; [|exact X]. unfold all_constraints. apply in_or_app. right. apply in_or_app. left. exact I.
  - apply (Forall2_refine _ _ _ _ clone_mixed). intros x x' I (X & Q). split; [|exact Q]. left. apply meets_text; [|exact X]. unfold all_constraints. apply in_or_app. right. apply in_or_app. right. apply in_map. exact I.
Qed.
Lemma clone_writable : writable h m -> writable h' m'.
Proof.
  intros W. assert (Sp : forall c c', meets c c' -> (exists e, spelled h (c_expr c) e /\ expressible e) -> exists e, spelled h' (c_expr c') e /\ expressible e).
  { intros c c' X (e & Se & Ee). exists e. split; [apply (crel_spelling _ _ e X); exact Se|exact Ee]. }
  constructor.
  - intros s i' f' G' F'. destruct (proj2 (clone_there s) (ex_intro _ i' G')) as (i & G). destruct (get_stored h m t R s i G) as (f & (_ & F) & _). destruct (wr_features _ _ W s i f G F) as (W1 & W2 & W3 & W4).
    destruct (clone_data s i f i' f' G G' F F') as (N & _ & K). unfold writable_feature. rewrite N. split; [exact W1|]. split; [exact W2|]. destruct (f_kind f) as [|v st| |]; destruct K as (-> & _ & ->); auto.
  - intros s i' G'. destruct (proj2 (clone_there s) (ex_intro _ i' G')) as (i & G). rewrite (wr_root _ _ W s i G). exact (clone_root s i i' G G').
  - intros s i' f' G' F'. destruct (proj2 (clone_there s) (ex_intro _ i' G')) as (i & G). destruct (get_stored h m t R s i G) as (f & (_ & F) & _). rewrite <- (clone_root s i i' G G'), <- (wr_kind _ _ W s i f G F).
    destruct (clone_data s i f i' f' G G' F F') as (_ & _ & K). destruct (f_kind f); destruct K as (-> & _); split; auto; discriminate.
  - rewrite (cl_name _ _ _ _ Cl). apply W.
  - rewrite (cl_path _ _ _ _ Cl). apply W.
  - rewrite (cl_commit _ _ _ _ Cl). apply W.
  - intros c' I. destruct (Forall2_right _ _ _ _ clone_boolean I) as (c & Ic & X). destruct (wr_boolean _ _ W c Ic) as [P|P]; [left; apply (crel_pair _ _ X); exact P|right; exact (Sp c c' X P)].
  - intros c' I. destruct (Forall2_right _ _ _ _ clone_nonboolean I) as (c & Ic & X). exact (Sp c c' X (wr_nonboolean _ _ W c Ic)).
  - intros x' I. destruct (Forall2_right _ _ _ _ clone_mixed I) as (x & Ix & X & _). exact (Sp _ _ X (wr_mixed _ _ W x Ix)).
Qed.
End Clone.
