(** Writing a model with nobody called root or base and reading it back puts the new root
    into the valid configurations. *)
From Coq Require Import List ZArith Arith Bool Ascii String Permutation Lia.
From Verif Require Import Text TextProofs ConstraintModel ConstraintSpec FeatureTreeModel FeatureTreeSpec FeatureTreeProofs FeatureTransactionModel FeatureTransactionSpec FeatureEditSpec FeatureEditProofs
  FeatureHistoryProofs FeatureBuildSpec FeatureCloneSpec FeatureCloneProofs SxfmModel XmlModel XmlSpec XmlTripSpec ConfigurationModel SolverModel SolverSpec SolverProofs SolverLoadProofs SolverEncodingProofs
  ValidSpec ValidProofs ValidCloneProofs ValidTripProofs XmlBelowSpec.
Import ListNotations.
Local Open Scope string_scope.
Local Open Scope list_scope.

Section Below.
Variables (h : heap) (m : fmodel) (t : tree) (h' : heap) (m' : fmodel).
Hypothesis R : represents h m t.
Hypothesis Mb : model_below h m h' m'.
Hypothesis Firm : root_firm h m.
Hypothesis Re : all_resolved m.
Hypothesis Re' : all_resolved m'.
Hypothesis Su : supported h m.
Hypothesis Ne : neat h m.
Hypothesis Li : listed h m.
Hypothesis Nv : narrow_values h m.
Hypothesis Pg : proper_groups h m.
Hypothesis Eg : exclusive_grouped h m.

(** ** Features *)
Definition below_alike (f f' : feature) : Prop := alike (f_kind (demoted f)) (f_kind f') /\ (f_kind f <> FRoot -> f_kind f = FBinary -> f_optional f' = f_optional f) /\ (f_kind f = FRoot -> f_optional f' = false).
Lemma root_kind s i f : get_feature m s = Some i -> feature_at h i = Some f -> (f_kind f = FRoot <-> m_root m = Some i).
Proof.
  intros G F. pose proof (represents_tree_shaped _ _ _ R) as TS. destruct (ts_root _ _ TS) as (r & c & f0 & Er & Ir & Cr & Pr & Dr & Kr). destruct (get_stored h m t R s i G) as (f1 & Sf & _). assert (f1 = f) as -> by (rewrite (proj2 Sf) in F; congruence). split.
  - intros K. destruct (Nat.eq_dec i r) as [->|N]; [exact Er|]. exfalso. destruct (ts_parent _ _ TS i) as (c2 & p2 & cp2 & X1 & X2 & X3 & X4 & _); [unfold nodes; apply in_or_app; left; exact (proj1 Sf)|congruence|].
    unfold nodes in X3. apply in_app_or in X3. destruct X3 as [J|J].
    + apply (hangs_root h m t R i f p2 None Sf K). exists c2. auto.
    + destruct (group_cell h m t R p2 J) as (k0 & p0 & e0 & n0 & ns0 & C0 & _). apply (hangs_root h m t R i f p0 (Some k0) Sf K). exists c2. split; [exact X1|]. eexists p2, _. split; [exact X2|]. split; [exact C0|]. auto.
  - intros E. rewrite Er in E. injection E as ->. unfold feature_at in F. rewrite Cr in F. cbn in F. rewrite Dr in F. congruence.
Qed.
Lemma forth s i f : get_feature m s = Some i -> feature_at h i = Some f -> exists i' f', get_feature m' s = Some i' /\ feature_at h' i' = Some f' /\ below_alike f f'.
Proof.
  intros G F. destruct (bl_features _ _ _ _ Mb s i f G F) as (i' & g & G' & F' & (_ & _ & K & O)). exists i', g. split; [exact G'|]. split; [exact F'|]. unfold below_alike, demoted in *. destruct (f_kind f) as [|v st| |] eqn:E.
  - rewrite E in K, O. cbn in K. rewrite E, K. split; [reflexivity|]. split; [intros _ _; apply O|discriminate].
  - rewrite E in K, O. cbn in K. split; [|split; discriminate]. rewrite E. destruct (Li s i f v st G F E) as (vs & ->). destruct K as (ws & -> & B). cbn. intros z.
    rewrite (narrow_same vs ws B); [reflexivity|]. intros l z0 ->. exact (Nv s i f l z0 st G F E).
  - cbn in K, O. rewrite K. split; [reflexivity|]. split; [congruence|]. intros _. rewrite (proj2 O). exact (Firm i f (proj1 (root_kind s i f G F) E) F).
  - rewrite E in K, O. cbn in K. rewrite E, K. split; [reflexivity|]. split; discriminate.
Qed.
Lemma below_numeric f f' : below_alike f f' -> numeric_kind (f_kind f) = numeric_kind (f_kind f').
Proof. intros (A & _). rewrite <- (alike_numeric _ _ A). unfold demoted. destruct (f_kind f) eqn:K; cbn [f_kind]; rewrite ?K; reflexivity. Qed.
Let mb0 := bl_represented _ _ _ _ Mb.
Lemma from s i' : get_feature m' s = Some i' -> s = T "root" \/ exists i, get_feature m s = Some i.
Proof.
  intros G. destruct mb0 as (t' & R'). pose proof (represents_tree_shaped _ _ _ R') as TS'. pose proof (represents_tree_shaped _ _ _ R) as TS. unfold get_feature in G. apply (find_name_in _ _ _ (ts_names _ _ TS')) in G.
  assert (I : In s (map fst (m_features m'))) by (apply in_map_iff; exists (s, i'); auto). apply (Permutation_in _ (bl_names _ _ _ _ Mb)) in I. destruct I as [<-|I]; [left; reflexivity|right].
  apply in_map_iff in I. destruct I as ((s0 & i) & E & I). cbn in E. subst s0. exists i. unfold get_feature. apply (find_name_in _ _ _ (ts_names _ _ TS)). exact I.
Qed.

(** ** Parents and groups *)
Lemma hang_forth s i u p r : get_feature m s = Some i -> get_feature m u = Some p -> hangs h i p r -> exists i' p', get_feature m' s = Some i' /\ get_feature m' u = Some p' /\ hangs h' i' p' r.
Proof.
  intros G Gp H. pose proof (hangs_above h m t R i p r u H Gp) as A. destruct (get_stored h m t R s i G) as (f & Sf & _).
  destruct (proj2 (bl_parents _ _ _ _ Mb s u)) as (i' & p' & Gi' & Gp' & A'); [left; exists i, p; auto|]. exists i', p'. split; [exact Gi'|]. split; [exact Gp'|].
  destruct (bl_groups _ _ _ _ Mb u p p' Gp Gp') as (_ & _ & C). destruct (C i' (conj (ex_intro _ s Gi') A')) as (C1 & C2). destruct r as [k|].
  + pose proof (hangs_group_of h m t R i f p k Sf H) as Gk. destruct (Pg p k Gk) as (-> & _). apply C1. exact (grouped_apart h m t R Ne Pg p _ Gk).
  + apply C2. intros Ap. exact (proj2 Ne p _ s i (apart_grouped h m t R Ne Pg Eg u p Gp Ap) G H).
Qed.
Lemma hang_unique s i' u u' p' q' r r' : get_feature m' s = Some i' -> get_feature m' u = Some p' -> get_feature m' u' = Some q' -> hangs h' i' p' r -> hangs h' i' q' r' -> p' = q' /\ u = u' /\ r = r'.
Proof.
  intros G Gp Gq H H'. destruct mb0 as (t' & R'). destruct (get_stored h' m' t' R' s i' G) as (f' & Sf & _).
  destruct (get_stored h' m' t' R' u p' Gp) as (g & Sg & Ng). destruct (get_stored h' m' t' R' u' q' Gq) as (g2 & Sg2 & Ng2).
  assert (K : f_kind f' <> FRoot) by (intros K; exact (hangs_root h' m' t' R' i' f' p' r Sf K H)).
  destruct (hangs_below h' m' t' R' i' f' Sf K) as (p3 & g3 & r3 & _ & _ & _ & U). destruct (U p' g r H (proj2 Sg)) as (E1 & E2 & E3). destruct (U q' g2 r' H' (proj2 Sg2)) as (E4 & E5 & E6). subst. auto.
Qed.
Lemma hang_back s i' u p' r : get_feature m' s = Some i' -> get_feature m' u = Some p' -> hangs h' i' p' r ->
  (u = T "root" /\ r = None /\ get_feature m s = m_root m) \/ (exists i p, get_feature m s = Some i /\ get_feature m u = Some p /\ hangs h i p r).
Proof.
  intros G Gp H. destruct mb0 as (t' & R'). pose proof (hangs_above h' m' t' R' i' p' r u H Gp) as A.
  assert (P : parent_named h' m' s u) by (exists i', p'; auto). apply (bl_parents _ _ _ _ Mb) in P. destruct P as [(i & p & Gi & Gp0 & Ab)|(_ & E & ->)].
  - right. exists i, p. split; [exact Gi|]. split; [exact Gp0|]. destruct (above_hangs h m t R i p s Gi Ab) as (r0 & H0). destruct (hang_forth s i u p r0 Gi Gp0 H0) as (j & q & Gj & Gq & H1).
    assert (j = i') as -> by congruence. destruct (hang_unique s i' u u p' q r r0 G Gp Gq H H1) as (_ & _ & ->). exact H0.
  - left. split; [reflexivity|]. split; [|exact E]. destruct (bl_root _ _ _ _ Mb) as (r0 & f0 & Er & Gr & _). assert (r0 = p') as -> by congruence.
    destruct (bl_top_groups _ _ _ _ Mb p' Er) as (_ & X). pose proof (X i' (conj (ex_intro _ s G) A)) as Y. destruct (hang_unique s i' _ _ p' p' r None G Gp Gp H Y) as (_ & _ & ->). reflexivity.
Qed.
Lemma top_hangs s i' : get_feature m s = m_root m -> get_feature m' s = Some i' -> exists p', get_feature m' (T "root") = Some p' /\ hangs h' i' p' None.
Proof.
  intros E G. destruct (bl_root _ _ _ _ Mb) as (r0 & f0 & Er & Gr & _). exists r0. split; [exact Gr|]. destruct (bl_top_groups _ _ _ _ Mb r0 Er) as (_ & X).
  destruct (proj2 (bl_parents _ _ _ _ Mb s (T "root"))) as (i2 & p2 & G2 & Gp2 & A); [right; split; [rewrite E, (rep_root _ _ _ R); discriminate|auto]|]. assert (i2 = i') as -> by congruence. assert (p2 = r0) as -> by congruence.
  apply X. split; eauto.
Qed.
Lemma group_forth u p k : get_feature m u = Some p -> group_of h m p k -> exists p', get_feature m' u = Some p' /\ group_of h' m' p' k.
Proof.
  intros G Gr. destruct (get_stored h m t R u p G) as (f & Sf & _). destruct (forth u p f G (proj2 Sf)) as (p' & _ & Gp' & _). exists p'. split; [exact Gp'|].
  destruct (bl_groups _ _ _ _ Mb u p p' G Gp') as (A1 & _). destruct (Pg p k Gr) as (-> & _). apply A1. exact (grouped_apart h m t R Ne Pg p _ Gr).
Qed.
Lemma group_back u p' k : get_feature m' u = Some p' -> group_of h' m' p' k -> exists p, get_feature m u = Some p /\ group_of h m p k.
Proof.
  intros G Gr. destruct (from u p' G) as [->|(p & Gp)].
  - exfalso. destruct (bl_root _ _ _ _ Mb) as (r0 & f0 & Er & Gr0 & _). assert (r0 = p') as -> by congruence. exact (proj1 (bl_top_groups _ _ _ _ Mb p' Er) k Gr).
  - exists p. split; [exact Gp|]. destruct (bl_groups _ _ _ _ Mb u p p' Gp G) as (A1 & A2 & _). destruct k; [|destruct (A2 Gr)]. apply (apart_grouped h m t R Ne Pg Eg u p Gp). apply A1. exact Gr.
Qed.
Lemma same_members k n p p' ns ns' : get_feature m n = Some p -> get_feature m' n = Some p' -> (forall s, In s ns <-> exists i, get_feature m s = Some i /\ hangs h i p (Some k)) ->
  (forall s, In s ns' <-> exists i, get_feature m' s = Some i /\ hangs h' i p' (Some k)) -> forall s, In s ns <-> In s ns'.
Proof.
  intros G G' M M' s. rewrite M, M'. split; intros (i & Gi & H).
  - destruct (hang_forth s i n p _ Gi G H) as (i' & p2 & X1 & X2 & X3). assert (p2 = p') as -> by congruence. eauto.
  - destruct (hang_back s i n p' _ Gi G' H) as [(_ & X & _)|(j & q & X1 & X2 & X3)]; [discriminate|]. assert (q = p) as -> by congruence. eauto.
Qed.
Lemma members_forth k n ns : group h m k n ns -> exists ns', group h' m' k n ns' /\ forall s, In s ns <-> In s ns'.
Proof.
  intros Gr. destruct mb0 as (t' & R'). destruct (members_hang_rep h m t R k n ns Gr) as (p & Gp & Gk & M). destruct (group_forth n p k Gp Gk) as (p' & Gp' & Gk').
  destruct (grouped_by h' m' t' R' p' k n Gp' Gk') as (ns' & Gn'). exists ns'. split; [exact Gn'|]. destruct (members_hang_rep h' m' t' R' k n ns' Gn') as (p0 & Gp0 & _ & M'). assert (p0 = p') as -> by congruence.
  exact (same_members k n p p' ns ns' Gp Gp' M M').
Qed.
Lemma members_back k n ns' : group h' m' k n ns' -> exists ns, group h m k n ns /\ forall s, In s ns <-> In s ns'.
Proof.
  intros Gr. destruct mb0 as (t' & R'). destruct (members_hang_rep h' m' t' R' k n ns' Gr) as (p' & Gp' & Gk' & M'). destruct (group_back n p' k Gp' Gk') as (p & Gp & Gk).
  destruct (grouped_by h m t R p k n Gp Gk) as (ns & Gn). exists ns. split; [exact Gn|]. destruct (members_hang_rep h m t R k n ns Gn) as (p0 & Gp0 & _ & M). assert (p0 = p) as -> by congruence.
  exact (same_members k n p p' ns ns' Gp Gp' M M').
Qed.

(** ** Constraints *)
Lemma below_leaf mixed a r r' : corresponds m m' r r' -> leaf_value h mixed a r = leaf_value h' mixed a r'.
Proof.
  intros (s & i & i' & -> & -> & G & G'). destruct mb0 as (t' & R'). destruct (get_stored h m t R s i G) as (f & Sf & Nf).
  destruct (forth s i f G (proj2 Sf)) as (j & f' & G2 & F' & A). rewrite G' in G2. injection G2 as <-.
  cbn [leaf_value]. rewrite (proj2 Sf), F'. rewrite (below_numeric _ _ A), (get_name h' m' t' R' s i' f' G' F'), Nf. reflexivity.
Qed.
Lemma below_value mixed a e e' : crel (corresponds m m') e e' -> value_of h mixed a e = value_of h' mixed a e'.
Proof. intros C. unfold value_of. eapply crel_meaning; [exact C|]. intros r r' _ _ X. exact (below_leaf mixed a r r' X). Qed.
Lemma below_mentions r r' n : corresponds m m' r r' -> (mentions h r false n <-> mentions h' r' false n).
Proof.
  intros (s & i & i' & -> & -> & G & G'). destruct mb0 as (t' & R'). destruct (get_stored h m t R s i G) as (f & (_ & F) & _).
  destruct (forth s i f G F) as (j & f' & G2 & F' & A). rewrite G' in G2. injection G2 as <-. pose proof (below_numeric _ _ A) as B. pose proof (get_name h m t R s i f G F) as N1. pose proof (get_name h' m' t' R' s i' f' G' F') as N2.
  split; intros (g & Fg & K & ->); [exists f'|exists f]; (split; [assumption|]); (split; congruence).
Qed.
Lemma below_mixed a e e' k r : Forall2 (corresponds m m') (leaves e) (leaves e') -> value_of h true a e = value_of h' true a e' -> (mixed_holds h a e k r <-> mixed_holds h' a e' k r).
Proof.
  intros C V. unfold mixed_holds. rewrite V. split; (intros [H|(Er & x & n & I & M & S)]; [left; exact H|right]; split; [exact Er|]).
  - destruct (Forall2_left _ _ _ _ C I) as (y & Iy & Cy). exists y, n. split; [exact Iy|]. split; [apply (below_mentions x y n Cy); exact M|exact S].
  - destruct (Forall2_right _ _ _ _ C I) as (y & Iy & Cy). exists y, n. split; [exact Iy|]. split; [apply (below_mentions y x n Cy); exact M|exact S].
Qed.
Lemma meet e e' x : (forall r, In r (leaves e) -> exists s i, r = Ref i /\ get_feature m s = Some i) -> (forall r, In r (leaves e') -> exists s i, r = Ref i /\ get_feature m' s = Some i) ->
  spelled h e x -> spelled h' e' x -> crel (corresponds m m') e e'.
Proof.
  intros L L' S1 S2. destruct mb0 as (t' & R').
  assert (C : crel (fun r r' => exists s, called_in h r s /\ called_in h' r' s) e e').
  { eapply (crel_compose (called_in h) (fun s r => called_in h' r s)); [|apply spelled_crel; exact S1|apply crel_sym, spelled_crel; exact S2]. intros r s r' A B. exists s. auto. }
  apply (crel_refine _ _ _ _ C). intros r r' I I' (s & E & E').
  destruct (L r I) as (u & i & -> & G). destruct (L' r' I') as (u' & i' & -> & G'). exists u, i, i'. split; [reflexivity|]. split; [reflexivity|]. split; [exact G|].
  destruct E as (f & F & N). destruct E' as (f' & F' & N'). rewrite (get_name h m t R u i f G F) in N. rewrite (get_name h' m' t' R' u' i' f' G' F') in N'. congruence.
Qed.
Lemma meet_value c c' x : In c (all_constraints m) -> In c' (all_constraints m') -> spelled h (c_expr c) x -> spelled h' (c_expr c') x \/ spelled h' (c_expr c') (excludes_as_implies x) ->
  forall mixed a, value_of h mixed a (c_expr c) = value_of h' mixed a (c_expr c').
Proof.
  intros I I' S1 S2 mixed a. destruct mb0 as (t' & R'). destruct S2 as [S2|S2].
  - apply below_value. exact (meet _ _ _ (resolved_leaves m Re c I) (resolved_leaves m' Re' c' I') S1 S2).
  - rewrite <- (below_value mixed a (excludes_as_implies (c_expr c)) (c_expr c')).
    + symmetry. apply implies_meaning.
    + apply (meet _ _ (excludes_as_implies x)); [rewrite implies_leaves; exact (resolved_leaves m Re c I)|exact (resolved_leaves m' Re' c' I')|apply spelled_implies; exact S1|exact S2].
Qed.
(** Where the constraints come from. *)
Lemma boolean_from c' : In c' (m_boolean m') ->
  (exists c, In c (m_boolean m ++ m_nonboolean m) /\ (forall a, value_of h false a (c_expr c) = value_of h' false a (c_expr c')) /\ (xor_free (c_expr c) -> xor_free (c_expr c'))) \/
  (exists u v i j p g, get_feature m u = Some i /\ get_feature m v = Some j /\ i <> j /\ get_feature m g = Some p /\ hangs h i p (Some RAlternative) /\ hangs h j p (Some RAlternative) /\
    (forall a, value_of h' false a (c_expr c') = Some (Truth (negb (a_bool a u && a_bool a v)))) /\ xor_free (c_expr c')).
Proof.
  intros I'. destruct mb0 as (t' & R'). assert (A' : In c' (all_constraints m')) by (unfold all_constraints; apply in_or_app; auto).
  destruct (spelled_exists h' m' t' (c_expr c') R' (resolved_leaves m' Re' c' A')) as (e & Se).
  destruct (proj1 (bl_boolean _ _ _ _ Mb e)) as [(P & c & Ic & Sc)|[(a & b & i & j & -> & Ga & Gb & N & Tg)|(x & -> & Np & c & Ic & Sc)]]; [exists c'; auto| | |].
  - left. exists c. unfold all_constraints in Ic. rewrite app_assoc in Ic. apply in_app_or in Ic. destruct Ic as [Ic|Ic].
    + split; [exact Ic|]. assert (In c (all_constraints m)) as Ac by (unfold all_constraints; rewrite app_assoc; apply in_or_app; auto). split; [intros asg; exact (meet_value c c' e Ac A' Sc (or_introl Se) false asg)|].
      intros X. eapply crel_xor_free; [|exact X]. exact (meet _ _ _ (resolved_leaves m Re c Ac) (resolved_leaves m' Re' c' A') Sc Se).
    + apply in_map_iff in Ic. destruct Ic as (x & <- & Ix). destruct (mixed_no_pair h m Su x e Ix Sc P).
  - right. inversion Se as [? l r ? ? Sl Sr| | |]; subst. inversion Sl as [| | |ra ? Ca]; subst. inversion Sr as [| | |rb ? Cb]; subst.
    destruct (get_stored h m t R (T a) i Ga) as (f & Sf & Nf). 
    assert (exists p, feature_above h i p) as (p & Ap).
    { destruct Tg as (ca & cb & q & cq & k & C1 & C2 & P1 & P2 & Cq & Dq). destruct (f_kind f) eqn:K.
      3: { exfalso. pose proof (represents_tree_shaped _ _ _ R) as TS. destruct (ts_parent _ _ TS i) as (c2 & p2 & cp2 & X1 & X2 & X3 & X4 & _).
        - unfold nodes. apply in_or_app. left. exact (proj1 Sf).
        - intros E. destruct (ts_root _ _ TS) as (r & cr & fr & Er & _ & Cr & Pr & _). rewrite E in Er. injection Er as <-. congruence.
        - assert (p2 = q) as -> by congruence. unfold nodes in X3. apply in_app_or in X3. destruct X3 as [J|J].
          + apply in_map_iff in J. destruct J as ((s2 & j2) & E2 & J). cbn in E2. subst j2. destruct (ts_stored _ _ TS s2 q J) as (f2 & F2 & _). unfold feature_at in F2. rewrite Cq in F2. cbn in F2. rewrite Dq in F2. discriminate.
          + destruct (group_cell h m t R q J) as (k0 & p0 & e0 & n0 & ns0 & C0 & _). apply (hangs_root h m t R i f p0 (Some k0) Sf K). exists ca. split; [exact C1|]. eexists q, _. split; [exact P1|]. split; [exact C0|]. auto. }
      all: destruct (hangs_below h m t R i f Sf) as (p1 & g1 & r1 & H1 & S1 & _ & _); [rewrite K; discriminate|]; exists p1; exact (hangs_above h m t R i p1 r1 _ H1 (stored_get h m t R p1 g1 S1)). }
    destruct (together_group h m t R i j (T a) (T b) p Ga Gb Tg Ap) as (k & Gk & Hi & Hj). destruct (Pg p k Gk) as (-> & _ & Bin). destruct (group_parent h m t R _ p Gk) as (gp & Sg).
    assert (Ab : feature_above h j p) by exact (hangs_above h m t R j p _ _ Hj (stored_get h m t R p gp Sg)).
    exists (T a), (T b), i, j, p, (f_name gp). split; [exact Ga|]. split; [exact Gb|]. split; [exact N|]. split; [exact (stored_get h m t R p gp Sg)|]. split; [exact Hi|]. split; [exact Hj|].
    assert (V : forall r s n asg, In r (leaves (c_expr c')) -> called_in h' r s -> get_feature m (T s) = Some n -> child_in h m p n -> leaf_value h' false asg r = Some (Truth (a_bool asg (T s)))).
    { intros r s n asg Ir Cr Gn Cn. destruct (resolved_leaves m' Re' c' A' r Ir) as (u & x & -> & Gx). destruct Cr as (g & Fg & Ng). pose proof (get_name h' m' t' R' u x g Gx Fg) as Eu.
      destruct (Bin n Cn) as (fn & Fn & Kn & _). destruct (forth (T s) n fn Gn Fn) as (x2 & g2 & Gx2 & Fx2 & Al). assert (x2 = x) as -> by congruence. assert (g2 = g) as -> by congruence.
      cbn [leaf_value]. rewrite Fg, <- (below_numeric _ _ Al), Kn, Ng. reflexivity. }
    match goal with H : c_expr c' = _ |- _ => rename H into Ec | H : _ = c_expr c' |- _ => symmetry in H; rename H into Ec end. split; [|cbn; repeat split; discriminate].
    intros asg. unfold value_of. rewrite Ec in V. cbn [meaning]. rewrite (V ra a i asg), (V rb b j asg); [reflexivity| | | | | | | |]; cbn [leaves app In]; auto; (split; [eauto|assumption]).
  - left. exists c. assert (In c (all_constraints m)) as Ac by (unfold all_constraints; apply in_or_app; auto). split; [apply in_or_app; auto|]. split; [intros asg; exact (meet_value c c' x Ac A' Sc (or_intror Se) false asg)|].
    intros X. apply (crel_xor_free (corresponds m m') (excludes_as_implies (c_expr c))).
    + apply (meet _ _ (excludes_as_implies x)); [rewrite implies_leaves; exact (resolved_leaves m Re c Ac)|exact (resolved_leaves m' Re' c' A')|apply spelled_implies; exact Sc|exact Se].
    + clear - X. induction (c_expr c) as [o l IHl r IHr|o e IH|n|r]; try exact X; cbn [xor_free] in X; [destruct o|destruct o]; cbn [excludes_as_implies xor_free]; intuition discriminate.
Qed.
Lemma boolean_to c : In c (m_boolean m) -> exists c', In c' (m_boolean m') /\ forall a, value_of h false a (c_expr c) = value_of h' false a (c_expr c').
Proof.
  intros I. assert (Ac : In c (all_constraints m)) by (unfold all_constraints; apply in_or_app; auto). destruct (spelled_exists h m t (c_expr c) R (resolved_leaves m Re c Ac)) as (e & Se).
  destruct (pair_dec e) as [P|P].
  - destruct (proj2 (bl_boolean _ _ _ _ Mb e)) as (c' & I' & S'); [left; split; [exact P|exists c; auto]|]. exists c'. split; [exact I'|]. intros a.
    apply (meet_value c c' e Ac); [unfold all_constraints; apply in_or_app; auto|exact Se|left; exact S'].
  - destruct (proj2 (bl_boolean _ _ _ _ Mb (excludes_as_implies e))) as (c' & I' & S'); [right; right; exists e; split; [reflexivity|]; split; [exact P|exists c; auto]|]. exists c'. split; [exact I'|]. intros a.
    apply (meet_value c c' e Ac); [unfold all_constraints; apply in_or_app; auto|exact Se|right; exact S'].
Qed.
Lemma back_value c c' : In c (all_constraints m) -> In c' (all_constraints m') -> constraint_back h h' c c' -> forall mixed a, value_of h mixed a (c_expr c) = value_of h' mixed a (c_expr c').
Proof. intros I I' (x & S1 & S2). exact (meet_value c c' x I I' S1 (or_intror S2)). Qed.
Lemma back_leaves c c' : In c (all_constraints m) -> In c' (all_constraints m') -> constraint_back h h' c c' -> Forall2 (corresponds m m') (leaves (c_expr c)) (leaves (c_expr c')).
Proof.
  intros I I' (x & S1 & S2). rewrite <- (implies_leaves (c_expr c)). apply crel_leaves.
  apply (meet _ _ (excludes_as_implies x)); [rewrite implies_leaves; exact (resolved_leaves m Re c I)|exact (resolved_leaves m' Re' c' I')|apply spelled_implies; exact S1|exact S2].
Qed.
Lemma back_xor_free c c' : In c (all_constraints m) -> In c' (all_constraints m') -> constraint_back h h' c c' -> xor_free (c_expr c) -> xor_free (c_expr c').
Proof.
  intros I I' (x & S1 & S2) X. apply (crel_xor_free (corresponds m m') (excludes_as_implies (c_expr c))).
  - apply (meet _ _ (excludes_as_implies x)); [rewrite implies_leaves; exact (resolved_leaves m Re c I)|exact (resolved_leaves m' Re' c' I')|apply spelled_implies; exact S1|exact S2].
  - clear - X. induction (c_expr c) as [o l IHl r IHr|o e IH|n|r]; try exact X; cbn [xor_free] in X; [destruct o|destruct o]; cbn [excludes_as_implies xor_free]; intuition discriminate.
Qed.


(** ** Configurations *)
Lemma below_valid a : SolverSpec.valid h' m' a <-> selected a (T "root") /\ SolverSpec.valid h m a.
Proof.
  destruct mb0 as (t' & R'). destruct (bl_root _ _ _ _ Mb) as (r0 & f0 & Er & Gr & Fr0 & Kr & _). pose proof (get_name h' m' t' R' _ _ _ Gr Fr0) as Nr0. split.
  - intros V. assert (S0 : selected a (T "root")) by (rewrite <- Nr0; apply (v_root _ _ _ V r0 f0); [apply (stored_is h' m' t' R'); rewrite Nr0; auto|exact Kr]). split; [exact S0|]. constructor.
    + intros i f Sf K. apply (stored_is h m t R) in Sf. destruct Sf as (G & F). destruct (forth _ i f G F) as (i' & f' & G' & F' & (A & _ & O)). pose proof (get_name h' m' t' R' _ _ _ G' F') as N'.
      destruct (top_hangs (f_name f) i') as (p' & Gp' & H); [rewrite G; symmetry; exact (proj1 (root_kind _ i f G F) K)|exact G'|]. assert (p' = r0) as -> by congruence.
      rewrite <- N'. apply (v_mandatory _ _ _ V i' f' r0 f0); [apply (stored_is h' m' t' R'); rewrite N'; auto| |exact (O K)|exact H|exact Fr0|rewrite Nr0; exact S0].
      unfold demoted in A. rewrite K in A. cbn in A. destruct (f_kind f'); cbn in A; try discriminate; try contradiction. reflexivity.
    + intros i f p g r Sf K H Fg S. destruct (hangs_parent h m t R i p r f Sf H (ex_intro _ g Fg)) as (u & Gu). pose proof (get_name h m t R u p g Gu Fg) as Nu. apply (stored_is h m t R) in Sf. destruct Sf as (G & F).
      destruct (hang_forth _ i u p r G Gu H) as (i' & p' & G' & Gp' & H'). destruct (forth _ i f G F) as (j & f' & Gj & F' & (A & _)). assert (j = i') as -> by congruence. destruct (get_stored h' m' t' R' u p' Gp') as (g' & Sg' & Ng').
      pose proof (get_name h' m' t' R' _ _ _ G' F') as N'. rewrite Nu, <- Ng'. apply (v_parent _ _ _ V i' f' p' g' r); [apply (stored_is h' m' t' R'); rewrite N'; auto| |exact H'|exact (proj2 Sg')|rewrite N'; exact S].
      unfold demoted in A. rewrite K in A. rewrite K in A. cbn in A. destruct (f_kind f'); cbn in A; try discriminate; try contradiction. reflexivity.
    + intros i f p g Sf K O H Fg S. destruct (hangs_parent h m t R i p None f Sf H (ex_intro _ g Fg)) as (u & Gu). pose proof (get_name h m t R u p g Gu Fg) as Nu. apply (stored_is h m t R) in Sf. destruct Sf as (G & F).
      destruct (hang_forth _ i u p None G Gu H) as (i' & p' & G' & Gp' & H'). destruct (forth _ i f G F) as (j & f' & Gj & F' & (A & B & _)). assert (j = i') as -> by congruence. destruct (get_stored h' m' t' R' u p' Gp') as (g' & Sg' & Ng').
      pose proof (get_name h' m' t' R' _ _ _ G' F') as N'. rewrite <- N'. apply (v_mandatory _ _ _ V i' f' p' g'); [apply (stored_is h' m' t' R'); rewrite N'; auto| | |exact H'|exact (proj2 Sg')|rewrite Ng', <- Nu; exact S].
      * unfold demoted in A. rewrite K in A. rewrite K in A. cbn in A. destruct (f_kind f'); cbn in A; try discriminate; try contradiction. reflexivity.
      * rewrite B; [exact O|congruence|exact K].
    + intros n ns Gn S. destruct (members_forth _ n ns Gn) as (ns' & Gn' & E). destruct (v_alternative _ _ _ V n ns' Gn' S) as (s & I & Ss & U). exists s. split; [apply E; exact I|]. split; [exact Ss|]. intros s' I'. apply U. apply E. exact I'.
    + intros n ns Gn S. destruct (members_forth _ n ns Gn) as (ns' & Gn' & E). destruct (v_or _ _ _ V n ns' Gn' S) as (s & I & Ss). exists s. split; [apply E; exact I|exact Ss].
    + intros i f v st Sf K. apply (stored_is h m t R) in Sf. destruct Sf as (G & F). destruct (forth _ i f G F) as (i' & f' & G' & F' & (A & _)). pose proof (get_name h' m' t' R' _ _ _ G' F') as N'.
      unfold demoted in A. rewrite K in A. rewrite K in A. destruct (f_kind f') as [|v' st'| |] eqn:K'; cbn in A; try contradiction. apply A. rewrite <- N'. apply (v_values _ _ _ V i' f' v' st'); [apply (stored_is h' m' t' R'); rewrite N'; auto|exact K'].
    + intros c I. apply in_app_or in I. destruct I as [I|I].
      * destruct (boolean_to c I) as (c' & I' & E). rewrite E. apply (v_constraints _ _ _ V). apply in_or_app. auto.
      * destruct (Forall2_left _ _ _ _ (bl_nonboolean _ _ _ _ Mb) I) as (c' & I' & B). rewrite (back_value c c' (in_nonboolean m c I) (in_nonboolean m' c' I') B). apply (v_constraints _ _ _ V). apply in_or_app. auto.
    + intros x I. destruct (Forall2_left _ _ _ _ (bl_mixed _ _ _ _ Mb) I) as (x' & I' & B & Eq & Ek). rewrite <- Eq, <- Ek.
      apply (below_mixed a _ _ _ _ (back_leaves _ _ (in_mixed m x I) (in_mixed m' x' I') B) (back_value _ _ (in_mixed m x I) (in_mixed m' x' I') B true a)). exact (v_mixed _ _ _ V x' I').
  - intros (S0 & V).
    assert (Src : forall i' f', stored h' m' i' f' -> f_name f' <> T "root" -> exists i f, stored h m i f /\ f_name f = f_name f' /\ below_alike f f').
    { intros i' f' Sf N. apply (stored_is h' m' t' R') in Sf. destruct Sf as (G & F). destruct (from _ i' G) as [E|(i & Gi)]; [contradiction|]. destruct (get_stored h m t R _ i Gi) as (f & Sf & Nf).
      destruct (forth _ i f Gi (proj2 Sf)) as (j & g & Gj & Fj & A). assert (j = i') as -> by congruence. assert (g = f') as -> by congruence. exists i, f. auto. }
    assert (Top : forall i' f', stored h' m' i' f' -> f_name f' = T "root" -> i' = r0 /\ f' = f0).
    { intros i' f' Sf N. apply (stored_is h' m' t' R') in Sf. destruct Sf as (G & F). rewrite N, Gr in G. injection G as <-. split; [reflexivity|congruence]. }
    assert (Bin : forall f f', below_alike f f' -> f_kind f' = FBinary -> f_kind f = FBinary \/ f_kind f = FRoot).
    { intros f f' (A & _) K. rewrite K in A. unfold demoted in A. destruct (f_kind f) eqn:Kf; auto; rewrite Kf in A; cbn in A; try discriminate; contradiction. }
    constructor.
    + intros i' f' Sf K. destruct (list_eq_dec ascii_dec (f_name f') (T "root")) as [E|E]; [rewrite E; exact S0|]. exfalso. destruct (Src i' f' Sf E) as (i & f & _ & _ & (A & _)). rewrite K in A. unfold demoted in A. destruct (f_kind f) eqn:Kf; try rewrite Kf in A; cbn in A; try discriminate; contradiction.
    + intros i' f' p' g' r Sf K H Fg S. destruct (list_eq_dec ascii_dec (f_name f') (T "root")) as [E|E]; [destruct (Top i' f' Sf E) as (-> & ->); congruence|].
      destruct (hangs_parent h' m' t' R' i' p' r f' Sf H (ex_intro _ g' Fg)) as (u & Gu). pose proof (get_name h' m' t' R' u p' g' Gu Fg) as Nu. rewrite Nu.
      destruct (hang_back _ i' u p' r (stored_get h' m' t' R' _ _ Sf) Gu H) as [(-> & _)|(i & p & Gi & Gp & H0)]; [exact S0|]. destruct (Src i' f' Sf E) as (i0 & f & Sf0 & Nf & A). assert (i0 = i) as -> by (rewrite <- Nf, (stored_get h m t R i0 f Sf0) in Gi; congruence).
      destruct (get_stored h m t R u p Gp) as (g & Sg & Ng). rewrite <- Ng. destruct (Bin f f' A K) as [Kf|Kf]; [|destruct (hangs_root h m t R i f p r Sf0 Kf H0)]. apply (v_parent _ _ _ V i f p g r Sf0 Kf H0 (proj2 Sg)). rewrite Nf. exact S.
    + intros i' f' p' g' Sf K O H Fg S. destruct (list_eq_dec ascii_dec (f_name f') (T "root")) as [E|E]; [destruct (Top i' f' Sf E) as (-> & ->); congruence|].
      destruct (hangs_parent h' m' t' R' i' p' None f' Sf H (ex_intro _ g' Fg)) as (u & Gu). pose proof (get_name h' m' t' R' u p' g' Gu Fg) as Nu. destruct (Src i' f' Sf E) as (i0 & f & Sf0 & Nf & A).
      destruct (hang_back _ i' u p' None (stored_get h' m' t' R' _ _ Sf) Gu H) as [(-> & _ & Ei)|(i & p & Gi & Gp & H0)].
      * rewrite <- Nf. apply (v_root _ _ _ V i0 f Sf0). apply (root_kind (f_name f) i0 f); [exact (stored_get h m t R _ _ Sf0)|exact (proj2 Sf0)|]. rewrite <- Ei, <- Nf. exact (stored_get h m t R _ _ Sf0).
      * assert (i0 = i) as -> by (rewrite <- Nf, (stored_get h m t R i0 f Sf0) in Gi; congruence). destruct (get_stored h m t R u p Gp) as (g & Sg & Ng). rewrite <- Nf.
        destruct (Bin f f' A K) as [Kf|Kf]; [|destruct (hangs_root h m t R i f p None Sf0 Kf H0)]. apply (v_mandatory _ _ _ V i f p g Sf0 Kf); [|exact H0|exact (proj2 Sg)|].
        -- destruct A as (_ & B & _). rewrite <- B; [exact O|congruence|exact Kf].
        -- rewrite Ng, <- Nu. exact S.
    + intros n ns' Gn S. destruct (members_back _ n ns' Gn) as (ns & Gn0 & E). destruct (v_alternative _ _ _ V n ns Gn0 S) as (s & I & Ss & U). exists s. split; [apply E; exact I|]. split; [exact Ss|]. intros s' I'. apply U. apply E. exact I'.
    + intros n ns' Gn S. destruct (members_back _ n ns' Gn) as (ns & Gn0 & E). destruct (v_or _ _ _ V n ns Gn0 S) as (s & I & Ss). exists s. split; [apply E; exact I|exact Ss].
    + intros i' f' v st Sf K. destruct (list_eq_dec ascii_dec (f_name f') (T "root")) as [E|E]; [destruct (Top i' f' Sf E) as (-> & ->); congruence|]. destruct (Src i' f' Sf E) as (i & f & Sf0 & Nf & (A & _)).
      rewrite K in A. unfold demoted in A. destruct (f_kind f) as [|v0 st0| |] eqn:Kf; try rewrite Kf in A; cbn in A; try discriminate; try contradiction. apply A. rewrite <- Nf. exact (v_values _ _ _ V i f v0 st0 Sf0 Kf).
    + intros c' I. apply in_app_or in I. destruct I as [I|I].
      * destruct (boolean_from c' I) as [(c & Ic & E & _)|(u & v & i & j & p & g & Gu & Gv & N & Gp & Hi & Hj & E & _)]; [rewrite <- E; exact (v_constraints _ _ _ V c Ic)|].
        rewrite E. do 2 f_equal. destruct (a_bool a u) eqn:Eu, (a_bool a v) eqn:Ev; try reflexivity. exfalso.
        destruct (get_stored h m t R u i Gu) as (f & Sf & Nf). destruct (get_stored h m t R g p Gp) as (fp & Sp & Np). pose proof (hangs_group_of h m t R i f p _ Sf Hi) as Gk.
        destruct (proj2 (proj2 (Pg p _ Gk)) i) as (f1 & F1 & K1 & _); [split; [eauto|exact (hangs_above h m t R i p _ _ Hi Gp)]|]. assert (f1 = f) as -> by (rewrite (proj2 Sf) in F1; congruence).
        pose proof (v_parent _ _ _ V i f p fp _ Sf K1 Hi (proj2 Sp)) as Sel. rewrite Nf, Np in Sel. specialize (Sel Eu).
        destruct (grouped_by h m t R p _ g Gp Gk) as (ns & Gn). destruct (members_hang h m t R _ g ns Ne Gn) as (p0 & Gp0 & _ & M). assert (p0 = p) as -> by congruence.
        destruct (v_alternative _ _ _ V g ns Gn Sel) as (s & _ & _ & Un). assert (u = v); [|congruence]. rewrite (Un u), (Un v); [reflexivity| | | |]; try assumption; apply M; eauto.
      * destruct (Forall2_right _ _ _ _ (bl_nonboolean _ _ _ _ Mb) I) as (c & I' & B). rewrite <- (back_value c c' (in_nonboolean m c I') (in_nonboolean m' c' I) B). apply (v_constraints _ _ _ V). apply in_or_app. auto.
    + intros x' I. destruct (Forall2_right _ _ _ _ (bl_mixed _ _ _ _ Mb) I) as (x & I' & B & Eq & Ek). rewrite Eq, Ek.
      apply (below_mixed a _ _ _ _ (back_leaves _ _ (in_mixed m x I') (in_mixed m' x' I) B) (back_value _ _ (in_mixed m x I') (in_mixed m' x' I) B true a)). exact (v_mixed _ _ _ V x I').
Qed.
Lemma below_supported : supported h' m'.
Proof.
  destruct mb0 as (t' & R'). destruct (bl_root _ _ _ _ Mb) as (r0 & f0 & Er & Gr & Fr0 & Kr & _).
  assert (Src : forall i' f', stored h' m' i' f' -> f' = f0 \/ exists i f, stored h m i f /\ f_name f = f_name f' /\ below_alike f f' /\ back (demoted f) f').
  { intros i' f' Sf. apply (stored_is h' m' t' R') in Sf. destruct Sf as (G & F). destruct (from _ i' G) as [E|(i & Gi)]; [left; rewrite E in G; congruence|right]. destruct (get_stored h m t R _ i Gi) as (f & Sf & Nf).
    destruct (forth _ i f Gi (proj2 Sf)) as (j & g & Gj & Fj & A). destruct (bl_features _ _ _ _ Mb _ i f Gi (proj2 Sf)) as (j2 & g2 & Gj2 & Fj2 & B). assert (j = i') as -> by congruence. assert (g = f') as -> by congruence. assert (j2 = i') as -> by congruence. assert (g2 = f') as -> by congruence. exists i, f. auto. }
  constructor.
  - intros i' f' Sf K. destruct (Src i' f' Sf) as [->|(i & f & Sf0 & Nf & (A & _) & _)]; [congruence|]. apply (su_kinds _ _ Su i f Sf0). rewrite K in A. unfold demoted in A. destruct (f_kind f) eqn:Kf; try rewrite Kf in A; cbn in A; try discriminate; try contradiction. reflexivity.
  - intros i' f' p' g' r Sf K H Fg. destruct (hangs_parent h' m' t' R' i' p' r f' Sf H (ex_intro _ g' Fg)) as (u & Gu).
    destruct (hang_back _ i' u p' r (stored_get h' m' t' R' _ _ Sf) Gu H) as [(-> & _)|(i & p & Gi & Gp & H0)]; [assert (p' = r0) as -> by congruence; assert (g' = f0) as -> by congruence; rewrite Kr; reflexivity|].
    destruct (Src i' f' Sf) as [->|(i0 & f & Sf0 & Nf & A & _)]; [congruence|]. assert (i0 = i) as -> by (rewrite <- Nf, (stored_get h m t R i0 f Sf0) in Gi; congruence). destruct (get_stored h m t R u p Gp) as (g & Sg & Ng).
    destruct (forth u p g Gp (proj2 Sg)) as (p2 & g2 & X1 & X2 & X3). assert (p2 = p') as -> by congruence. assert (g2 = g') as -> by congruence. rewrite <- (below_numeric _ _ X3). apply (su_parents _ _ Su i f p g r Sf0); [|exact H0|exact (proj2 Sg)].
    destruct A as (A & _). rewrite K in A. unfold demoted in A. destruct (f_kind f) eqn:Kf; try rewrite Kf in A; cbn in A; try discriminate; try contradiction; [reflexivity|]. destruct (hangs_root h m t R i f p r Sf0 Kf H0).
  - intros n ns' Gn E. destruct (members_back _ n ns' Gn) as (ns & Gn0 & Es). apply (su_alternatives _ _ Su n ns Gn0). subst ns'. destruct ns as [|s ns]; [reflexivity|]. destruct (proj1 (Es s) (or_introl eq_refl)).
  - intros i' f' v g Sf K. destruct (Src i' f' Sf) as [->|(i & f & Sf0 & Nf & _ & (_ & _ & Kf & _))]; [congruence|]. unfold demoted in Kf. destruct (f_kind f) as [|v0 g0| |] eqn:E; try rewrite E in Kf; cbn in Kf; try congruence.
    destruct (Li _ _ _ _ _ (stored_get h m t R _ _ Sf0) (proj2 Sf0) E) as (vs & ->). destruct Kf as (ws & Kf & _). assert (v = VList ws) as -> by congruence. exact Logic.I.
  - intros c' I a. apply in_app_or in I. destruct I as [I|I].
    + destruct (boolean_from c' I) as [(c & Ic & E & _)|(u & v & i & j & p & g & _ & _ & _ & _ & _ & _ & E & _)]; [rewrite <- E; exact (su_constraints _ _ Su c Ic a)|rewrite E; eauto].
    + destruct (Forall2_right _ _ _ _ (bl_nonboolean _ _ _ _ Mb) I) as (c & I' & B). rewrite <- (back_value c c' (in_nonboolean m c I') (in_nonboolean m' c' I) B). apply (su_constraints _ _ Su). apply in_or_app. auto.
  - intros x' I a. destruct (Forall2_right _ _ _ _ (bl_mixed _ _ _ _ Mb) I) as (x & I' & B & _). rewrite <- (back_value _ _ (in_mixed m x I') (in_mixed m' x' I) B). exact (su_mixed _ _ Su x I' a).
Qed.
Lemma below_no_xor : no_xor m -> no_xor m'.
Proof.
  intros X e I. apply in_map_iff in I. destruct I as (c' & <- & I). apply in_app_or in I. destruct I as [I|I]; [|apply in_app_or in I; destruct I as [I|I]].
  - destruct (boolean_from c' I) as [(c & Ic & _ & E)|(u & v & i & j & p & g & _ & _ & _ & _ & _ & _ & _ & E)]; [|exact E]. apply E. apply X. apply in_map. rewrite app_assoc. apply in_or_app. auto.
  - destruct (Forall2_right _ _ _ _ (bl_nonboolean _ _ _ _ Mb) I) as (c & I' & B). apply (back_xor_free c c' (in_nonboolean m c I') (in_nonboolean m' c' I) B). apply X. apply in_map. exact (in_nonboolean m c I').
  - apply in_map_iff in I. destruct I as (x' & <- & I). destruct (Forall2_right _ _ _ _ (bl_mixed _ _ _ _ Mb) I) as (x & I' & B & _). apply (back_xor_free _ _ (in_mixed m x I') (in_mixed m' x' I) B). apply X. apply in_map. exact (in_mixed m x I').
Qed.
End Below.
