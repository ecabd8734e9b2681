(** Writing a model and reading it back keeps the valid configurations. *)
From Coq Require Import List ZArith Arith Bool Ascii String Permutation Lia.
From Verif Require Import Text TextProofs ConstraintModel ConstraintSpec FeatureTreeModel FeatureTreeSpec FeatureTreeProofs FeatureTransactionModel FeatureTransactionSpec FeatureEditSpec FeatureEditProofs
  FeatureHistoryProofs FeatureBuildSpec FeatureCloneSpec FeatureCloneProofs SxfmModel XmlModel XmlSpec XmlTripSpec ConfigurationModel SolverModel SolverSpec SolverProofs SolverLoadProofs SolverEncodingProofs
  ValidSpec ValidProofs ValidCloneProofs.
Import ListNotations.

(** ** Narrow values come back *)
Lemma narrow_same vs ws : values_back vs ws -> (forall l z, vs = l ++ [z] -> Forall (fun v => - 2 ^ 31 <= v < 2 ^ 31)%Z l) -> ws = vs.
Proof.
  intros (a & b & v & -> & -> & F) N. f_equal. specialize (N a v eq_refl). induction F as [|x y a b (Ry & k & E) F IH]; [reflexivity|]. inversion N as [|? ? Rx N']; subst.
  f_equal; [|auto]. assert (k = 0)%Z by lia. lia.
Qed.

Section Trip.
Variables (h : heap) (m : fmodel) (t : tree) (h' : heap) (m' : fmodel).
Hypothesis R : represents h m t.
Hypothesis Mb : model_back h m h' m'.
Hypothesis Re : all_resolved m.
Hypothesis Re' : all_resolved m'.
Hypothesis Su : supported h m.
Hypothesis Ne : neat h m.
Hypothesis Li : listed h m.
Hypothesis Nv : narrow_values h m.
Hypothesis Pg : proper_groups h m.
Hypothesis Eg : exclusive_grouped h m.

Lemma trip_names_back s : get_feature m' s = None -> get_feature m s = None.
Proof. apply names_none. apply Permutation_sym. exact (mb_names _ _ _ _ Mb). Qed.
Lemma trip_names_forth s : get_feature m s = None -> get_feature m' s = None.
Proof. apply names_none. exact (mb_names _ _ _ _ Mb). Qed.

(** ** Parents and groups *)
Lemma grouped_apart p k : group_of h m p k -> apart h m p.
Proof.
  intros G. destruct (Pg p k G) as (-> & Two & All). split; [exact Two|]. intros a Ca. destruct (All a Ca) as (f & F & K & O). split; [exists f; auto|].
  intros b Cb N. left. destruct Ca as ((sa & Ga) & Aa). destruct Cb as ((sb & Gb) & Ab).
  destruct (above_hangs h m t R a p sa Ga Aa) as (ra & Ha). destruct (above_hangs h m t R b p sb Gb Ab) as (rb & Hb).
  destruct ra as [ka|]; [|destruct (proj2 Ne p _ sa a G Ga Ha)]. destruct rb as [kb|]; [|destruct (proj2 Ne p _ sb b G Gb Hb)].
  destruct (get_stored h m t R sa a Ga) as (fa & Sa & _). destruct (get_stored h m t R sb b Gb) as (fb & Sb & _).
  destruct (hangs_group h m t R a fa p ka Sa Ha) as (c & q & cq & X1 & X2 & X3 & X4 & X5 & X6). destruct (hangs_group h m t R b fb p kb Sb Hb) as (d & q' & cq' & Y1 & Y2 & Y3 & Y4 & Y5 & Y6).
  assert (q' = q) as -> by (eapply (proj1 Ne p); eauto). exists c, d, q, cq, ka. auto 8.
Qed.
Lemma above_feature i p : feature_above h i p -> exists cp, h_cells h p = Some cp /\ is_feature (n_data cp) = true.
Proof. intros A. induction A as [i c p cp Ci Pi Cp Dp|i c p cp q Ci Pi Cp Dp A IH]; eauto. Qed.
(** Two features of one group have the same parent, which has the group. *)
Lemma together_group a b sa sb p : get_feature m sa = Some a -> get_feature m sb = Some b -> together h a b -> feature_above h a p -> exists k, group_of h m p k /\ hangs h a p (Some k) /\ hangs h b p (Some k).
Proof.
  intros Ga Gb (ca & cb & q & cq & k & C1 & C2 & P1 & P2 & Cq & Dq) A. destruct (above_hangs h m t R a p sa Ga A) as (r & H). destruct (get_stored h m t R sa a Ga) as (fa & Sa & _).
  destruct r as [k0|].
  - destruct (hangs_group h m t R a fa p k0 Sa H) as (c & q0 & cq0 & X1 & X2 & X3 & X4 & X5 & X6). assert (q0 = q) as -> by congruence. assert (cq0 = cq) as -> by congruence.
    assert (k0 = k) as -> by congruence. exists k. split; [exists q, cq; auto|]. split; [exact H|]. exists cb. split; [exact C2|]. exists q, cq. auto.
  - exfalso. destruct H as (c & Ci & Pc). assert (p = q) as -> by congruence.
    destruct (above_feature a q A) as (cp & Cp & Dp). assert (cp = cq) as -> by congruence. rewrite Dq in Dp. discriminate.
Qed.
Lemma apart_grouped s p : get_feature m s = Some p -> apart h m p -> group_of h m p RAlternative.
Proof.
  intros Gp ((a & b & Ca & Cb & N) & All). assert (X : forall a' k, child_in h m p a' -> hangs h a' p (Some k) -> group_of h m p RAlternative).
  { intros a' k ((sa & Ga) & _) H. destruct (get_stored h m t R sa a' Ga) as (f & Sf & _). pose proof (hangs_group_of h m t R a' f p k Sf H) as Gk. destruct (Pg p k Gk) as (-> & _). exact Gk. }
  destruct Ca as ((sa & Ga) & Aa). destruct (above_hangs h m t R a p sa Ga Aa) as ([k|] & Ha); [exact (X a k (conj (ex_intro _ sa Ga) Aa) Ha)|].
  assert (Ng : forall k, ~ group_of h m p k) by (intros k Gk; exact (proj2 Ne p k sa a Gk Ga Ha)).
  exfalso. destruct (Eg s p Gp) as (k & Gk); [|exact (Ng k Gk)].
  split; [exists a, b; split; [split; eauto|split; [exact Cb|exact N]]|]. intros a' Ca'. destruct (All a' Ca') as (O & Ex). split; [exact O|]. intros b' Cb' N'.
  destruct (Ex b' Cb' N') as [Tg|St]; [|exact St]. exfalso. destruct Ca' as ((sa' & Ga') & Aa'). destruct Cb' as ((sb' & Gb') & Ab').
  destruct (together_group a' b' sa' sb' p Ga' Gb' Tg Aa') as (k & Gk & _). exact (Ng k Gk).
Qed.
Lemma trip_groups_from u p' k : get_feature m' u = Some p' -> group_of h' m' p' k -> exists p, get_feature m u = Some p /\ group_of h m p k.
Proof.
  intros G Gr. destruct (get_feature m u) as [p|] eqn:Gp; [|apply trip_names_forth in Gp; congruence]. exists p. split; [reflexivity|].
  destruct (mb_groups _ _ _ _ Mb u p p' Gp G) as (A1 & A2 & _). destruct k; [|destruct (A2 Gr)]. apply (apart_grouped u p Gp). apply A1. exact Gr.
Qed.
Lemma trip_frame : frame h m h' m'.
Proof.
  constructor.
  - exact trip_names_back.
  - intros s i f G F. destruct (mb_features _ _ _ _ Mb s i f G F) as (i' & g & G' & F' & (_ & _ & K & O)). exists i', g. split; [exact G'|]. split; [exact F'|]. split.
    + destruct (f_kind f) as [|v st| |] eqn:E; cbn in K; try (rewrite K; reflexivity). destruct (Li s i f v st G F E) as (vs & ->). destruct K as (ws & -> & B). cbn. intros z.
      rewrite (narrow_same vs ws B); [reflexivity|]. intros l z0 ->. exact (Nv s i f l z0 st G F E).
    + intros E. rewrite E in O. apply O.
  - intros s i u p r G Gp H. pose proof (hangs_above h m t R i p r u H Gp) as A. destruct (get_stored h m t R s i G) as (f & Sf & _).
    destruct (proj2 (mb_parents _ _ _ _ Mb s u)) as (i' & p' & Gi' & Gp' & A'); [exists i, p; auto|]. exists i', p'. split; [exact Gi'|]. split; [exact Gp'|].
    destruct (mb_groups _ _ _ _ Mb u p p' Gp Gp') as (_ & _ & C). destruct (C i' (conj (ex_intro _ s Gi') A')) as (C1 & C2). destruct r as [k|].
    + pose proof (hangs_group_of h m t R i f p k Sf H) as Gk. destruct (Pg p k Gk) as (-> & _). apply C1. exact (grouped_apart p _ Gk).
    + apply C2. intros Ap. exact (proj2 Ne p _ s i (apart_grouped u p Gp Ap) G H).
  - intros u p k G Gr. destruct (get_feature m' u) as [p'|] eqn:Gp'; [|apply trip_names_back in Gp'; congruence]. exists p'. split; [reflexivity|].
    destruct (mb_groups _ _ _ _ Mb u p p' G Gp') as (A1 & _). destruct (Pg p k Gr) as (-> & _). apply A1. exact (grouped_apart p _ Gr).
Qed.
Lemma trip_neat : neat h' m'.
Proof.
  destruct (mb_represented _ _ _ _ Mb) as (t' & R'). split.
  - intros p q q' c c' Q Q' C C' P P'. exact (mb_one_group _ _ _ _ Mb p q q' c c' Q Q' C C' P P').
  - eapply none_beside; [exact R|exact R'|exact trip_frame|exact trip_names_forth|exact trip_groups_from|exact (proj2 Ne)].
Qed.
Lemma trip_frame_back : frame h' m' h m.
Proof. destruct (mb_represented _ _ _ _ Mb) as (t' & R'). eapply frame_back; [exact R|exact R'|exact trip_frame|exact trip_names_forth|exact trip_groups_from]. Qed.

(** ** Constraints *)
Lemma spelled_crel g e x : spelled g e x -> crel (called_in g) e x.
Proof. intros X. induction X; constructor; assumption. Qed.
Lemma crel_spelled g e x : crel (called_in g) e x -> spelled g e x.
Proof. intros X. induction X; constructor; assumption. Qed.
Lemma meet e e' x : (forall r, In r (leaves e) -> exists s i, r = Ref i /\ get_feature m s = Some i) -> (forall r, In r (leaves e') -> exists s i, r = Ref i /\ get_feature m' s = Some i) ->
  spelled h e x -> spelled h' e' x -> crel (corresponds m m') e e'.
Proof.
  intros L L' S1 S2. destruct (mb_represented _ _ _ _ Mb) as (t' & R').
  assert (C : crel (fun r r' => exists s, called_in h r s /\ called_in h' r' s) e e').
  { eapply (crel_compose (called_in h) (fun s r => called_in h' r s)); [|apply spelled_crel; exact S1|apply crel_sym, spelled_crel; exact S2]. intros r s r' A B. exists s. auto. }
  apply (crel_refine _ _ _ _ C). intros r r' I I' (s & E & E').
  destruct (L r I) as (u & i & -> & G). destruct (L' r' I') as (u' & i' & -> & G'). exists u, i, i'. split; [reflexivity|]. split; [reflexivity|]. split; [exact G|].
  destruct E as (f & F & N). destruct E' as (f' & F' & N'). rewrite (get_name h m t R u i f G F) in N. rewrite (get_name h' m' t' R' u' i' f' G' F') in N'. congruence.
Qed.
Lemma spelled_exists g md tr e : represents g md tr -> (forall r, In r (leaves e) -> exists s i, r = Ref i /\ get_feature md s = Some i) -> exists x, spelled g e x.
Proof.
  intros Rg. induction e as [o l IHl r IHr|o e IH|n|r]; intros L; cbn [leaves] in L.
  - destruct IHl as (x & X); [intros r0 I; apply L; apply in_or_app; auto|]. destruct IHr as (y & Y); [intros r0 I; apply L; apply in_or_app; auto|]. exists (CBin o x y). constructor; assumption.
  - destruct (IH L) as (x & X). exists (CUn o x). constructor. exact X.
  - exists (CInt n). constructor.
  - destruct (L r (or_introl eq_refl)) as (s & i & -> & G). destruct (get_stored g md tr Rg s i G) as (f & (_ & F) & N). exists (CFeat (U s)). constructor. exists f. split; [exact F|]. rewrite T_U. exact N.
Qed.
Lemma spelled_implies g e x : spelled g e x -> spelled g (excludes_as_implies e) (excludes_as_implies x).
Proof. intros S1. apply crel_spelled, implies_crel, spelled_crel. exact S1. Qed.
Lemma resolved_leaves c : In c (all_constraints m) -> forall r, In r (leaves (c_expr c)) -> exists s i, r = Ref i /\ get_feature m s = Some i.
Proof. intros I r. apply Re. exact I. Qed.
Lemma resolved_leaves' c : In c (all_constraints m') -> forall r, In r (leaves (c_expr c)) -> exists s i, r = Ref i /\ get_feature m' s = Some i.
Proof. intros I r. apply Re'. exact I. Qed.
Lemma meet_value c c' x : In c (all_constraints m) -> In c' (all_constraints m') -> spelled h (c_expr c) x -> spelled h' (c_expr c') x \/ spelled h' (c_expr c') (excludes_as_implies x) ->
  forall mixed a, value_of h mixed a (c_expr c) = value_of h' mixed a (c_expr c').
Proof.
  intros I I' S1 S2 mixed a. destruct (mb_represented _ _ _ _ Mb) as (t' & R'). destruct S2 as [S2|S2].
  - apply (same_value h m t h' m' t' R R' trip_frame). exact (meet _ _ _ (resolved_leaves c I) (resolved_leaves' c' I') S1 S2).
  - rewrite <- (same_value h m t h' m' t' R R' trip_frame mixed a (excludes_as_implies (c_expr c)) (c_expr c')).
    + symmetry. apply implies_meaning.
    + apply (meet _ _ (excludes_as_implies x)); [rewrite implies_leaves; exact (resolved_leaves c I)|exact (resolved_leaves' c' I')|apply spelled_implies; exact S1|exact S2].
Qed.
Lemma pair_dec {F} (e : cexpr F) : pair e \/ ~ pair e.
Proof.
  destruct e as [o l r|o e|n|r]; try (right; intros (o' & a & b & _ & X); discriminate).
  destruct l as [| | |a]; try (right; intros (o' & a & b & _ & X); discriminate). destruct r as [| | |b]; try (right; intros (o' & x & y & _ & X); discriminate).
  destruct o; try (right; intros (o' & x & y & [-> | ->] & X); discriminate); left; eexists _, a, b; (split; [|reflexivity]); auto.
Qed.
Lemma pair_spelled g e x : spelled g e x -> pair x -> pair e.
Proof.
  intros S1 (o & a & b & O & ->). inversion S1 as [? l r ? ? Sl Sr| | |]; subst. inversion Sl; subst. inversion Sr; subst. eexists o, _, _. split; [exact O|reflexivity].
Qed.
(** Mixed constraints are no pairs. *)
Lemma mixed_no_pair x e : In x (m_mixed m) -> spelled h (c_expr (x_con x)) e -> ~ pair e.
Proof.
  intros I S1 P. apply (pair_spelled _ _ _ S1) in P. destruct P as (o & a & b & O & E). destruct (su_mixed _ _ Su x I (Assignment (fun _ => true) (fun _ => 0%Z) (fun _ => 0%Z))) as (v & V).
  rewrite E in V. unfold value_of in V. cbn [meaning] in V.
  assert (X : forall r, exists y, leaf_value h true (Assignment (fun _ => true) (fun _ => 0%Z) (fun _ => 0%Z)) r = Some y -> exists z, y = Number z).
  { intros r. exists (Number 0). intros _. eauto. }
  clear X. assert (X : forall r y, leaf_value h true (Assignment (fun _ => true) (fun _ => 0%Z) (fun _ => 0%Z)) r = Some y -> exists z, y = Number z).
  { intros r y. unfold leaf_value. destruct r as [s|i]; [intros [= <-]; eauto|]. destruct (feature_at h i) as [f|]; [|discriminate]. intros [= <-]. destruct (numeric_kind (f_kind f)); eauto. }
  destruct (leaf_value h true _ a) as [ya|] eqn:Ea; [|discriminate]. destruct (X _ _ Ea) as (za & ->). destruct (leaf_value h true _ b) as [yb|] eqn:Eb; [|discriminate]. destruct (X _ _ Eb) as (zb & ->).
  destruct O as [-> | ->]; discriminate.
Qed.

(** Where the constraints come from. *)
Lemma boolean_from c' : In c' (m_boolean m') ->
  (exists c, In c (m_boolean m ++ m_nonboolean m) /\ (forall a, value_of h false a (c_expr c) = value_of h' false a (c_expr c')) /\ (xor_free (c_expr c) -> xor_free (c_expr c'))) \/
  (exists u v i j p g, get_feature m u = Some i /\ get_feature m v = Some j /\ i <> j /\ get_feature m g = Some p /\ hangs h i p (Some RAlternative) /\ hangs h j p (Some RAlternative) /\
    (forall a, value_of h' false a (c_expr c') = Some (Truth (negb (a_bool a u && a_bool a v)))) /\ xor_free (c_expr c')).
Proof.
  intros I'. destruct (mb_represented _ _ _ _ Mb) as (t' & R'). assert (A' : In c' (all_constraints m')) by (unfold all_constraints; apply in_or_app; auto).
  destruct (spelled_exists h' m' t' (c_expr c') R' (resolved_leaves' c' A')) as (e & Se).
  destruct (proj1 (mb_boolean _ _ _ _ Mb e)) as [(P & c & Ic & Sc)|[(a & b & i & j & -> & Ga & Gb & N & Tg)|(x & -> & Np & c & Ic & Sc)]]; [exists c'; auto| | |].
  - left. exists c. unfold all_constraints in Ic. rewrite app_assoc in Ic. apply in_app_or in Ic. destruct Ic as [Ic|Ic].
    + split; [exact Ic|]. assert (In c (all_constraints m)) as Ac by (unfold all_constraints; rewrite app_assoc; apply in_or_app; auto). split; [intros asg; exact (meet_value c c' e Ac A' Sc (or_introl Se) false asg)|].
      intros X. eapply crel_xor_free; [|exact X]. exact (meet _ _ _ (resolved_leaves c Ac) (resolved_leaves' c' A') Sc Se).
    + apply in_map_iff in Ic. destruct Ic as (x & <- & Ix). destruct (mixed_no_pair x e Ix Sc P).
  - right. inversion Se as [? l r ? ? Sl Sr| | |]; subst. inversion Sl as [| | |ra ? Ca]; subst. inversion Sr as [| | |rb ? Cb]; subst.
    destruct (get_stored h m t R (T a) i Ga) as (f & Sf & Nf). 
    assert (exists p, feature_above h i p) as (p & Ap).
    { destruct Tg as (ca & cb & q & cq & k & C1 & C2 & P1 & P2 & Cq & Dq). destruct (f_kind f) eqn:K.
      3: { exfalso. pose proof (represents_tree_shaped _ _ _ R) as TS. destruct (ts_parent _ _ TS i) as (c2 & p2 & cp2 & X1 & X2 & X3 & X4 & _).
        - unfold nodes. apply in_or_app. left. exact (proj1 Sf).
        - intros E. destruct (ts_root _ _ TS) as (r & cr & fr & Er & _ & Cr & Pr & _). rewrite E in Er. injection Er as <-. congruence.
        - assert (p2 = q) as -> by congruence. unfold nodes in X3. apply in_app_or in X3. destruct X3 as [J|J].
          + apply in_map_iff in J. destruct J as ((s2 & j2) & E2 & J). cbn in E2. subst j2. destruct (ts_stored _ _ TS s2 q J) as (f2 & F2 & _). unfold feature_at in F2. rewrite Cq in F2. cbn in F2. rewrite Dq in F2. discriminate.
          + destruct (group_cell h m t R q J) as (k0 & p0 & e0 & n0 & ns0 & C0 & _). apply (hangs_root h m t R i f p0 (Some k0) Sf K). exists ca. split; [exact C1|]. eexists q, _. split; [exact P1|]. split; [exact C0|]. auto. }
      all: destruct (hangs_below h m t R i f Sf) as (p1 & g1 & r1 & H1 & S1 & _ & _); [rewrite K; discriminate|]; exists p1; exact (hangs_above h m t R i p1 r1 _ H1 (stored_get h m t R p1 g1 S1)). }
    destruct (together_group i j (T a) (T b) p Ga Gb Tg Ap) as (k & Gk & Hi & Hj). destruct (Pg p k Gk) as (-> & _ & Bin). destruct (group_parent h m t R _ p Gk) as (gp & Sg).
    assert (Ab : feature_above h j p) by exact (hangs_above h m t R j p _ _ Hj (stored_get h m t R p gp Sg)).
    exists (T a), (T b), i, j, p, (f_name gp). split; [exact Ga|]. split; [exact Gb|]. split; [exact N|]. split; [exact (stored_get h m t R p gp Sg)|]. split; [exact Hi|]. split; [exact Hj|].
    assert (V : forall r s n asg, In r (leaves (c_expr c')) -> called_in h' r s -> get_feature m (T s) = Some n -> child_in h m p n -> leaf_value h' false asg r = Some (Truth (a_bool asg (T s)))).
    { intros r s n asg Ir Cr Gn Cn. destruct (resolved_leaves' c' A' r Ir) as (u & x & -> & Gx). destruct Cr as (g & Fg & Ng). pose proof (get_name h' m' t' R' u x g Gx Fg) as Eu.
      destruct (Bin n Cn) as (fn & Fn & Kn & _). destruct (fr_features _ _ _ _ trip_frame (T s) n fn Gn Fn) as (x2 & g2 & Gx2 & Fx2 & Al & _). assert (x2 = x) as -> by congruence. assert (g2 = g) as -> by congruence.
      cbn [leaf_value]. rewrite Fg, <- (alike_numeric _ _ Al), Kn, Ng. reflexivity. }
    match goal with H : c_expr c' = _ |- _ => rename H into Ec | H : _ = c_expr c' |- _ => symmetry in H; rename H into Ec end. split; [|cbn; repeat split; discriminate].
    intros asg. unfold value_of. rewrite Ec in V. cbn [meaning]. rewrite (V ra a i asg), (V rb b j asg); [reflexivity| | | | | | | |]; cbn [leaves app In]; auto; (split; [eauto|assumption]).
  - left. exists c. assert (In c (all_constraints m)) as Ac by (unfold all_constraints; apply in_or_app; auto). split; [apply in_or_app; auto|]. split; [intros asg; exact (meet_value c c' x Ac A' Sc (or_intror Se) false asg)|].
    intros X. apply (crel_xor_free (corresponds m m') (excludes_as_implies (c_expr c))).
    + apply (meet _ _ (excludes_as_implies x)); [rewrite implies_leaves; exact (resolved_leaves c Ac)|exact (resolved_leaves' c' A')|apply spelled_implies; exact Sc|exact Se].
    + clear - X. induction (c_expr c) as [o l IHl r IHr|o e IH|n|r]; try exact X; cbn [xor_free] in X; [destruct o|destruct o]; cbn [excludes_as_implies xor_free]; intuition discriminate.
Qed.
Lemma boolean_to c : In c (m_boolean m) -> exists c', In c' (m_boolean m') /\ forall a, value_of h false a (c_expr c) = value_of h' false a (c_expr c').
Proof.
  intros I. assert (Ac : In c (all_constraints m)) by (unfold all_constraints; apply in_or_app; auto). destruct (spelled_exists h m t (c_expr c) R (resolved_leaves c Ac)) as (e & Se).
  destruct (pair_dec e) as [P|P].
  - destruct (proj2 (mb_boolean _ _ _ _ Mb e)) as (c' & I' & S'); [left; split; [exact P|exists c; auto]|]. exists c'. split; [exact I'|]. intros a.
    apply (meet_value c c' e Ac); [unfold all_constraints; apply in_or_app; auto|exact Se|left; exact S'].
  - destruct (proj2 (mb_boolean _ _ _ _ Mb (excludes_as_implies e))) as (c' & I' & S'); [right; right; exists e; split; [reflexivity|]; split; [exact P|exists c; auto]|]. exists c'. split; [exact I'|]. intros a.
    apply (meet_value c c' e Ac); [unfold all_constraints; apply in_or_app; auto|exact Se|right; exact S'].
Qed.
Lemma in_nonboolean md c : In c (m_nonboolean md) -> In c (all_constraints md).
Proof. intros I. unfold all_constraints. apply in_or_app. right. apply in_or_app. auto. Qed.
Lemma in_mixed md x : In x (m_mixed md) -> In (x_con x) (all_constraints md).
Proof. intros I. unfold all_constraints. apply in_or_app. right. apply in_or_app. right. apply in_map. exact I. Qed.
Lemma back_value c c' : In c (all_constraints m) -> In c' (all_constraints m') -> constraint_back h h' c c' -> forall mixed a, value_of h mixed a (c_expr c) = value_of h' mixed a (c_expr c').
Proof. intros I I' (x & S1 & S2). exact (meet_value c c' x I I' S1 (or_intror S2)). Qed.
Lemma back_leaves c c' : In c (all_constraints m) -> In c' (all_constraints m') -> constraint_back h h' c c' -> Forall2 (corresponds m m') (leaves (c_expr c)) (leaves (c_expr c')).
Proof.
  intros I I' (x & S1 & S2). rewrite <- (implies_leaves (c_expr c)). apply crel_leaves.
  apply (meet _ _ (excludes_as_implies x)); [rewrite implies_leaves; exact (resolved_leaves c I)|exact (resolved_leaves' c' I')|apply spelled_implies; exact S1|exact S2].
Qed.
Lemma back_xor_free c c' : In c (all_constraints m) -> In c' (all_constraints m') -> constraint_back h h' c c' -> xor_free (c_expr c) -> xor_free (c_expr c').
Proof.
  intros I I' (x & S1 & S2) X. apply (crel_xor_free (corresponds m m') (excludes_as_implies (c_expr c))).
  - apply (meet _ _ (excludes_as_implies x)); [rewrite implies_leaves; exact (resolved_leaves c I)|exact (resolved_leaves' c' I')|apply spelled_implies; exact S1|exact S2].
  - clear - X. induction (c_expr c) as [o l IHl r IHr|o e IH|n|r]; try exact X; cbn [xor_free] in X; [destruct o|destruct o]; cbn [excludes_as_implies xor_free]; intuition discriminate.
Qed.

Lemma trip_valid a : SolverSpec.valid h' m' a <-> SolverSpec.valid h m a.
Proof.
  destruct (mb_represented _ _ _ _ Mb) as (t' & R'). split.
  - apply (valid_transfer h' m' t' h m t R' R trip_frame_back trip_frame).
    + intros V c I. apply in_app_or in I. destruct I as [I|I].
      * destruct (boolean_to c I) as (c' & I' & E). rewrite E. apply (v_constraints _ _ _ V). apply in_or_app. auto.
      * destruct (Forall2_left _ _ _ _ (mb_nonboolean _ _ _ _ Mb) I) as (c' & I' & B). rewrite (back_value c c' (in_nonboolean m c I) (in_nonboolean m' c' I') B). apply (v_constraints _ _ _ V). apply in_or_app. auto.
    + intros V x I. destruct (Forall2_left _ _ _ _ (mb_mixed _ _ _ _ Mb) I) as (x' & I' & B & Er & Ek). rewrite <- Er, <- Ek.
      eapply (same_mixed h' m' t' h m t R' R trip_frame_back); [|symmetry; exact (back_value _ _ (in_mixed m x I) (in_mixed m' x' I') B true a)|exact (v_mixed _ _ _ V x' I')].
      pose proof (back_leaves _ _ (in_mixed m x I) (in_mixed m' x' I') B) as F. clear - F. induction F as [|r r' l l' C F IH]; constructor; [|exact IH]. apply corresponds_sym. exact C.
  - apply (valid_transfer h m t h' m' t' R R' trip_frame trip_frame_back).
    + intros V c' I. apply in_app_or in I. destruct I as [I|I].
      * destruct (boolean_from c' I) as [(c & Ic & E & _)|(u & v & i & j & p & g & Gu & Gv & N & Gp & Hi & Hj & E & _)]; [rewrite <- E; exact (v_constraints _ _ _ V c Ic)|].
        rewrite E. do 2 f_equal. destruct (a_bool a u) eqn:Eu, (a_bool a v) eqn:Ev; try reflexivity. exfalso.
        destruct (get_stored h m t R u i Gu) as (f & Sf & Nf). destruct (get_stored h m t R g p Gp) as (fp & Sp & Np). pose proof (hangs_group_of h m t R i f p _ Sf Hi) as Gk.
        destruct (proj2 (proj2 (Pg p _ Gk)) i) as (f0 & F0 & K0 & _); [split; [eauto|exact (hangs_above h m t R i p _ _ Hi Gp)]|]. assert (f0 = f) as -> by (rewrite (proj2 Sf) in F0; congruence).
        pose proof (v_parent _ _ _ V i f p fp _ Sf K0 Hi (proj2 Sp)) as Sel. rewrite Nf, Np in Sel. specialize (Sel Eu).
        destruct (grouped_by h m t R p _ g Gp Gk) as (ns & Gn). destruct (members_hang h m t R _ g ns Ne Gn) as (p0 & Gp0 & _ & M). assert (p0 = p) as -> by congruence.
        destruct (v_alternative _ _ _ V g ns Gn Sel) as (s & _ & _ & Un). assert (u = v); [|congruence]. rewrite (Un u), (Un v); [reflexivity| | | |]; try assumption; apply M; eauto.
      * destruct (Forall2_right _ _ _ _ (mb_nonboolean _ _ _ _ Mb) I) as (c & I' & B). rewrite <- (back_value c c' (in_nonboolean m c I') (in_nonboolean m' c' I) B). apply (v_constraints _ _ _ V). apply in_or_app. auto.
    + intros V x' I. destruct (Forall2_right _ _ _ _ (mb_mixed _ _ _ _ Mb) I) as (x & I' & B & Er & Ek). rewrite Er, Ek.
      eapply (same_mixed h m t h' m' t' R R' trip_frame); [exact (back_leaves _ _ (in_mixed m x I') (in_mixed m' x' I) B)|exact (back_value _ _ (in_mixed m x I') (in_mixed m' x' I) B true a)|exact (v_mixed _ _ _ V x I')].
Qed.
Lemma trip_supported : supported h' m'.
Proof.
  destruct (mb_represented _ _ _ _ Mb) as (t' & R'). apply (supported_transfer h m t h' m' t' R R' trip_frame trip_frame_back); [| | |exact Su].
  - intros i' f' v g Sf K. apply (stored_is h' m' t' R') in Sf. destruct Sf as (G & F). destruct (fr_features _ _ _ _ trip_frame_back _ _ _ G F) as (i & f & G1 & F1 & _).
    destruct (mb_features _ _ _ _ Mb _ _ _ G1 F1) as (i2 & f2 & G2 & F2 & (_ & _ & Kf & _)). rewrite G in G2. injection G2 as <-. rewrite F in F2. injection F2 as <-.
    destruct (f_kind f) as [|v0 g0| |] eqn:E; cbn in Kf; try congruence. destruct (Li _ _ _ _ _ G1 F1 E) as (vs & ->). destruct Kf as (ws & Kf & _). assert (v = VList ws) as -> by congruence. exact Logic.I.
  - intros c' I a. apply in_app_or in I. destruct I as [I|I].
    + destruct (boolean_from c' I) as [(c & Ic & E & _)|(u & v & i & j & p & g & _ & _ & _ & _ & _ & _ & E & _)]; [rewrite <- E; exact (su_constraints _ _ Su c Ic a)|rewrite E; eauto].
    + destruct (Forall2_right _ _ _ _ (mb_nonboolean _ _ _ _ Mb) I) as (c & I' & B). rewrite <- (back_value c c' (in_nonboolean m c I') (in_nonboolean m' c' I) B). apply (su_constraints _ _ Su). apply in_or_app. auto.
  - intros x' I a. destruct (Forall2_right _ _ _ _ (mb_mixed _ _ _ _ Mb) I) as (x & I' & B & _). rewrite <- (back_value _ _ (in_mixed m x I') (in_mixed m' x' I) B). exact (su_mixed _ _ Su x I' a).
Qed.
Lemma trip_no_xor : no_xor m -> no_xor m'.
Proof.
  intros X e I. apply in_map_iff in I. destruct I as (c' & <- & I). apply in_app_or in I. destruct I as [I|I]; [|apply in_app_or in I; destruct I as [I|I]].
  - destruct (boolean_from c' I) as [(c & Ic & _ & E)|(u & v & i & j & p & g & _ & _ & _ & _ & _ & _ & _ & E)]; [|exact E]. apply E. apply X. apply in_map. rewrite app_assoc. apply in_or_app. auto.
  - destruct (Forall2_right _ _ _ _ (mb_nonboolean _ _ _ _ Mb) I) as (c & I' & B). apply (back_xor_free c c' (in_nonboolean m c I') (in_nonboolean m' c' I) B). apply X. apply in_map. exact (in_nonboolean m c I').
  - apply in_map_iff in I. destruct I as (x' & <- & I). destruct (Forall2_right _ _ _ _ (mb_mixed _ _ _ _ Mb) I) as (x & I' & B & _). apply (back_xor_free _ _ (in_mixed m x I') (in_mixed m' x' I) B). apply X. apply in_map. exact (in_mixed m x I').
Qed.
End Trip.
